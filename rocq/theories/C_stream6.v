(** Streams of M_stream6: following the extremes of a window.

    Batch function and stream look for an expired extreme in different orders, so when the
    extreme occurs more than once they may remember different bars.  They still hold the same
    value when equal values cannot be told apart, which is the law [anti] below. *)
From Verif Require Export M_stream6 C_stream1 C_stream2 C_stream3 C_stream5 RingP.

(** [good] values are totally ordered and values that compare equal are identical. *)
Record AntiLaws (A : Arith) (good : T -> Prop) : Prop := {
  anti_ord : OrdLaws A good;
  anti_eq : forall x y, good x -> good y -> (x .<= y) = true -> (y .<= x) = true -> x = y;
  anti_zero : good #0 }.
(** The infinities are below and above every [good] value. *)
Definition InfLaw (A : Arith) (good : T -> Prop) : Prop :=
  forall x : T, good x -> (.- finf .<= x) = true /\ (x .<= finf) = true.

Section E.
Context {A : Arith}.
Variable good : T -> Prop.

Record ext_laws (cmp dom : T -> T -> bool) : Prop := {
  el_strict : strict good cmp;
  el_dom : forall v x, good v -> good x -> dom v x = negb (cmp x v);
  el_anti : forall x y, good x -> good y -> cmp x y = false -> cmp y x = false -> x = y }.

Lemma max_laws : AntiLaws A good -> ext_laws lessf le_f.
Proof.
  intros [O E _]. constructor.
  - apply strict_lt, O.
  - intros v x Hv Hx. unfold lessf, le_f. rewrite (ord_lt_le _ _ O) by assumption. rewrite negb_involutive. reflexivity.
  - unfold lessf. intros x y Hx Hy H1 H2. rewrite (ord_lt_le _ _ O) in H1, H2 by assumption. apply negb_false_iff in H1, H2. apply E; assumption.
Qed.
Lemma min_laws : AntiLaws A good -> ext_laws moref ge_f.
Proof.
  intros [O E _]. constructor.
  - apply strict_gt, O.
  - intros v x Hv Hx. unfold moref, ge_f. rewrite (ord_lt_le _ _ O) by assumption. rewrite negb_involutive. reflexivity.
  - unfold moref. intros x y Hx Hy H1 H2. rewrite (ord_lt_le _ _ O) in H1, H2 by assumption. apply negb_false_iff in H1, H2. apply E; assumption.
Qed.

(** [s] is an extreme of bars lo..hi of [g]; bar [k] has number [k + off]. *)
Definition is_ext (cmp : T -> T -> bool) (g : Z -> T) (lo hi off : Z) (s : trk) : Prop :=
  exists k, snd s = k + off /\ lo <= k <= hi /\ fst s = g k /\ forall j, lo <= j <= hi -> cmp (fst s) (g j) = false.

Section C.
Context (cmp dom : T -> T -> bool) (L : ext_laws cmp dom).

Lemma is_ext_eq g lo hi o1 o2 s1 s2 : (forall j, lo <= j <= hi -> good (g j)) ->
  is_ext cmp g lo hi o1 s1 -> is_ext cmp g lo hi o2 s2 -> fst s1 = fst s2.
Proof.
  intros G (k1 & _ & B1 & E1 & D1) (k2 & _ & B2 & E2 & D2). rewrite E1, E2 in *. apply (el_anti _ _ L); [apply G; lia|apply G; lia|apply D1; lia|apply D2; lia].
Qed.

Lemma push_ext g lo i off now s : (forall j, lo <= j <= i -> good (g j)) -> lo < i -> now = i + off ->
  is_ext cmp g lo (i - 1) off s -> is_ext cmp g lo i off (trk_push dom (g i) now s).
Proof.
  intros G Hi -> (k & E1 & B & E2 & D). unfold trk_push. destruct (el_strict _ _ L) as (S1 & S2 & S3).
  rewrite E2 in *. rewrite (el_dom _ _ L) by (apply G; lia). destruct (cmp (g i) (g k)) eqn:Ec; cbn [negb].
  - exists k. rewrite E2. split; [exact E1|]. split; [lia|]. split; [reflexivity|]. intros j Hj.
    destruct (Z.eq_dec j i) as [->|N]; [|apply D; lia]. apply S3; [apply G; lia|apply G; lia|exact Ec].
  - exists i. cbn [fst snd]. split; [reflexivity|]. split; [lia|]. split; [reflexivity|]. intros j Hj.
    destruct (Z.eq_dec j i) as [->|N]; [apply S1, G; lia|]. apply S2 with (y := g k); [apply G; lia|apply G; lia|apply G; lia|exact Ec|apply D; lia].
Qed.
Lemma push_first g i off now s : good (g i) -> dom (fst s) (g i) = true -> now = i + off -> is_ext cmp g i i off (trk_push dom (g i) now s).
Proof.
  intros G D ->. unfold trk_push. rewrite D. exists i. cbn [fst snd]. split; [reflexivity|]. split; [lia|]. split; [reflexivity|].
  intros j Hj. replace j with i by lia. apply (proj1 (el_strict _ _ L)), G.
Qed.

Lemma ext_one g i off now : good (g i) -> now = i + off -> is_ext cmp g i i off (g i, now).
Proof.
  intros G ->. exists i. cbn [fst snd]. split; [reflexivity|]. split; [lia|]. split; [reflexivity|].
  intros j Hj. replace j with i by lia. apply (proj1 (el_strict _ _ L)), G.
Qed.

(** Before bar [i]: the initial value, or the extreme of the last [n] bars. *)
Definition trk_ok (init : trk) (g : Z -> T) (n off i : Z) (s : trk) : Prop :=
  (i = 0 -> s = init) /\ (1 <= i -> is_ext cmp g (Z.max 0 (i - n)) (i - 1) off s).

Lemma next_ext init g n off i now e rescan s : 1 <= n -> 0 <= i -> now = i + off ->
  (forall j, 0 <= j <= i -> good (g j)) -> trk_ok init g n off i s ->
  e = (snd s =? now - n) ->
  (i = 0 -> dom (fst init) (g 0) = true /\ snd init =? off - n = false) ->
  (n <= i -> exists s', rescan = Ok s' /\ is_ext cmp g (i - n + 1) i off s') ->
  exists s', trk_next dom rescan e (g i) now s = Ok s' /\ is_ext cmp g (Z.max 0 (i - n + 1)) i off s'.
Proof.
  intros Hn Hi -> G [H0 H1] -> HI HR. unfold trk_next.
  destruct (Z.eq_dec i 0) as [->|N].
  - rewrite (H0 eq_refl) in *. destruct (HI eq_refl) as [D1 D2]. rewrite Z.add_0_l. rewrite D2. eexists; split; [reflexivity|].
    replace (Z.max 0 (0 - n + 1)) with 0 by lia. apply push_first; [apply G; lia|exact D1|lia].
  - destruct (H1 ltac:(lia)) as (k & E1 & B & E2 & D). rewrite E1. destruct (k + off =? i + off - n) eqn:Ee.
    + destruct (HR ltac:(lia)) as (s' & -> & Hs). eexists; split; [reflexivity|]. replace (Z.max 0 (i - n + 1)) with (i - n + 1) by lia. exact Hs.
    + eexists; split; [reflexivity|]. apply push_ext; [intros; apply G; lia|lia|reflexivity|].
      exists k. split; [exact E1|]. split; [lia|]. split; [exact E2|]. intros j Hj. apply D. lia.
Qed.
Lemma trk_ok_next init g n off i s : 0 <= i -> is_ext cmp g (Z.max 0 (i - n + 1)) i off s -> trk_ok init g n off (i + 1) s.
Proof.
  intros Hi H. split; [lia|]. intros _. replace (i + 1 - n) with (i - n + 1) by lia. replace (i + 1 - 1) with i by lia. exact H.
Qed.
Lemma wp_next init g n off i now e rescan s (Q : trk -> Prop) : trk_ok init g n off i s -> 1 <= n -> 0 <= i -> now = i + off ->
  (forall j, 0 <= j <= i -> good (g j)) ->
  e = (snd s =? now - n) ->
  (i = 0 -> dom (fst init) (g 0) = true /\ snd init =? off - n = false) ->
  (n <= i -> exists s', rescan = Ok s' /\ is_ext cmp g (i - n + 1) i off s') ->
  (forall s', is_ext cmp g (Z.max 0 (i - n + 1)) i off s' -> Q s') ->
  wp (trk_next dom rescan e (g i) now s) Q.
Proof.
  intros H1 H2 H3 H4 H5 H6 H7 H8 HQ. destruct (next_ext init g n off i now e rescan s) as (s' & -> & Hs); try assumption. apply HQ, Hs.
Qed.
(** Without the test, while the window still covers all bars. *)
Lemma push_ok init g n off i now s : trk_ok init g n off i s -> 0 <= i < n -> now = i + off ->
  (forall j, 0 <= j <= i -> good (g j)) ->
  (i = 0 -> dom (fst init) (g 0) = true) ->
  is_ext cmp g (Z.max 0 (i - n + 1)) i off (trk_push dom (g i) now s).
Proof.
  intros [H0 H1] Hi -> G HI. replace (Z.max 0 (i - n + 1)) with 0 by lia. destruct (Z.eq_dec i 0) as [->|N].
  - rewrite (H0 eq_refl). apply push_first; [apply G; lia|apply HI; reflexivity|reflexivity].
  - apply push_ext; [exact G|lia|reflexivity|]. replace 0 with (Z.max 0 (i - n)) by lia. apply H1. lia.
Qed.

(** ** The five ways to look again *)
Lemma good_list x : (forall j, 0 <= j < zlen x -> good (zf x j)) -> Forall good x.
Proof.
  intros G. apply Forall_forall. intros v Hv. apply In_nth with (d := f0) in Hv. destruct Hv as (k & Hk & <-).
  replace k with (Z.to_nat (Z.of_nat k)) by lia. apply G. unfold zlen. lia.
Qed.
Lemma rescan_rev_ok x n i : (forall j, 0 <= j < zlen x -> good (zf x j)) -> 1 <= n <= i + 1 -> i < zlen x ->
  exists s', rescan_rev cmp x n i = Ok s' /\ is_ext cmp (zf x) (i - n + 1) i 0 s'.
Proof.
  intros G Hn Hi. apply wp_ex. unfold rescan_rev.
  eapply wp_bind, wp_mono; [apply (max_elem_rev_ok good); [apply (el_strict _ _ L)|apply good_list, G|lia|lia]|].
  cbn beta. intros b [Hb D]. wps. exists b. cbn [fst snd]. split; [lia|]. split; [lia|]. split; [reflexivity|]. intros j Hj. apply D. lia.
Qed.
Lemma max_elem_ok buf lo hi : (forall j, lo <= j < hi -> good (zf buf j)) -> 0 <= lo < hi -> hi <= zlen buf ->
  exists b, max_elem cmp buf lo hi = Ok b /\ lo <= b < hi /\ forall j, lo <= j < hi -> cmp (zf buf b) (zf buf j) = false.
Proof.
  intros G H1 H2. destruct (el_strict _ _ L) as (S1 & S2 & S3). apply wp_ex. unfold max_elem. wps.
  apply (wp_for (fun j b => lo <= b < j /\ forall k, lo <= k < j -> cmp (zf buf b) (zf buf k) = false)); [lia| | |].
  - split; [lia|]. intros k Hk. replace k with lo by lia. apply S1, G. lia.
  - intros i b Hi [Hb D]. wps. destruct (cmp (zf buf b) (zf buf i)) eqn:Ec.
    + split; [lia|]. intros k Hk. destruct (Z.eq_dec k i) as [->|N]; [apply S1, G; lia|].
      apply S2 with (y := zf buf b); [apply G; lia|apply G; lia|apply G; lia|apply S3; [apply G; lia|apply G; lia|exact Ec]|apply D; lia].
    + split; [lia|]. intros k Hk. destruct (Z.eq_dec k i) as [->|N]; [exact Ec|apply D; lia].
  - intros b Hb. exact Hb.
Qed.
Lemma rescan_fwd_ok x n i : (forall j, 0 <= j < zlen x -> good (zf x j)) -> 1 <= n <= i + 1 -> i < zlen x ->
  exists s', rescan_fwd cmp x n i = Ok s' /\ is_ext cmp (zf x) (i - n + 1) i 0 s'.
Proof.
  intros G Hn Hi. unfold rescan_fwd. destruct (max_elem_ok x (i - n + 1) (i + 1)) as (b & -> & Hb & D); [intros; apply G; lia|lia|lia|].
  cbn [bind]. rewrite rd_zf by lia. cbn [bind]. eexists; split; [reflexivity|]. exists b. cbn [fst snd].
  split; [lia|]. split; [lia|]. split; [reflexivity|]. intros j Hj. apply D. lia.
Qed.
Lemma rescan_hand_ok x n i now off : (forall j, 0 <= j < zlen x -> good (zf x j)) -> 1 <= n <= i + 1 -> i < zlen x -> now = i + off ->
  exists s', rescan_hand cmp x n i now = Ok s' /\ is_ext cmp (zf x) (i - n + 1) i off s'.
Proof.
  intros G Hn Hi ->. destruct (el_strict _ _ L) as (S1 & S2 & S3). apply wp_ex. unfold rescan_hand. wps.
  apply (wp_for (fun j s => is_ext cmp (zf x) (i - j + 1) i off s)); [lia| | |].
  - exists i. cbn [fst snd]. split; [reflexivity|]. split; [lia|]. split; [reflexivity|]. intros j Hj. replace j with i by lia. apply S1, G. lia.
  - intros j s Hj (k & E1 & B & E2 & D). wps. rewrite E2 in *. destruct (cmp (zf x k) (zf x (i - j))) eqn:Ec.
    + exists (i - j). cbn [fst snd]. split; [lia|]. split; [lia|]. split; [reflexivity|]. intros m Hm.
      destruct (Z.eq_dec m (i - j)) as [->|N]; [apply S1, G; lia|].
      apply S2 with (y := zf x k); [apply G; lia|apply G; lia|apply G; lia|apply S3; [apply G; lia|apply G; lia|exact Ec]|apply D; lia].
    + exists k. rewrite E2. split; [exact E1|]. split; [lia|]. split; [reflexivity|]. intros m Hm.
      destruct (Z.eq_dec m (i - j)) as [->|N]; [exact Ec|apply D; lia].
  - intros s Hs. exact Hs.
Qed.
Lemma zp_good x j : good #0 -> (forall j, 0 <= j < zlen x -> good (zf x j)) -> j < zlen x -> good (zp x j).
Proof. intros G0 G Hj. unfold zp. destruct (j <? 0) eqn:E; [exact G0|apply G; lia]. Qed.
Lemma rescan_ring_ok x r M n i now off : good #0 -> (forall j, 0 <= j < zlen x -> good (zf x j)) -> full r M (zp x) i ->
  1 <= n <= i + 1 -> n <= M -> i < zlen x -> now = i + off ->
  exists s', rescan_ring cmp r n now = Ok s' /\ is_ext cmp (zf x) (i - n + 1) i off s'.
Proof.
  intros G0 G (h & Hh & HE) Hn HM Hi ->. unfold rescan_ring.
  destruct (ring_find_ok good cmp r M h n) as (it & age & F1 & F2 & F3 & F4 & F5); [apply (el_strict _ _ L)|exact Hh| |lia|].
  { intros k Hk. rewrite HE by lia. apply zp_good; [exact G0|exact G|lia]. }
  rewrite F1. cbn [bind]. rewrite F4. cbn [bind]. rewrite F2. cbn [bind]. eexists; split; [reflexivity|]. exists (i - age). cbn [fst snd].
  rewrite HE by lia. rewrite zp_pos by lia. split; [lia|]. split; [lia|]. split; [reflexivity|].
  intros j Hj. specialize (F5 (i - j) ltac:(lia)). rewrite !HE in F5 by lia. rewrite !zp_pos in F5 by lia. replace (i - (i - j)) with j in F5 by lia. exact F5.
Qed.
Lemma rescan_phys_ok x r M i now off : good #0 -> (forall j, 0 <= j < zlen x -> good (zf x j)) -> full r M (zp x) i ->
  1 <= M <= i + 1 -> i < zlen x -> now = i + off ->
  exists s', rescan_phys cmp r now = Ok s' /\ is_ext cmp (zf x) (i - M + 1) i off s'.
Proof.
  intros G0 G (h & Hh & HE) Hn Hi ->. unfold rescan_phys. pose proof Hh as (R1 & R2 & R3 & R4). rewrite R1.
  assert (W : forall it, 0 <= it < M -> exists a, 0 <= a < M /\ ring_age r it = Ok a /\ zf (rbuf r) it = zf x (i - a)).
  { intros it Hit. unfold ring_age. rewrite R1. replace ((0 <=? it) && (it <? M)) with true by lia. cbn [check bind].
    rewrite Z.rem_mod_nonneg by lia. set (a := (it + (M - rpos r)) mod M).
    assert (Ha : a = if it <? rpos r then it + M - rpos r else it - rpos r).
    { unfold a. destruct (it <? rpos r) eqn:E.
      - rewrite Z.mod_small by lia. lia.
      - replace (it + (M - rpos r)) with (it - rpos r + 1 * M) by lia. rewrite Z.mod_add, Z.mod_small by lia. reflexivity. }
    exists a. split; [destruct (it <? rpos r) eqn:E; lia|]. split; [reflexivity|].
    replace it with (wrap M (rpos r + a)) at 1 by (unfold wrap; destruct (it <? rpos r) eqn:E; destruct (rpos r + a >=? M) eqn:E'; lia).
    rewrite R4 by (destruct (it <? rpos r) eqn:E; lia). rewrite HE by (destruct (it <? rpos r) eqn:E; lia). apply zp_pos. destruct (it <? rpos r) eqn:E; lia. }
  destruct (max_elem_ok (rbuf r) 0 M) as (b & -> & Hb & D); [|lia|lia|].
  { intros j Hj. destruct (W j Hj) as (a & Ha & _ & ->). apply G. lia. }
  cbn [bind]. rewrite rd_zf by lia. cbn [bind]. destruct (W b Hb) as (a & Ha & Ea & Ev). rewrite Ea. cbn [bind].
  eexists; split; [reflexivity|]. exists (i - a). cbn [fst snd]. split; [lia|]. split; [lia|]. split; [exact Ev|].
  intros j Hj. specialize (D (wrap M (rpos r + (i - j)))). rewrite (R4 (i - j)) in D by lia. rewrite HE in D by lia.
  replace (i - (i - j)) with j in D by lia. rewrite zp_pos in D by lia. apply D. unfold wrap. destruct (_ >=? _) eqn:E; lia.
Qed.
End C.

(** The inputs that are searched for extremes hold [good] values only. *)
Definition good_inputs (n : nat) : list (list T) -> Prop := fun inputs => Forall (Forall good) (firstn n inputs).
Lemma Forall_zf x : Forall good x -> forall j, 0 <= j < zlen x -> good (zf x j).
Proof. intros H j Hj. unfold zf, zn. rewrite Forall_forall in H. apply H, nth_In. unfold zlen in Hj; lia. Qed.

Context {IL : IntLaws A} (AL : AntiLaws A good).
Let Lmax := max_laws AL.
Let Lmin := min_laws AL.
Let G0 := anti_zero _ _ AL.

(** A bar of the batch function (numbered from 0) and of the stream (from -st). *)
Definition hi_ok (x : list T) n off i s := trk_ok lessf (.- finf, 0) (zf x) n off i s.
Definition lo_ok (x : list T) n off i s := trk_ok moref (finf, 0) (zf x) n off i s.

Ltac gsplit := match goal with H : good_inputs _ _ |- _ => unfold good_inputs in H; cbn [firstn] in H; inversion_clear H; repeat match goal with K : Forall (Forall good) (_ :: _) |- _ => inversion_clear K end end;
  repeat match goal with K : Forall good ?x |- _ => lazymatch goal with Q : forall j, 0 <= j < zlen x -> _ |- _ => fail | _ => pose proof (Forall_zf x K) end end.

(** The first bar, whose value replaces the infinity. *)
Lemma hi_first x off n : InfLaw A good -> 1 <= n -> off <= 0 -> good (zf x 0) -> le_f (fst (.- finf, 0)) (zf x 0) = true /\ snd (.- finf, 0) =? off - n = false.
Proof. intros IF Hn Ho G. cbn [fst snd]. split; [apply IF, G|lia]. Qed.
Lemma lo_first x off n : InfLaw A good -> 1 <= n -> off <= 0 -> good (zf x 0) -> ge_f (fst (finf, 0)) (zf x 0) = true /\ snd (finf, 0) =? off - n = false.
Proof. intros IF Hn Ho G. cbn [fst snd]. split; [apply IF, G|lia]. Qed.
Lemma opt_push (dom : T -> T -> bool) (m h : T) k i :
  (if dom m h then (h, Some i) else (m, Some k)) = (fst (trk_push dom h i (m, k)), Some (snd (trk_push dom h i (m, k)))).
Proof. unfold trk_push. cbn [fst]. destruct (dom m h); reflexivity. Qed.

Ltac goods := match goal with G : forall j, 0 <= j < zlen ?x -> good (zf ?x j) |- good (zf ?x _) => apply G; lia
  | |- forall j, _ -> good _ => intros; goods end.
(* one look at an extreme; the rescan is one of the lemmas above *)
Ltac rescan x := intros; cbn beta; first
  [ apply rescan_rev_ok with (1 := Lmax); [goods|lia|lia] | apply rescan_rev_ok with (1 := Lmin); [goods|lia|lia]
  | apply rescan_fwd_ok with (1 := Lmax); [goods|lia|lia] | apply rescan_fwd_ok with (1 := Lmin); [goods|lia|lia]
  | apply rescan_hand_ok with (1 := Lmax); [goods|lia|lia|lia] | apply rescan_hand_ok with (1 := Lmin); [goods|lia|lia|lia]
  | match goal with F : full ?r ?MM (zp x) ?i |- context[rescan_ring lessf ?r] => apply rescan_ring_ok with (1 := Lmax) (M := MM); [exact G0|goods|exact F|lia|lia|lia|lia] end
  | match goal with F : full ?r ?MM (zp x) ?i |- context[rescan_ring moref ?r] => apply rescan_ring_ok with (1 := Lmin) (M := MM); [exact G0|goods|exact F|lia|lia|lia|lia] end
  | match goal with F : full ?r ?MM (zp x) ?i |- context[rescan_phys lessf ?r] => apply rescan_phys_ok with (1 := Lmax) (M := MM); [exact G0|goods|exact F|lia|lia|lia] end
  | match goal with F : full ?r ?MM (zp x) ?i |- context[rescan_phys moref ?r] => apply rescan_phys_ok with (1 := Lmin) (M := MM); [exact G0|goods|exact F|lia|lia|lia] end ].
Ltac first_bar := let E := fresh in intros E; first [exfalso; lia | first [apply hi_first|apply lo_first]; [assumption|lia|lia|goods]].
Ltac look := match goal with
  | H : hi_ok ?x ?n ?off ?i ?s |- wp (trk_next le_f _ _ _ ?now ?s) _ =>
    apply (wp_next _ _ Lmax (.- finf, 0) (zf x) n off i now _ _ s _ H);
    [lia|lia|lia|goods|reflexivity|first_bar|rescan x|let s' := fresh "hi" in let H' := fresh "Hhi" in intros s' H']
  | H : lo_ok ?x ?n ?off ?i ?s |- wp (trk_next ge_f _ _ _ ?now ?s) _ =>
    apply (wp_next _ _ Lmin (finf, 0) (zf x) n off i now _ _ s _ H);
    [lia|lia|lia|goods|reflexivity|first_bar|rescan x|let s' := fresh "lo" in let H' := fresh "Hlo" in intros s' H']
  end.

Ltac first_push := let E := fresh in intros E; first [exfalso; lia | subst; first [apply (hi_first _ 0 1)|apply (lo_first _ 0 1)]; [assumption|lia|lia|goods]].
Ltac pushes := repeat match goal with
  | H : hi_ok ?x ?n ?off ?i ?s |- context[trk_push le_f ?v ?now ?s] => let F := fresh "Hhi" in let h := fresh "hi" in
    assert (F : is_ext lessf (zf x) (Z.max 0 (i - n + 1)) i off (trk_push le_f v now s)) by (eapply (push_ok _ _ Lmax) with (1 := H); [lia|lia|goods|first_push]);
    set (h := trk_push le_f v now s) in *; clearbody h
  | H : lo_ok ?x ?n ?off ?i ?s |- context[trk_push ge_f ?v ?now ?s] => let F := fresh "Hlo" in let h := fresh "lo" in
    assert (F : is_ext moref (zf x) (Z.max 0 (i - n + 1)) i off (trk_push ge_f v now s)) by (eapply (push_ok _ _ Lmin) with (1 := H); [lia|lia|goods|first_push]);
    set (h := trk_push ge_f v now s) in *; clearbody h
  end.
Ltac sames := repeat match goal with
  | H1 : is_ext ?c ?g ?a ?b _ ?s1, H2 : is_ext ?c ?g ?a ?b _ ?s2 |- _ =>
    lazymatch goal with E : fst s1 = fst s2 |- _ => fail | E : fst s2 = fst s1 |- _ => fail
    | _ => assert (fst s1 = fst s2) by (first [eapply (is_ext_eq _ _ Lmax); [|exact H1|exact H2]|eapply (is_ext_eq _ _ Lmin); [|exact H1|exact H2]]; goods) end
  end.

(** ** pc *)
Definition v_pc (ns : list Z) : verdict :=
  match ns with [n] => if n <? 1 then Reject else if n <? 2 then Outside else Accept (n - 1) | _ => Outside end.
Lemma pc_sim : InfLaw A good -> sim 2 2 (int_opts 1 v_pc) (good_inputs 2) ti_pc_start ti_pc ti_pc_stream_new pc_loops.
Proof.
  intros IF options v (ns & ? & ? & ->). lists. ranges. unfold ti_pc, ti_pc_stream_new, ti_pc_start, start_fm1, v_pc.
  rewrite (to_int_flt _ p) by (auto; zl). getcast. cbn [bind].
  destruct (p <? 1) eqn:E1; [reject_tac2|]. destruct (p <? 2) eqn:E2; [exact I|].
  assert (Hp1 : to_int (x .- #1) = Some (p - 1)) by (apply to_int_pred; auto; lia). getcast. cbn [bind].
  hist0 p. accept_tac. gsplit. unfold batch_loops.
  loops_tac (fun (i : Z) (a : T * option Z * T * option Z) (b : trk * trk * ring * ring) =>
    (i = 0 -> a = (.- finf, None, finf, None)) /\
    (1 <= i -> exists h kh l kl, a = (h, Some kh, l, Some kl) /\ hi_ok x0 p 0 i (h, kh) /\ lo_ok x1 p 0 i (l, kl)) /\
    hi_ok x0 p (- (p - 1)) i (fst (fst (fst b))) /\ lo_ok x1 p (- (p - 1)) i (snd (fst (fst b))) /\
    hist (snd (fst b)) p (zp x0) i /\ hist (snd b) p (zp x1) i).
  - split; [reflexivity|]. split; [lia|]. split; [split; [reflexivity|lia]|]. split; [split; [reflexivity|lia]|].
    split; (apply hist_of_ok; [exact Hr|intros; apply zp_neg; lia]).
  - replace (0 - - (p - 1)) with (p - 1) by lia. destruct (i <? p - 1) eqn:Ei.
    + rewrite !rd_zf by lia. cbn [bind].
      assert (exists h kh l kl, (let '(max, max_idx) := if t0 .<= zf x0 i then (zf x0 i, Some i) else (t0, o0) in
        let '(min, min_idx) := if zf x1 i .<= t then (zf x1 i, Some i) else (t, o) in
        Ok (max, max_idx, min, min_idx, [[]; []])) = Ok (h, Some kh, l, Some kl, [[]; []] : list (list T)) /\
        hi_ok x0 p 0 (i + 1) (h, kh) /\ lo_ok x1 p 0 (i + 1) (l, kl)) as (h & kh & l & kl & -> & Q1 & Q2).
      { destruct (Z.eq_dec i 0) as [->|N].
        - match goal with HA : 0 = 0 -> _ |- _ => specialize (HA eq_refl); injection HA; intros; subst end.
          destruct (IF (zf x0 0)) as [-> _]; [goods|]. destruct (IF (zf x1 0)) as [_ ->]; [goods|].
          do 4 eexists. split; [reflexivity|].
          split; (apply trk_ok_next; [lia|]; replace (Z.max 0 (0 - p + 1)) with 0 by lia).
          + apply (ext_one _ _ Lmax); [goods|lia].
          + apply (ext_one _ _ Lmin); [goods|lia].
        - match goal with HA : 1 <= i -> exists h, _ |- _ => destruct HA as (h & kh & l & kl & EA & A1 & A2); [lia|] end.
          injection EA; intros; subst.
          change (h .<= zf x0 i) with (le_f h (zf x0 i)). change (zf x1 i .<= l) with (ge_f l (zf x1 i)). rewrite !opt_push.
          do 4 eexists. split; [reflexivity|]. split; (apply trk_ok_next; [lia|]); rewrite <- surjective_pairing.
          + apply (push_ok _ _ Lmax) with (1 := A1); [lia|lia|goods|lia].
          + apply (push_ok _ _ Lmin) with (1 := A2); [lia|lia|goods|lia]. }
      cbn [wp]. wpr. emit; [do 4 eexists; split; [reflexivity|split; assumption]| | | |].
      * apply trk_ok_next; [lia|]. eapply push_ok; [exact Lmax|eassumption|lia|lia|goods|]. intros ->. apply hi_first with (off := 0) (n := 1); [assumption|lia|lia|goods].
      * apply trk_ok_next; [lia|]. eapply push_ok; [exact Lmin|eassumption|lia|lia|goods|]. intros ->. apply lo_first with (off := 0) (n := 1); [assumption|lia|lia|goods].
      * apply hist_step; assumption.
      * apply hist_step; assumption.
    + match goal with HA : 1 <= i -> exists h, _ |- _ => destruct HA as (h & kh & l & kl & EA & A1 & A2); [lia|] end.
      injection EA; intros; subst.
      repeat first [look|wpr1]. sames. emit; try (apply hist_step; assumption); try (apply trk_ok_next; [lia|assumption]).
      * congruence.
      * do 4 eexists. split; [reflexivity|]. rewrite <- !surjective_pairing. split; (apply trk_ok_next; [lia|assumption]).
Qed.
Lemma pc_online : online 2 pc_loops. Proof. online_tac @pc_loops; rewrite ?Z.add_0_r; reflexivity. Qed.

(** ** ce *)
Definition o_ce : optspec := fun opts v => exists x c n, opts = [x; c] /\ to_int x = Some n /\
  v = if n <? 1 then Reject else if n <? 2 then Outside else Accept (n - 1).
Lemma ce_sim : sim 3 2 o_ce (good_inputs 2) ti_ce_start ti_ce ti_ce_stream_new ce_loops.
Proof.
  intros options v (x & c & p & -> & Hp & ->). ranges. unfold ti_ce, ti_ce_stream_new, ti_ce_start, ce_out.
  getcast. cbn [bind].
  destruct (p <? 1) eqn:E1; [reject_tac2|]. destruct (p <? 2) eqn:E2; [exact I|]. rewrite ck_ok by zl. cbn [bind].
  hist0 p. accept_tac. gsplit. unfold batch_loops.
  loops_tac (fun (i : Z) (a : T * option (trk * trk)) (b : trk * trk * T * T * ring * ring) =>
    let '(hi, lo, atr, c1, ph, pl) := b in
    (1 <= i -> fst a = atr /\ c1 = zf x2 (i - 1) /\
      exists h l, snd a = Some (h, l) /\ hi_ok x0 p 0 i h /\ lo_ok x1 p 0 i l /\ hi_ok x0 p (- (p - 1)) i hi /\ lo_ok x1 p (- (p - 1)) i lo) /\
    hist ph p (zp x0) i /\ hist pl p (zp x1) i).
  - split; [lia|]. split; (apply hist_of_ok; [exact Hr|intros; apply zp_neg; lia]).
  - replace (- p + 1 + 1 - - (p - 1)) with 1 by lia. replace (0 - - (p - 1)) with (p - 1) by lia. replace (1 - - (p - 1)) with p by lia.
    unfold ring_ext, ce_out. destruct (i <? 1) eqn:Ei.
    + assert (i = 0) as -> by lia. wpr. emit.
      * split; [reflexivity|]. split; [f_equal; lia|]. do 2 eexists. split; [reflexivity|].
        split; [|split; [|split]]; (apply trk_ok_next; [lia|]; replace (Z.max 0 (0 - p + 1)) with 0 by lia); first [apply (ext_one _ _ Lmax)|apply (ext_one _ _ Lmin)]; first [goods|lia].
      * apply hist_step; assumption.
      * apply hist_step; assumption.
    + match goal with HA : 1 <= i -> _ |- _ => destruct HA as (-> & -> & h & l & -> & A1 & A2 & A3 & A4); [lia|] end.
      destruct (i <? p - 1) eqn:Ea; [|destruct (i <? p) eqn:Eb]; repeat first [look|wpr1]; pushes; sames; emit;
      try (apply hist_step; assumption); try (f_equal; lia); try (do 2 f_equal; congruence); try congruence.
      all: (split; [reflexivity|split; [f_equal; lia|]]); do 2 eexists; (split; [reflexivity|]); (split; [|split; [|split]]); (apply trk_ok_next; [lia|assumption]).
Qed.
Lemma ce_online : online 3 ce_loops. Proof. online_tac @ce_loops; rewrite ?Z.add_0_r; reflexivity. Qed.

(** ** mhlma *)
Definition v_mhlma (ns : list Z) : verdict :=
  match ns with
  | [n; m] => if (n <? 1) || (m <? 1) then Reject else if (m <? 2) || (m =? INT_MAX) then Outside else Accept (m - 1)
  | _ => Outside
  end.
Ltac mids := match goal with E : ring_set _ (mid ?a ?b) = Ok _ |- context[mid ?c ?d] =>
  lazymatch constr:((a, b)) with (c, d) => fail | _ => replace (mid c d) with (mid a b) by (sames; unfold mid; congruence) end end.
Lemma mhlma_sim : sim 1 2 (int_opts 2 v_mhlma) (good_inputs 1) ti_mhlma_start ti_mhlma ti_mhlma_stream_new mhlma_loops.
Proof.
  intros options v (ns & ? & ? & ->). lists. ranges. unfold ti_mhlma, ti_mhlma_stream_new, ti_mhlma_start, start_fm1, v_mhlma.
  getcast. cbn [bind].
  repeat (getcast; cbn [bind]).
  destruct ((p <? 1) || (p0 <? 1)) eqn:E1; [reject_tac2|]. destruct ((p0 <? 2) || (p0 =? INT_MAX)) eqn:E2; [exact I|].
  assert (Hp1 : to_int (x0 .- #1) = Some (p0 - 1)) by (apply to_int_pred; auto; lia). getcast. cbn [bind].
  hist0 p0. rename r into rm, Er into Erm, Hr into Hrm. hist0 p.
  accept_tac. gsplit. unfold batch_loops.
  loops_tac (fun (i : Z) (a : T * T * trk * trk * ring) (b : T * T * trk * trk * ring * ring) =>
    let '(sum, ema, hi, lo, mhl) := a in
    let '(sum', ema', hi', lo', mhl', pr) := b in
    sum = sum' /\ ema = ema' /\ mhl = mhl' /\ rok mhl p0 /\ hist pr p (zp x1) i /\
    (1 <= i -> hi_ok x1 p 0 i hi /\ lo_ok x1 p 0 i lo /\ hi_ok x1 p (- (p0 - 1)) i hi' /\ lo_ok x1 p (- (p0 - 1)) i lo')).
  - repeat (split; [first [reflexivity|eexists; eassumption|apply hist_of_ok; [exact Hr|intros; apply zp_neg; lia]]|]). lia.
  - subst. replace (- p0 + 2 - - (p0 - 1)) with 1 by lia. replace (Z.min (- p0 + 1 + p) 0 - - (p0 - 1)) with (Z.min p (p0 - 1)) by lia. replace (0 - - (p0 - 1)) with (p0 - 1) by lia.
    unfold mhl_ema. rewrite !ck_ok by zl. destruct (i <? 1) eqn:Ei.
    + assert (i = 0) as -> by lia. unfold mid; cbn [fst snd]. wpr. emit; try (apply rok_step; assumption); try (apply hist_step; assumption).
      (split; [|split; [|split]]); (apply trk_ok_next; [lia|]; replace (Z.max 0 (0 - p + 1)) with 0 by lia); first [apply (ext_one _ _ Lmax)|apply (ext_one _ _ Lmin)]; first [goods|lia].
    + match goal with HA : 1 <= i -> _ |- _ => destruct HA as (A1 & A2 & A3 & A4); [lia|] end.
      destruct (i <? Z.min p (p0 - 1)) eqn:Ea; [|destruct (i <? p0 - 1) eqn:Eb]; repeat first [look|progress pushes|mids|wpr1].
      all: sames; emit; try (apply rok_step; assumption); try (apply hist_step; assumption).
      all: (split; [|split; [|split]]); (apply trk_ok_next; [lia|assumption]).
Qed.
Lemma mhlma_online : online 1 mhlma_loops. Proof. online_tac @mhlma_loops; rewrite ?Z.add_0_r; reflexivity. Qed.

(** ** ichi *)
Definition v_ichi (ns : list Z) : verdict :=
  match ns with
  | [a; b; c] => if negb ((0 <? a) && (a <=? b) && (b <=? c)) then Reject else if INT_MAX <? c - 1 + b then Outside else Accept (c - 1 + b)
  | _ => Outside
  end.
(* before and after bar [i] *)
Definition ichi_before (x y : list T) (a b c off i : Z) (s : ichi_state) : Prop :=
  let '((h1, l1), (h2, l2), (h3, l3)) := s in
  (hi_ok x a off i h1 /\ lo_ok y a off i l1) /\ (hi_ok x b off i h2 /\ lo_ok y b off i l2) /\ (hi_ok x c off i h3 /\ lo_ok y c off i l3).
Definition ichi_after (x y : list T) (a b c off i : Z) (s : ichi_state) : Prop :=
  let '((h1, l1), (h2, l2), (h3, l3)) := s in
  let ext n h l := is_ext lessf (zf x) (Z.max 0 (i - n + 1)) i off h /\ is_ext moref (zf y) (Z.max 0 (i - n + 1)) i off l in
  ext a h1 l1 /\ ext b h2 l2 /\ ext c h3 l3.
Lemma ichi_step x y a b c off i s : 0 <= i -> ichi_after x y a b c off i s -> ichi_before x y a b c off (i + 1) s.
Proof.
  intros Hi. destruct s as [[[h1 l1] [h2 l2]] [h3 l3]]. intros ((? & ?) & (? & ?) & ? & ?).
  cbn. (split; [|split]); split; (apply trk_ok_next; [lia|assumption]).
Qed.
Lemma ichi_pair_ok x y rh rl now n off i h l : InfLaw A good -> 1 <= n -> 0 <= i -> off <= 0 -> now = i + off ->
  (forall j, 0 <= j <= i -> good (zf x j)) -> (forall j, 0 <= j <= i -> good (zf y j)) ->
  (n <= i -> exists s', rh n = Ok s' /\ is_ext lessf (zf x) (i - n + 1) i off s') ->
  (n <= i -> exists s', rl n = Ok s' /\ is_ext moref (zf y) (i - n + 1) i off s') ->
  hi_ok x n off i h -> lo_ok y n off i l ->
  exists h' l', ichi_pair rh rl (zf x i) (zf y i) now n (h, l) = Ok (h', l') /\
    is_ext lessf (zf x) (Z.max 0 (i - n + 1)) i off h' /\ is_ext moref (zf y) (Z.max 0 (i - n + 1)) i off l'.
Proof.
  intros IF Hn Hi Ho -> Gx Gy Rh Rl Hh Hl. unfold ichi_pair.
  destruct (next_ext _ _ Lmax (.- finf, 0) (zf x) n off i (i + off) (snd h =? i + off - n) (rh n) h) as (h' & -> & Xh); try assumption; try reflexivity.
  { intros _. apply hi_first; [assumption|lia|lia|apply Gx; lia]. }
  destruct (next_ext _ _ Lmin (finf, 0) (zf y) n off i (i + off) (snd l =? i + off - n) (rl n) l) as (l' & Hn' & Xl); try assumption; try reflexivity.
  { intros _. apply lo_first; [assumption|lia|lia|apply Gy; lia]. }
  cbn [bind]. rewrite Hn'. cbn [bind]. exists h', l'. split; [reflexivity|split; assumption].
Qed.
Lemma ichi_next_ok x y rh rl now a b c off i s : InfLaw A good -> 1 <= a -> a <= b -> b <= c -> 0 <= i -> off <= 0 -> now = i + off ->
  (forall j, 0 <= j <= i -> good (zf x j)) -> (forall j, 0 <= j <= i -> good (zf y j)) ->
  (forall n, 1 <= n <= c -> n <= i -> exists s', rh n = Ok s' /\ is_ext lessf (zf x) (i - n + 1) i off s') ->
  (forall n, 1 <= n <= c -> n <= i -> exists s', rl n = Ok s' /\ is_ext moref (zf y) (i - n + 1) i off s') ->
  ichi_before x y a b c off i s ->
  exists s', ichi_next rh rl (zf x i) (zf y i) now a b c s = Ok s' /\ ichi_after x y a b c off i s'.
Proof.
  intros IF Ha Hb Hc Hi Ho Hnow Gx Gy Rh Rl. destruct s as [[[h1 l1] [h2 l2]] [h3 l3]]. intros ((A1 & A2) & (A3 & A4) & A5 & A6). unfold ichi_next.
  destruct (ichi_pair_ok x y rh rl now a off i h1 l1) as (k1 & m1 & -> & ?); try assumption; [intros; apply Rh; lia|intros; apply Rl; lia|].
  destruct (ichi_pair_ok x y rh rl now b off i h2 l2) as (k2 & m2 & P2 & ?); try assumption; [lia|intros; apply Rh; lia|intros; apply Rl; lia|].
  destruct (ichi_pair_ok x y rh rl now c off i h3 l3) as (k3 & m3 & P3 & ?); try assumption; [lia|intros; apply Rh; lia|intros; apply Rl; lia|].
  cbn [bind]. rewrite P2. cbn [bind]. rewrite P3. cbn [bind]. eexists; split; [reflexivity|]. cbn. auto.
Qed.
Lemma ichi_same x y a b c o1 o2 i s1 s2 : 0 <= i < zlen x -> i < zlen y -> (forall j, 0 <= j < zlen x -> good (zf x j)) -> (forall j, 0 <= j < zlen y -> good (zf y j)) ->
  ichi_after x y a b c o1 i s1 -> ichi_after x y a b c o2 i s2 ->
  ichi_tenkan s2 = ichi_tenkan s1 /\ ichi_kijun s2 = ichi_kijun s1 /\ ichi_spanA s2 = ichi_spanA s1 /\ ichi_spanB s2 = ichi_spanB s1.
Proof.
  intros Hx Hy Gx Gy. destruct s1 as [[[h1 l1] [h2 l2]] [h3 l3]], s2 as [[[k1 m1] [k2 m2]] [k3 m3]]. intros ((? & ?) & (? & ?) & ? & ?) ((? & ?) & (? & ?) & ? & ?).
  unfold ichi_spanA, ichi_tenkan, ichi_kijun, ichi_spanB, mid. cbn [fst snd].
  assert (fst k1 = fst h1 /\ fst k2 = fst h2 /\ fst k3 = fst h3) as (-> & -> & ->).
  { repeat split; (eapply (is_ext_eq _ _ Lmax); [|eassumption|eassumption]; intros; apply Gx; lia). }
  assert (fst m1 = fst l1 /\ fst m2 = fst l2 /\ fst m3 = fst l3) as (-> & -> & ->).
  { repeat split; (eapply (is_ext_eq _ _ Lmin); [|eassumption|eassumption]; intros; apply Gy; lia). }
  auto.
Qed.
Lemma ichi_sim : InfLaw A good -> sim 2 4 (int_opts 3 v_ichi) (good_inputs 2) ti_ichi_start ti_ichi ti_ichi_stream_new ichi_loops.
Proof.
  intros IF options v (ns & ? & ? & ->). lists. ranges. unfold ti_ichi, ti_ichi_stream_new, ti_ichi_start, v_ichi, ichi_reject.
  repeat (getcast; cbn [bind]).
  destruct (negb _) eqn:E1; [reject_tac2|]. destruct (INT_MAX <? _) eqn:E2; [exact I|].
  repeat (rewrite ck_ok by zl; cbn [bind]).
  replace (Z.max (p - 1) _) with (p1 - 1 + p0) by lia.
  destruct (ring_new_ok (p0 + 1) ltac:(lia)) as (rb & Erb & Hrb). rewrite !Erb. cbn [bind]. hist0 p1. rewrite ?Er; cbn [bind].
  accept_tac. gsplit. rewrite ?Erb; cbn [bind]. unfold batch_loops.
  match goal with
  | |- exists s' outs, ?m = Ok _ /\ run_loops ?n ?sz ?l2 ?s0 = Ok _ /\ _ => eapply (sim_loops (fun (i : Z) (a : ichi_state * ring * ring) (b : ichi_state * ring * ring * ring * ring) =>
    let '(s, ba, bb) := a in
    let '(s', ba', bb', ph, pl) := b in
    ba = ba' /\ bb = bb' /\ rok ba (p0 + 1) /\ rok bb (p0 + 1) /\ hist ph p1 (zp x2) i /\ hist pl p1 (zp x3) i /\
    ichi_before x2 x3 p p0 p1 0 i s /\ ichi_before x2 x3 p p0 p1 (- (p1 - 1 + p0)) i s') _ l2 n _ sz _ s0 m);
     [reflexivity|lia|lia| |] end.
  - repeat (split; [first [reflexivity|eexists; eassumption|apply hist_of_ok; [exact Hr|intros; apply zp_neg; lia]]|]).
    unfold ichi_init. split; repeat split; lia.
  - intros i [[s ba] bb] [[[[s' ba'] bb'] ph] pl] Hi (<- & <- & B3 & B4 & B5 & B6 & B7 & B8). unfold dispatch, ichi_loops. cbn [dispatch' bounded final].
    replace (0 - - (p1 - 1 + p0)) with (p1 - 1 + p0) by lia.
    destruct (ichi_next_ok x2 x3 (fun n => rescan_fwd lessf x2 n i) (fun n => rescan_fwd moref x3 n i) i p p0 p1 0 i s) as (s1 & Es1 & Hs1); try assumption; try lia; try (intros; goods); try (intros; rescan x2).
    assert (exists ph', ring_set ph (zf x2 i) = Ok ph' /\ full ph' p1 (zp x2) i) as (ph' & Eph & Hph).
    { apply wp_ex. wpr. assumption. }
    assert (exists pl', ring_set pl (zf x3 i) = Ok pl' /\ full pl' p1 (zp x3) i) as (pl' & Epl & Hpl).
    { apply wp_ex. wpr. assumption. }
    set (off := - (p1 - 1 + p0)) in *.
    destruct (ichi_next_ok x2 x3 (fun n => rescan_ring lessf ph' n (off + i)) (fun n => rescan_ring moref pl' n (off + i)) (off + i) p p0 p1 off i s') as (s2 & Es2 & Hs2); try assumption; try lia; try (intros; goods).
    { intros. rescan x2. }
    { intros. rescan x3. }
    destruct (ichi_same x2 x3 p p0 p1 0 off i s1 s2) as (K1 & K2 & K3 & K4); try assumption; try lia.
    destruct (i <? p1 - 1 + p0) eqn:Ei; rewrite ?rd_zf by lia; cbn [bind]; rewrite Eph; cbn [bind]; rewrite Epl; cbn [bind];
      rewrite Es1, Es2; cbn [bind]; rewrite K3, K4; wpr; emit; try (apply rok_step; assumption); try (apply hist_step; assumption);
      try (apply ichi_step; [lia|assumption]).
    congruence.
Qed.
Lemma ichi_online : online 2 ichi_loops. Proof. online_tac @ichi_loops; rewrite ?Z.add_0_r; reflexivity. Qed.

(** ** smi *)
Definition v_smi (n m l : Z) : verdict :=
  if (n <? 1) || (m <? 1) || (l <? 1) then Reject else if n <? 2 then Outside else Accept (n - 1).
Lemma smi_first_eq c hi lo hi' lo' : fst hi = fst hi' -> fst lo = fst lo' -> smi_first c hi lo = smi_first c hi' lo'.
Proof. intros E1 E2. unfold smi_first. rewrite E1, E2. reflexivity. Qed.
Lemma smi_next_eq r s c hi lo hi' lo' e : fst hi = fst hi' -> fst lo = fst lo' -> smi_next r s c hi lo e = smi_next r s c hi' lo' e.
Proof. intros E1 E2. unfold smi_next. rewrite E1, E2. reflexivity. Qed.
Ltac smis := match goal with
  | |- context[smi_first ?c ?a ?b] => match goal with |- context[smi_first c ?d ?e] => tryif constr_eq (a, b) (d, e) then fail else rewrite (smi_first_eq c a b d e) by congruence end
  | |- context[smi_next ?r ?s ?c ?a ?b ?f] => match goal with |- context[smi_next r s c ?d ?e f] => tryif constr_eq (a, b) (d, e) then fail else rewrite (smi_next_eq r s c a b d e f) by congruence end
  end.
Lemma smi_sim : InfLaw A good -> sim 3 1 (o_Z3 v_smi) (good_inputs 2) ti_smi_start ti_smi ti_smi_stream_new smi_loops.
Proof.
  intros IF options v (n & m & l & -> & Hn & Hm & Hl & ->). unfold ti_smi, ti_smi_stream_new, ti_smi_start, start_fm1, v_smi.
  rewrite !flt_of_Z by zl. destruct ((n <? 1) || (m <? 1) || (l <? 1)) eqn:E1; [reject_tac2|]. destruct (n <? 2) eqn:E2; [exact I|].
  rewrite fopp_of_Z by zl. rewrite fadd_of_Z by zl. rewrite fsub_of_Z by zl. rewrite !cast_of_Z by zl. rewrite ceilto_of_Z by zl. cbn [bind].
  replace (- n + 1) with (- (n - 1)) by lia. rewrite feq_of_Z by zl. rewrite Z.eqb_refl. hist0 n. rewrite ?Er; cbn [bind].
  accept_tac. gsplit. unfold batch_loops.
  loops_tac (fun (i : Z) (a : option (trk * trk) * option smi_emas) (b : trk * trk * option smi_emas * ring * ring) =>
    let '(hi, lo, ema, ph, pl) := b in
    hi_ok x n (- (n - 1)) i hi /\ lo_ok x0 n (- (n - 1)) i lo /\ hist ph n (zp x) i /\ hist pl n (zp x0) i /\
    snd a = ema /\ (n <= i -> exists e, ema = Some e) /\
    (1 <= i -> exists h l, fst a = Some (h, l) /\ hi_ok x n (- (n - 1)) i h /\ lo_ok x0 n (- (n - 1)) i l)).
  - split; [split; [reflexivity|lia]|]. split; [split; [reflexivity|lia]|].
    repeat (split; [first [reflexivity|apply hist_of_ok; [exact Hr|intros; apply zp_neg; lia]]|]). split; lia.
  - subst. replace (0 - - (n - 1)) with (n - 1) by lia. replace (1 - - (n - 1)) with n by lia. unfold ring_ext.
    destruct (i <? 1) eqn:Ei.
    + assert (i = 0) as -> by lia. replace (0 <? n - 1) with true by lia. repeat first [look|wpr1]. emit; try (apply hist_step; assumption); try (apply trk_ok_next; [lia|assumption]).
      do 2 eexists. split; [reflexivity|]. split; (apply trk_ok_next; [lia|]; replace (Z.max 0 (0 - n + 1)) with 0 by lia); first [apply (ext_one _ _ Lmax)|apply (ext_one _ _ Lmin)]; first [goods|lia].
    + match goal with HA : 1 <= i -> exists h l, _ |- _ => destruct HA as (h & lo & -> & A1 & A2); [lia|] end.
      assert (EQ : forall s, (exists c f, is_ext c f (Z.max 0 (i - n)) (i - 1) (- (n - 1)) s) -> (#(snd s) .== #(- (n - 1) + i) .- #n) = (snd s =? - (n - 1) + i - n)).
      { intros s (cc & f & k & Ek & Bk & _). rewrite fsub_of_Z by zl. rewrite feq_of_Z by zl. reflexivity. }
      unfold val. cbn [bind]. cbn beta iota. rewrite !EQ by (do 2 eexists; first [apply (proj2 A1); lia|apply (proj2 A2); lia]). clear EQ.
      destruct (i <? n - 1) eqn:Ea; [|destruct (i <? n) eqn:Eb].
      * repeat first [look|wpr1]; pushes; emit; try (apply hist_step; assumption); try (apply trk_ok_next; [lia|assumption]).
        do 2 eexists. split; [reflexivity|]. split; (apply trk_ok_next; [lia|assumption]).
      * repeat first [look|wpr1]; pushes; sames. smis. emit; try (apply hist_step; assumption); try (apply trk_ok_next; [lia|assumption]); [eexists; reflexivity|].
        do 2 eexists. split; [reflexivity|]. split; (apply trk_ok_next; [lia|assumption]).
      * match goal with HA : n <= i -> _ |- _ => destruct HA as (e & ->); [lia|] end.
        repeat first [look|wpr1]; sames. smis. emit; try (apply hist_step; assumption); try (apply trk_ok_next; [lia|assumption]); [eexists; reflexivity|].
        do 2 eexists. split; [reflexivity|]. split; (apply trk_ok_next; [lia|assumption]).
Qed.
Lemma smi_online : online 3 smi_loops. Proof. online_tac @smi_loops; rewrite ?Z.add_0_r; reflexivity. Qed.
End E.

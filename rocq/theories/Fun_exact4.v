(** The window extremes of pc, ichi, ce, mhlma, smi and cmi as functions of the input, for the
    indicators and their reference implementations. *)
From Verif Require Export Fun_exact3 Fun_ext Fun_window.
From Verif Require Export C_stream6 Fun_rank.
From Coq Require Import Reals Lra.
Open Scope Z_scope.

Section F.
Context {A : Arith} {IL : IntLaws A}.
Context (good : T -> Prop) (AL : AntiLaws A good).
Let OL := anti_ord _ _ AL.
Let Lmax := max_laws good AL.
Let Lmin := min_laws good AL.

Lemma highest_hi (x : list T) lo hi v : allgood good x -> 0 <= lo <= hi -> hi < zlen x -> Fun_ext.highest x lo (hi + 1) v -> v = hi_val x lo hi.
Proof.
  intros G Hl Hh ((k & Hk & ->) & M). destruct (hi_latest good OL x lo hi Hl Hh G) as (R & H & _). unfold hi_val.
  apply (anti_eq _ _ AL); [apply G; lia|apply G; lia|apply H; lia|apply M; lia].
Qed.
Lemma lowest_lo (x : list T) lo hi v : allgood good x -> 0 <= lo <= hi -> hi < zlen x -> Fun_ext.lowest x lo (hi + 1) v -> v = lo_val x lo hi.
Proof.
  intros G Hl Hh ((k & Hk & ->) & M). destruct (lo_latest good OL x lo hi Hl Hh G) as (R & H & _). unfold lo_val.
  apply (anti_eq _ _ AL); [apply G; lia|apply G; lia|apply M; lia|apply H; lia].
Qed.
Lemma ext_hi (x : list T) lo hi off s : allgood good x -> 0 <= lo <= hi -> hi < zlen x -> is_ext lessf (zf x) lo hi off s -> fst s = hi_val x lo hi.
Proof. intros G Hl Hh E. apply highest_hi; try assumption. eapply (ext_highest good AL); [|exact E]. intros. apply G. lia. Qed.
Lemma ext_lo (x : list T) lo hi off s : allgood good x -> 0 <= lo <= hi -> hi < zlen x -> is_ext moref (zf x) lo hi off s -> fst s = lo_val x lo hi.
Proof. intros G Hl Hh E. apply lowest_lo; try assumption. eapply (ext_lowest good AL); [|exact E]. intros. apply G. lia. Qed.
Lemma elem_hi (x : list T) lo hi : allgood good x -> 0 <= lo <= hi -> hi < zlen x ->
  exists b, max_elem lessf x lo (hi + 1) = Ok b /\ lo <= b <= hi /\ zf x b = hi_val x lo hi.
Proof.
  intros G Hl Hh. destruct (max_elem_ok good _ _ Lmax x lo (hi + 1)) as (b & E & Hb & D); [intros; apply G; lia|lia|lia|].
  exists b. split; [exact E|]. split; [lia|]. apply (ext_hi x lo hi 0 (zf x b, b)); try assumption. exists b. cbn [fst snd]. split; [lia|]. split; [lia|]. split; [reflexivity|]. intros j Hj. apply D. lia.
Qed.
Lemma elem_lo (x : list T) lo hi : allgood good x -> 0 <= lo <= hi -> hi < zlen x ->
  exists b, max_elem moref x lo (hi + 1) = Ok b /\ lo <= b <= hi /\ zf x b = lo_val x lo hi.
Proof.
  intros G Hl Hh. destruct (max_elem_ok good _ _ Lmin x lo (hi + 1)) as (b & E & Hb & D); [intros; apply G; lia|lia|lia|].
  exists b. split; [exact E|]. split; [lia|]. apply (ext_lo x lo hi 0 (zf x b, b)); try assumption. exists b. cbn [fst snd]. split; [lia|]. split; [lia|]. split; [reflexivity|]. intros j Hj. apply D. lia.
Qed.
Lemma list_is_tab (l : list T) n F : zlen l = Z.max 0 n -> (forall j, 0 <= j < n -> zf l j = F j) -> l = tab 0 n F.
Proof.
  intros HL HF. apply (list_eq_zn f0).
  - rewrite zlen_tab. lia.
  - intros i Hi. change (zn f0 l i) with (zf l i). rewrite zn_tab by lia. apply HF. lia.
Qed.

(** ** pc *)
Definition tops (x : list T) (p size : Z) : list T := tab 0 (size - p + 1) (fun k => hi_val x k (k + p - 1)).
Definition bottoms (x : list T) (p size : Z) : list T := tab 0 (size - p + 1) (fun k => lo_val x k (k + p - 1)).
Lemma pc_fun size x y o p : InfLaw A good -> to_int o = Some p -> 2 <= p -> zlen x = size -> zlen y = size -> Forall good x -> Forall good y ->
  ti_pc size [x; y] [o] = Ok (OKAY, [bottoms y p size; tops x p size]).
Proof.
  intros IF Ho Hp Hx Hy Gx Gy. destruct (pc_values good AL IF size x y o p) as (lo & hi & E & (L1 & V1) & (L2 & V2)); try assumption.
  rewrite E. do 3 f_equal; [|f_equal]; (apply list_is_tab; [lia|]); intros j Hj.
  - apply lowest_lo; try lia; [intros i Hi; apply (Forall_zf good _ Gy); lia|]. replace (j + p - 1 + 1) with (j + p) by lia. apply V1. lia.
  - apply highest_hi; try lia; [intros i Hi; apply (Forall_zf good _ Gx); lia|]. replace (j + p - 1 + 1) with (j + p) by lia. apply V2. lia.
Qed.
Lemma pc_ref_fun size x y o p : to_int o = Some p -> 1 <= p -> zlen x = size -> zlen y = size -> 0 <= size <= INT_MAX -> Forall good x -> Forall good y ->
  ti_pc_ref size [x; y] [o] = Ok (OKAY, [bottoms y p size; tops x p size]).
Proof.
  intros Ho Hp Hx Hy Hs Gx Gy. unfold ti_pc_ref, ti_pc_start, start_fm1. pose proof (to_int_range o p Ho).
  rewrite (to_int_flt _ p) by (auto; zl). replace (p <? 1) with false by lia. unfold cast. rewrite (to_int_pred o p) by (auto; lia). cbn [bind].
  destruct (size <=? p - 1) eqn:E.
  - unfold bottoms, tops. rewrite !tab_nil by lia. reflexivity.
  - rewrite (min_fun good OL size y o p) by (try assumption; intros i Hi; apply (Forall_zf good _ Gy); lia).
    rewrite (max_fun good OL size x o p) by (try assumption; intros i Hi; apply (Forall_zf good _ Gx); lia). reflexivity.
Qed.

(** ** ichi *)
Definition midch (x y : list T) (n i : Z) : T := (hi_val x (i - n + 1) i .+ lo_val y (i - n + 1) i) ./ #2.
Lemma channel_mid x y n i v : allgood good x -> allgood good y -> 1 <= n <= i + 1 -> i < zlen x -> i < zlen y -> channel x y n i v -> v = midch x y n i.
Proof.
  intros Gx Gy Hn Hi Hj (h & l & H & L & ->). unfold midch. rewrite (highest_hi x (i - n + 1) i h) by (assumption || lia). rewrite (lowest_lo y (i - n + 1) i l) by (assumption || lia). reflexivity.
Qed.
Definition ichi_outs (size : Z) (x y : list T) (a b c : Z) : list (list T) :=
  let st := c - 1 + b in
  [tab 0 (size - st) (fun j => midch x y a (st + j)); tab 0 (size - st) (fun j => midch x y b (st + j));
   tab 0 (size - st) (fun j => (midch x y a (c - 1 + j) .+ midch x y b (c - 1 + j)) ./ #2); tab 0 (size - st) (fun j => midch x y c (c - 1 + j))].
Lemma ichi_fun size x y o0 o1 o2 a b c : InfLaw A good -> to_int o0 = Some a -> to_int o1 = Some b -> to_int o2 = Some c -> 1 <= a -> a <= b -> b <= c -> c - 1 + b <= INT_MAX ->
  b + 1 <= INT_MAX -> zlen x = size -> zlen y = size -> Forall good x -> Forall good y -> ti_ichi size [x; y] [o0; o1; o2] = Ok (OKAY, ichi_outs size x y a b c).
Proof.
  intros IF H0 H1 H2 Ha Hb Hc Hm Hm2 Hx Hy Gx Gy. assert (GX : allgood good x) by (intros i Hi; apply (Forall_zf good _ Gx); lia). assert (GY : allgood good y) by (intros i Hi; apply (Forall_zf good _ Gy); lia).
  destruct (ichi_values good AL IF size x y o0 o1 o2 a b c) as (t & k & sa & sb & E & (L1 & V1) & (L2 & V2) & (L3 & V3) & (L4 & V4)); try assumption.
  rewrite E. unfold ichi_outs. cbv zeta. do 2 f_equal.
  assert (E1 : t = tab 0 (size - (c - 1 + b)) (fun j => midch x y a (c - 1 + b + j))) by (apply list_is_tab; [exact L1|]; intros j Hj; apply channel_mid; try assumption; try lia; apply V1; lia).
  assert (E2 : k = tab 0 (size - (c - 1 + b)) (fun j => midch x y b (c - 1 + b + j))) by (apply list_is_tab; [exact L2|]; intros j Hj; apply channel_mid; try assumption; try lia; apply V2; lia).
  assert (E4 : sb = tab 0 (size - (c - 1 + b)) (fun j => midch x y c (c - 1 + j))).
  { apply list_is_tab; [exact L4|]. intros j Hj. apply channel_mid; try assumption; try lia. replace (c - 1 + j) with (c - 1 + b + j - b) by lia. apply V4. lia. }
  assert (E3 : sa = tab 0 (size - (c - 1 + b)) (fun j => (midch x y a (c - 1 + j) .+ midch x y b (c - 1 + j)) ./ #2)).
  { apply list_is_tab; [exact L3|]. intros j Hj. destruct (V3 j ltac:(lia)) as (v1 & v2 & C1 & C2 & ->). replace (c - 1 + b + j - b) with (c - 1 + j) in * by lia.
    rewrite (channel_mid x y a (c - 1 + j) v1) by (assumption || lia). rewrite (channel_mid x y b (c - 1 + j) v2) by (assumption || lia). reflexivity. }
  congruence.
Qed.
Lemma ichi_ref_fun size x y o0 o1 o2 a b c : to_int o0 = Some a -> to_int o1 = Some b -> to_int o2 = Some c -> 1 <= a -> a <= b -> b <= c -> c - 1 + b <= INT_MAX ->
  0 <= size <= INT_MAX -> zlen x = size -> zlen y = size -> Forall good x -> Forall good y -> ti_ichi_ref size [x; y] [o0; o1; o2] = Ok (OKAY, ichi_outs size x y a b c).
Proof.
  intros H0 H1 H2 Ha Hb Hc Hm Hs Hx Hy Gx Gy. assert (GX : allgood good x) by (intros i Hi; apply (Forall_zf good _ Gx); lia). assert (GY : allgood good y) by (intros i Hi; apply (Forall_zf good _ Gy); lia).
  pose proof (to_int_range _ _ H0). pose proof (to_int_range _ _ H1). pose proof (to_int_range _ _ H2).
  unfold ti_ichi_ref, cast, ichi_reject. rewrite H0, H1, H2. cbn [bind]. replace (negb _) with false by lia. cbv zeta.
  rewrite !(max_fun good OL size x _ a), !(max_fun good OL size x _ b), !(max_fun good OL size x _ c), !(min_fun good OL size y _ a), !(min_fun good OL size y _ b), !(min_fun good OL size y _ c) by (try assumption; try (apply to_int_of_Z; lia); lia).
  cbn [bind]. rewrite !rd1. cbn [bind]. rewrite ck_ok by zl. cbn [bind].
  assert (M : forall n i, 1 <= n -> n - 1 <= i < size ->
    (let* h := rd (tab 0 (size - n + 1) (fun k => hi_val x k (k + n - 1))) (i - n + 1) in let* l := rd (tab 0 (size - n + 1) (fun k => lo_val y k (k + n - 1))) (i - n + 1) in Ok ((h .+ l) ./ #2)) = Ok (midch x y n i)).
  { intros n i Hn Hi. rewrite !rd_zf by (rewrite zlen_tab; lia). cbn [bind]. rewrite !zf_tab by lia. unfold midch. rewrite !Z.add_0_l. replace (i - n + 1 + n - 1) with i by lia. reflexivity. }
  set (st := c - 1 + b).
  match goal with |- (let* _ := for_ st size ?f ?s0 in _) = _ =>
    assert (F : for_ st size f s0 = Ok (tab 0 (size - st) (fun j => midch x y a (st + j)), tab 0 (size - st) (fun j => midch x y b (st + j)),
      tab 0 (size - st) (fun j => (midch x y a (c - 1 + j) .+ midch x y b (c - 1 + j)) ./ #2), tab 0 (size - st) (fun j => midch x y c (c - 1 + j)))) end.
  { destruct (Z.le_gt_cases st size) as [Hl|Hl]; [|rewrite for_nil, !tab_nil by lia; reflexivity].
    match goal with |- for_ st size ?f ?s0 = _ => apply (zind (fun m => m <= size -> for_ st m f s0 = Ok (tab 0 (m - st) (fun j => midch x y a (st + j)), tab 0 (m - st) (fun j => midch x y b (st + j)),
      tab 0 (m - st) (fun j => (midch x y a (c - 1 + j) .+ midch x y b (c - 1 + j)) ./ #2), tab 0 (m - st) (fun j => midch x y c (c - 1 + j)))) st size Hl); [| |lia] end.
    - intros _. rewrite for_nil, !tab_nil by lia. reflexivity.
    - intros m Hm1 IH _. rewrite for_snoc by lia. rewrite IH by lia. cbn [bind]. rewrite !M by (unfold st in *; lia). cbn [bind].
      replace (m + 1 - st) with (m - st + 1) by lia. rewrite !tab_snoc by lia. replace (st + (m - st)) with m by lia. replace (c - 1 + (m - st)) with (m - b) by (unfold st; lia). reflexivity. }
  rewrite F. cbn [bind]. reflexivity.
Qed.
End F.

Lemma RAnti : AntiLaws RA (fun _ => True).
Proof.
  constructor; [exact RA_ord| |exact I]. intros x y _ _. cbn. destruct (Rleb_spec x y), (Rleb_spec y x); try discriminate. intros _ _. lra.
Qed.
Notation hiR := (@hi_val RA).
Notation loR := (@lo_val RA).
Section R.
Local Existing Instance RA.
Let Lmax := @max_laws RA (fun _ => True) RAnti.
Let Lmin := @min_laws RA (fun _ => True) RAnti.
Lemma allR (x : list R) : allgood (fun _ => True) x. Proof. intros i Hi. exact I. Qed.
Lemma extR_hi (x : list R) lo hi off s : 0 <= lo <= hi -> hi < zlen x -> @is_ext RA lessf (@zf RA x) lo hi off s -> fst s = hiR x lo hi.
Proof. intros. eapply (ext_hi _ RAnti); try eassumption. apply allR. Qed.
Lemma extR_lo (x : list R) lo hi off s : 0 <= lo <= hi -> hi < zlen x -> @is_ext RA moref (@zf RA x) lo hi off s -> fst s = loR x lo hi.
Proof. intros. eapply (ext_lo _ RAnti); try eassumption. apply allR. Qed.

(** One bar of following an extreme. *)
Lemma oneR_hi (x : list R) p off : 1 <= p -> 0 < zlen x -> @hi_ok RA x p off 1 (zr x 0, off).
Proof. intros Hp Hx. change 1 with (0 + 1). apply trk_ok_next; [lia|]. replace (Z.max 0 (0 - p + 1)) with 0 by lia. apply (ext_one (fun _ => True) _ _ Lmax); [exact I|lia]. Qed.
Lemma oneR_lo (x : list R) p off : 1 <= p -> 0 < zlen x -> @lo_ok RA x p off 1 (zr x 0, off).
Proof. intros Hp Hx. change 1 with (0 + 1). apply trk_ok_next; [lia|]. replace (Z.max 0 (0 - p + 1)) with 0 by lia. apply (ext_one (fun _ => True) _ _ Lmin); [exact I|lia]. Qed.
Lemma pushR_hi (x : list R) p off i now s : @hi_ok RA x p off i s -> 1 <= i < p -> i < zlen x -> now = i + off ->
  fst (@trk_push RA le_f (zr x i) now s) = hiR x 0 i /\ @hi_ok RA x p off (i + 1) (@trk_push RA le_f (zr x i) now s).
Proof.
  intros H Hi Hx ->. assert (X : @is_ext RA lessf (@zf RA x) (Z.max 0 (i - p + 1)) i off (@trk_push RA le_f (zr x i) (i + off) s)).
  { eapply (push_ok (fun _ => True) _ _ Lmax) with (1 := H); try lia; intros; exact I. }
  split; [|apply trk_ok_next; [lia|exact X]]. apply extR_hi in X; [|lia|lia]. rewrite X. f_equal. lia.
Qed.
Lemma pushR_lo (x : list R) p off i now s : @lo_ok RA x p off i s -> 1 <= i < p -> i < zlen x -> now = i + off ->
  fst (@trk_push RA ge_f (zr x i) now s) = loR x 0 i /\ @lo_ok RA x p off (i + 1) (@trk_push RA ge_f (zr x i) now s).
Proof.
  intros H Hi Hx ->. assert (X : @is_ext RA moref (@zf RA x) (Z.max 0 (i - p + 1)) i off (@trk_push RA ge_f (zr x i) (i + off) s)).
  { eapply (push_ok (fun _ => True) _ _ Lmin) with (1 := H); try lia; intros; exact I. }
  split; [|apply trk_ok_next; [lia|exact X]]. apply extR_lo in X; [|lia|lia]. rewrite X. f_equal. lia.
Qed.
Lemma nextR_hi (x : list R) p off i now e resc s : @hi_ok RA x p off i s -> 1 <= p -> 1 <= i -> i < zlen x -> now = i + off -> e = (snd s =? now - p) ->
  (p <= i -> exists s', resc = Ok s' /\ @is_ext RA lessf (@zf RA x) (i - p + 1) i off s') ->
  exists s', @trk_next RA le_f resc e (zr x i) now s = Ok s' /\ fst s' = hiR x (Z.max 0 (i - p + 1)) i /\ @hi_ok RA x p off (i + 1) s'.
Proof.
  intros H Hp Hi Hx Hn He HR. destruct (next_ext (fun _ => True) _ _ Lmax (.- finf, 0) (@zf RA x) p off i now e resc s) as (s' & E & X); try assumption; try lia; try (intros; exact I); try (intros; exfalso; lia).
  exists s'. split; [exact E|]. split; [apply extR_hi in X; [exact X|lia|lia]|apply trk_ok_next; [lia|exact X]].
Qed.
Lemma nextR_lo (x : list R) p off i now e resc s : @lo_ok RA x p off i s -> 1 <= p -> 1 <= i -> i < zlen x -> now = i + off -> e = (snd s =? now - p) ->
  (p <= i -> exists s', resc = Ok s' /\ @is_ext RA moref (@zf RA x) (i - p + 1) i off s') ->
  exists s', @trk_next RA ge_f resc e (zr x i) now s = Ok s' /\ fst s' = loR x (Z.max 0 (i - p + 1)) i /\ @lo_ok RA x p off (i + 1) s'.
Proof.
  intros H Hp Hi Hx Hn He HR. destruct (next_ext (fun _ => True) _ _ Lmin (finf, 0) (@zf RA x) p off i now e resc s) as (s' & E & X); try assumption; try lia; try (intros; exact I); try (intros; exfalso; lia).
  exists s'. split; [exact E|]. split; [apply extR_lo in X; [exact X|lia|lia]|apply trk_ok_next; [lia|exact X]].
Qed.
Lemma revR_hi (x : list R) p i : 1 <= p <= i + 1 -> i < zlen x -> exists s', @rescan_rev RA lessf x p i = Ok s' /\ @is_ext RA lessf (@zf RA x) (i - p + 1) i 0 s'.
Proof. intros. apply (rescan_rev_ok (fun _ => True) _ _ Lmax); [intros; exact I|lia|assumption]. Qed.
Lemma revR_lo (x : list R) p i : 1 <= p <= i + 1 -> i < zlen x -> exists s', @rescan_rev RA moref x p i = Ok s' /\ @is_ext RA moref (@zf RA x) (i - p + 1) i 0 s'.
Proof. intros. apply (rescan_rev_ok (fun _ => True) _ _ Lmin); [intros; exact I|lia|assumption]. Qed.
Lemma fwdR_hi (x : list R) p i : 1 <= p <= i + 1 -> i < zlen x -> exists s', @rescan_fwd RA lessf x p i = Ok s' /\ @is_ext RA lessf (@zf RA x) (i - p + 1) i 0 s'.
Proof. intros. apply (rescan_fwd_ok (fun _ => True) _ _ Lmax); [intros; exact I|lia|assumption]. Qed.
Lemma fwdR_lo (x : list R) p i : 1 <= p <= i + 1 -> i < zlen x -> exists s', @rescan_fwd RA moref x p i = Ok s' /\ @is_ext RA moref (@zf RA x) (i - p + 1) i 0 s'.
Proof. intros. apply (rescan_fwd_ok (fun _ => True) _ _ Lmin); [intros; exact I|lia|assumption]. Qed.
Lemma handR_hi (x : list R) p i now off : 1 <= p <= i + 1 -> i < zlen x -> now = i + off -> exists s', @rescan_hand RA lessf x p i now = Ok s' /\ @is_ext RA lessf (@zf RA x) (i - p + 1) i off s'.
Proof. intros. apply (rescan_hand_ok (fun _ => True) _ _ Lmax); [intros; exact I|lia|assumption|assumption]. Qed.
Lemma handR_lo (x : list R) p i now off : 1 <= p <= i + 1 -> i < zlen x -> now = i + off -> exists s', @rescan_hand RA moref x p i now = Ok s' /\ @is_ext RA moref (@zf RA x) (i - p + 1) i off s'.
Proof. intros. apply (rescan_hand_ok (fun _ => True) _ _ Lmin); [intros; exact I|lia|assumption|assumption]. Qed.

(** ** ce *)
Lemma stdtr_tr (h l c : R) : (l <= h)%R -> stdtr h l c = @atr_tr RA h l c.
Proof.
  intros H. unfold stdtr, atr_tr, stdmax, stdmin. cbn -[Rltb]. unfold Rabs.
  repeat match goal with |- context [Rcase_abs ?a] => destruct (Rcase_abs a) end;
  repeat match goal with |- context [Rltb ?a ?b] => lazymatch a with context [Rltb] => fail | _ => destruct (Rltb_spec a b) end end; lra.
Qed.
Definition ce_at (p : Z) (f : Z -> R) (k : Z) : R := @wild RA p f k.
Lemma wild_S p (f : Z -> R) k : 0 <= k -> @wild RA p f (k + 1) = ((f (p + k)%Z - @wild RA p f k) * (1 / IZR p) + @wild RA p f k)%R.
Proof. intros. unfold wild. replace (p + (k + 1)) with (p + k + 1) by lia. rewrite trec_snoc by lia. reflexivity. Qed.
Lemma wild_0 p (f : Z -> R) : 1 <= p -> @wild RA p f 0 = (zsum 0 p f / IZR p)%R.
Proof.
  intros. unfold wild. rewrite Z.add_0_r, (trec_nil _ p) by lia. change (trec (fun i (s : R) => (s + f i)%R) 0 p 0%R / IZR p = zsum 0 p f / IZR p)%R. f_equal. apply (zind (fun m => trec (fun i (s : R) => (s + f i)%R) 0 m 0%R = zsum 0 m f) 0 p ltac:(lia)).
  - rewrite trec_nil, zsum_nil by lia. reflexivity.
  - intros i Hi IH. rewrite trec_snoc, zsum_snoc by lia. rewrite IH. reflexivity.
Qed.
Definition ce_outs (size : Z) (h l c : list R) (p : Z) (k : R) : list (list R) :=
  [tab 0 (size - p + 1) (fun j => hiR h j (j + p - 1) - k * @wild RA p (@tr_at RA h l c) j)%R;
   tab 0 (size - p + 1) (fun j => loR l j (j + p - 1) + k * @wild RA p (@tr_at RA h l c) j)%R].
Lemma ce_fun size (h l c : list R) o p k : zlen h = size -> zlen l = size -> zlen c = size -> 0 <= size <= INT_MAX -> @to_int RA o = Some p -> 2 <= p ->
  (forall i, 0 <= i < size -> (zr l i <= zr h i)%R) -> @ti_ce RA size [h; l; c] [o; k] = Ok (OKAY, ce_outs size h l c p k).
Proof.
  intros Hh Hl Hc Hs Ho Hp HL. unfold ti_ce, cast. rewrite Ho. cbn [bind]. replace (p <? 1) with false by lia. set (tr := @tr_at RA h l c).
  assert (TR : forall i, 1 <= i < size -> stdtr (zr h i) (zr l i) (zr c (i - 1)) = tr i).
  { intros i Hi. rewrite stdtr_tr by (apply HL; lia). unfold tr, tr_at. replace (i =? 0) with false by lia. reflexivity. }
  etransitivity; [apply (@batch_tab RA _ (fun i (s : R * option (trk * trk)) => 1 <= i ->
      fst s = (if i <=? p then zsum 0 i tr / IZR p else @wild RA p tr (i - p))%R /\
      exists hi lo, snd s = Some (hi, lo) /\ @hi_ok RA h p 0 i hi /\ @lo_ok RA l p 0 i lo)
    [fun j => (hiR h j (j + p - 1) - k * @wild RA p tr j)%R; fun j => (loR l j (j + p - 1) + k * @wild RA p tr j)%R] (p - 1)); [lia|lia|lia|]|].
  - intros i [atr ext] Hi HI. cbn [fst snd] in *. disp. destruct (i <? 1) eqn:E0.
    + assert (i = 0) as -> by lia. rewrite !rdr by lia. cbn [bind wp fst snd map]. replace (0 <? p - 1) with true by lia. split; [reflexivity|]. intros _. replace (0 + 1 <=? p) with true by lia. split.
      * rewrite zsum_one. unfold tr, tr_at. cbn [Z.eqb]. change (@zf RA h 0) with (zr h 0). change (@zf RA l 0) with (zr l 0). cbn. unfold Rdiv. ring.
      * do 2 eexists. split; [reflexivity|]. split; [apply oneR_hi|apply oneR_lo]; lia.
    + destruct HI as (HA & hi & lo & HE & H1 & H2); [lia|]. subst ext. unfold val. rewrite !rdr by lia. cbn [bind]. rewrite !TR by lia.
      destruct (i <? p - 1) eqn:E1; [|destruct (i <? p) eqn:E2]; cbn [bind].
      * destruct (pushR_hi h p 0 i i hi H1) as [_ X1]; try lia. destruct (pushR_lo l p 0 i i lo H2) as [_ X2]; try lia.
        cbn [wp fst snd map]. split; [reflexivity|]. intros _. replace (i + 1 <=? p) with true by lia. replace (i <=? p) with true in HA by lia. split.
        -- rewrite HA, zsum_snoc by lia. cbn. unfold Rdiv. ring.
        -- do 2 eexists. split; [reflexivity|]. split; assumption.
      * destruct (pushR_hi h p 0 i i hi H1) as [V1 X1]; try lia. destruct (pushR_lo l p 0 i i lo H2) as [V2 X2]; try lia.
        cbn [wp fst snd map]. assert (HA' : @fadd RA atr (@fmul RA (tr i) (@fdiv RA (@of_Z RA 1) (@of_Z RA p))) = @wild RA p tr 0).
        { rewrite wild_0 by lia. replace (i <=? p) with true in HA by lia. rewrite HA. replace (zsum 0 p tr) with (zsum 0 (i + 1) tr) by (f_equal; lia). rewrite zsum_snoc by lia. cbn. unfold Rdiv. ring. }
        rewrite HA'. split.
        -- unfold ce_out. rewrite V1, V2. replace (i - (p - 1)) with 0 by lia. replace (0 + p - 1) with i by lia. reflexivity.
        -- intros _. replace (i + 1 <=? p) with true by lia. split; [rewrite wild_0 by lia; replace (i + 1) with p by lia; reflexivity|].
           do 2 eexists. split; [reflexivity|]. split; assumption.
      * destruct (nextR_hi h p 0 i i (snd hi =? i - p) (@rescan_rev RA lessf h p i) hi H1) as (h' & EE1 & V1 & X1); try lia; [intros; apply revR_hi; lia|].
        destruct (nextR_lo l p 0 i i (snd lo =? i - p) (@rescan_rev RA moref l p i) lo H2) as (l' & EE2 & V2 & X2); try lia; [intros; apply revR_lo; lia|].
        rewrite EE1. cbn [bind]. rewrite EE2. cbn [bind wp fst snd map].
        assert (HA' : @fadd RA (@fmul RA (@fsub RA (tr i) atr) (@fdiv RA (@of_Z RA 1) (@of_Z RA p))) atr = @wild RA p tr (i - p + 1)).
        { rewrite wild_S by lia. replace (p + (i - p)) with i by lia. assert (EA : atr = @wild RA p tr (i - p)).
          { rewrite HA. destruct (i <=? p) eqn:E3; [|reflexivity]. replace (i - p) with 0 by lia. rewrite wild_0 by lia. replace i with p by lia. reflexivity. }
          rewrite EA. reflexivity. }
        rewrite HA'. split.
        -- unfold ce_out. rewrite V1, V2. replace (Z.max 0 (i - p + 1)) with (i - p + 1) by lia. replace (i - (p - 1)) with (i - p + 1) by lia. replace (i - p + 1 + p - 1) with i by lia. reflexivity.
        -- intros _. replace (i + 1 <=? p) with false by lia. split; [f_equal; lia|]. do 2 eexists. split; [reflexivity|]. split; assumption.
  - cbn [map]. unfold ce_outs. replace (size - (p - 1)) with (size - p + 1) by lia. reflexivity.
Qed.
Lemma ce_ref_fun size (h l c : list R) p k : zlen h = size -> zlen l = size -> zlen c = size -> 0 <= size <= INT_MAX -> 1 <= p <= INT_MAX ->
  @ti_ce_ref RA size [h; l; c] [IZR p; k] = Ok (OKAY, ce_outs size h l c p k).
Proof.
  intros Hh Hl Hc Hs Hp. assert (Ho : @to_int RA (IZR p) = Some p) by (apply (@to_int_of_Z RA RA_laws p); zl).
  unfold ti_ce_ref, ti_ce_start, cast. rewrite Ho. cbn [bind]. rewrite ck_ok by zl. cbn [bind]. destruct (size <=? p - 1) eqn:E.
  - unfold ce_outs. rewrite !tab_nil by lia. reflexivity.
  - rewrite flt_IZR_1 by lia. rewrite (@atr_fun RA RA_laws size h l c _ p) by (assumption || lia).
    rewrite (max_fun _ RA_ord size h _ p) by (try assumption; try lia; intros ? ?; exact I).
    rewrite (min_fun _ RA_ord size l _ p) by (try assumption; try lia; intros ? ?; exact I). cbn [bind]. rewrite !rd1. cbn [bind].
    replace (@fadd RA (@fsub RA (@of_Z RA size) (IZR p)) (@of_Z RA 1)) with (IZR (size - p + 1)) by (cbn; rewrite plus_IZR, minus_IZR; reflexivity).
    rewrite ceilto_IZR by zl. cbn [bind].
    match goal with |- (let* _ := for_ 0 ?n ?f ?s0 in _) = _ =>
      assert (F : forall m, 0 <= m <= n -> for_ 0 m f s0 = Ok (tab 0 m (fun j => hiR h j (j + p - 1) - k * @wild RA p (@tr_at RA h l c) j)%R, tab 0 m (fun j => loR l j (j + p - 1) + k * @wild RA p (@tr_at RA h l c) j)%R)) end.
    { intros m Hm. apply (zind (fun m => m <= size - p + 1 -> for_ 0 m _ _ = Ok (tab 0 m _, tab 0 m _)) 0 m); [lia| | |lia].
      - intros _. rewrite for_nil, !tab_nil by lia. reflexivity.
      - intros i Hi IH Hle. rewrite for_snoc by lia. rewrite IH by lia. cbn [bind]. rewrite !rdr by (change (@T RA) with R; rewrite zlen_tab; lia). cbn [bind].
        rewrite !zr_tab by lia. rewrite !tab_snoc by lia. reflexivity. }
    rewrite F by lia. reflexivity.
Qed.

(** ** mhlma *)
Definition mhl_at (p : Z) (x : list R) (i : Z) : R := ((hiR x (Z.max 0 (i - p + 1)) i + loR x (Z.max 0 (i - p + 1)) i) / 2)%R.
Definition mhl_list (p : Z) (x : list R) : list R := tab 0 (zlen x) (mhl_at p x).
Definition mhlma_outs (size : Z) (x : list R) (p q : Z) : list (list R) :=
  [tab 0 (size - q + 1) (fun k => mean (window k q (mhl_list p x))); tab 0 (size - q + 1) (fun k => emaR q (mhl_list p x) (k + q - 1))].
Lemma hiR_one (x : list R) i : hiR x i i = zr x i. Proof. unfold hi_val, hi_at. rewrite argext_one. reflexivity. Qed.
Lemma loR_one (x : list R) i : loR x i i = zr x i. Proof. unfold lo_val, lo_at. rewrite argext_one. reflexivity. Qed.
Lemma mhl_ema_R q (m e : R) : 1 <= q < INT_MAX -> @mhl_ema RA q m e = Ok ((m - e) * (2 / (IZR q + 1)) + e)%R.
Proof. intros. unfold mhl_ema. rewrite ck_ok by zl. cbn [bind]. f_equal. toR. rewrite plus_IZR. unfold Rdiv. ring. Qed.
Lemma mhlma_fun size (x : list R) o1 o2 p q : zlen x = size -> 0 <= size <= INT_MAX -> @to_int RA o1 = Some p -> @to_int RA o2 = Some q -> 1 <= p -> 2 <= q < INT_MAX ->
  @ti_mhlma RA size [x] [o1; o2] = Ok (OKAY, mhlma_outs size x p q).
Proof.
  intros Hx Hs H1 H2 Hp Hq. unfold ti_mhlma, cast. rewrite H1, H2. cbn [bind]. replace ((p <? 1) || (q <? 1)) with false by lia.
  set (ml := mhl_list p x). assert (Lm : zlen ml = size) by (unfold ml, mhl_list; rewrite zlen_tab; lia).
  assert (Em : forall i, 0 <= i < size -> zr ml i = mhl_at p x i) by (intros; unfold ml, mhl_list; rewrite zr_tab by lia; reflexivity).
  destruct (@hist_new RA q (zpR ml) ltac:(lia)) as (r & -> & Hr); [intros; apply zpR_neg; lia|]. cbn [bind].
  assert (PUT : forall i (r : @ring RA), 0 <= i < size -> @hist RA r q (zpR ml) i -> exists r', @ring_set RA r (mhl_at p x i) = Ok r' /\ @full RA r' q (zpR ml) i).
  { intros i r' Hi H. apply hist_set; [exact H|]. rewrite zpR_pos by lia. symmetry. apply Em. lia. }
  etransitivity; [apply (@batch_tab RA _ (fun i (s : R * R * trk * trk * ring) => let '(sum, ema, hi, lo, mhl) := s in
     sum = flat q (zr ml) i /\ (1 <= i -> ema = emaR q ml (i - 1) /\ @hi_ok RA x p 0 i hi /\ @lo_ok RA x p 0 i lo) /\ @hist RA mhl q (zpR ml) i)
    [fun k => mean (window k q ml); fun k => emaR q ml (k + q - 1)] (q - 1)); [lia|lia| |]|].
  - split; [rewrite flat_0 by lia; reflexivity|]. split; [lia|exact Hr].
  - intros i [[[[sum ema] hi] lo] mhl] Hi (-> & HI & Hh). destruct (PUT i mhl Hi Hh) as (r' & Er & Hf). disp. destruct (i <? 1) eqn:E0.
    + assert (i = 0) as -> by lia. rewrite !rdr by lia. cbn [bind]. unfold mid. cbn [fst].
      assert (E : @fdiv RA (@fadd RA (zr x 0) (zr x 0)) (@of_Z RA 2) = mhl_at p x 0).
      { unfold mhl_at. replace (Z.max 0 (0 - p + 1)) with 0 by lia. rewrite hiR_one, loR_one. reflexivity. }
      rewrite E, Er. cbn [bind wp fst snd map]. replace (0 <? q - 1) with true by lia. split; [reflexivity|]. split; [rewrite <- Em by lia; apply flat_warm; lia|]. split; [|apply hist_step, Hf].
      intros _. split; [change (0 + 1 - 1) with 0; rewrite emaR_0, Em by lia; reflexivity|]. split; [apply oneR_hi|apply oneR_lo]; lia.
    + destruct HI as (-> & A1 & A2); [lia|]. rewrite !rdr by lia. cbn [bind].
      assert (ME : @mhl_ema RA q (mhl_at p x i) (emaR q ml (i - 1)) = Ok (emaR q ml i)) by (rewrite mhl_ema_R by lia; rewrite (emaR_S' q ml i), Em by lia; reflexivity).
      destruct (nextR_hi x p 0 i i (snd hi =? i - p) (@rescan_fwd RA lessf x p i) hi A1) as (h' & EE1 & V1 & X1); try lia; [intros; apply fwdR_hi; lia|].
      destruct (nextR_lo x p 0 i i (snd lo =? i - p) (@rescan_fwd RA moref x p i) lo A2) as (l' & EE2 & V2 & X2); try lia; [intros; apply fwdR_lo; lia|].
      assert (MI : mid h' l' = mhl_at p x i) by (unfold mid; rewrite V1, V2; reflexivity).
      destruct (i <? Z.min p (q - 1)) eqn:E1.
      * destruct (pushR_hi x p 0 i i hi A1) as [W1 Y1]; try lia. destruct (pushR_lo x p 0 i i lo A2) as [W2 Y2]; try lia.
        assert (MI2 : mid (trk_push le_f (zr x i) i hi) (trk_push ge_f (zr x i) i lo) = mhl_at p x i).
        { unfold mid. rewrite W1, W2. unfold mhl_at. replace (Z.max 0 (i - p + 1)) with 0 by lia. reflexivity. }
        rewrite MI2, Er. cbn [bind]. rewrite ME. cbn [bind wp fst snd map]. replace (i <? q - 1) with true by lia. split; [reflexivity|].
        split; [rewrite <- Em by lia; apply flat_warm; lia|]. split; [|apply hist_step, Hf]. intros _. replace (i + 1 - 1) with i by lia. auto.
      * rewrite EE1. cbn [bind]. rewrite EE2. cbn [bind]. rewrite MI, Er. cbn [bind]. rewrite ME. cbn [bind]. destruct (i <? q - 1) eqn:E2; cbn [wp fst snd map].
        -- split; [reflexivity|]. split; [rewrite <- Em by lia; apply flat_warm; lia|]. split; [|apply hist_step, Hf]. intros _. replace (i + 1 - 1) with i by lia. auto.
        -- rewrite (full_get _ _ _ _ _ Hf) by lia. cbn [bind wp fst snd map]. rewrite zpR_pos by lia.
           assert (SF : @fadd RA (flat q (zr ml) i) (mhl_at p x i) = Flat q (zr ml) (i - q + 1)) by (rewrite <- flat_full by lia; rewrite Em by lia; reflexivity).
           rewrite SF. replace (i - (q - 1)) with (i - q + 1) by lia. split.
           ++ rewrite Flat_mean by (try lia; rewrite ?Lm; lia). replace (i - q + 1 + q - 1) with i by lia. reflexivity.
           ++ split; [apply flat_next; lia|]. split; [|apply hist_step, Hf]. intros _. replace (i + 1 - 1) with i by lia. auto.
  - cbn [map]. unfold mhlma_outs. replace (size - (q - 1)) with (size - q + 1) by lia. reflexivity.
Qed.
Lemma elemR_hi (x : list R) lo hi : 0 <= lo <= hi -> hi < zlen x ->
  exists b, @max_elem RA lessf x lo (hi + 1) = Ok b /\ lo <= b <= hi /\ zr x b = hiR x lo hi.
Proof. intros. apply (elem_hi _ RAnti); try assumption. apply allR. Qed.
Lemma elemR_lo (x : list R) lo hi : 0 <= lo <= hi -> hi < zlen x ->
  exists b, @max_elem RA moref x lo (hi + 1) = Ok b /\ lo <= b <= hi /\ zr x b = loR x lo hi.
Proof. intros. apply (elem_lo _ RAnti); try assumption. apply allR. Qed.
Lemma mhlma_ref_fun size (x : list R) p q : zlen x = size -> 0 <= size <= INT_MAX -> 1 <= p <= INT_MAX -> 1 <= q <= INT_MAX ->
  @ti_mhlma_ref RA size [x] [IZR p; IZR q] = Ok (OKAY, mhlma_outs size x p q).
Proof.
  intros Hx Hs Hp Hq. unfold ti_mhlma_ref. rewrite !flt_IZR_1 by lia. cbn [orb]. rewrite cast_IZR by zl. cbn [bind].
  rewrite (@for_tab RA 0 size _ (mhl_at p x)).
  - cbn [bind]. rewrite Z.sub_0_r. assert (E : tab 0 size (mhl_at p x) = mhl_list p x) by (unfold mhl_list; rewrite Hx; reflexivity). change (@T RA) with R in *. rewrite E.
    assert (Lm : zlen (mhl_list p x) = size) by (unfold mhl_list; rewrite zlen_tab; lia).
    rewrite (sma_fun size _ _ q) by (try assumption; try lia; apply (@to_int_of_Z RA RA_laws q); zl). rewrite (ema_list_fun size _ _ q) by (try assumption; try lia; apply (@to_int_of_Z RA RA_laws q); zl).
    cbn [bind]. rewrite !rd1. cbn [bind]. replace (@fsub RA (IZR q) (@of_Z RA 1)) with (IZR (q - 1)) by (rewrite minus_IZR; reflexivity). rewrite cast_IZR by zl. cbn [bind].
    rewrite (@for_tab RA (q - 1) size _ (fun k => emaR q (mhl_list p x) (k + q - 1))).
    + cbn [bind]. unfold mhlma_outs. replace (size - (q - 1)) with (size - q + 1) by lia. reflexivity.
    + intros i o Hi. rewrite rdr by (rewrite ema_list_len; lia). cbn [bind]. rewrite zr_ema by lia. replace (i - (q - 1) + q - 1) with i by lia. reflexivity.
  - intros i o Hi. replace (Z.max (i - p + 1) 0) with (Z.max 0 (i - p + 1)) by lia.
    destruct (elemR_hi x (Z.max 0 (i - p + 1)) i) as (b & -> & Hb & Vb); try lia. destruct (elemR_lo x (Z.max 0 (i - p + 1)) i) as (b' & -> & Hb' & Vb'); try lia.
    cbn [bind]. rewrite !rdr by lia. cbn [bind]. rewrite Vb, Vb', Z.sub_0_r. reflexivity.
Qed.

(** ** smi *)
Definition smi_num (q : Z) (h l c : list R) : list R := tab 0 (zlen c - q + 1) (fun k => zr c (k + q - 1) - (hiR h k (k + q - 1) + loR l k (k + q - 1)) / 2)%R.
Definition smi_den (q : Z) (h l : list R) : list R := tab 0 (zlen h - q + 1) (fun k => hiR h k (k + q - 1) - loR l k (k + q - 1))%R.
Definition smi_at (q r s : Z) (h l c : list R) (k : Z) : R :=
  (100 * (emaR s (ema_list r (smi_num q h l c)) k / (emaR s (ema_list r (smi_den q h l)) k / 2)))%R.
Lemma smi_value_R (a n b d : R) : @smi_value RA (a, n, b, d) = (100 * (n / (d / 2)))%R.
Proof.
  unfold smi_value. destruct (@truth RA d) eqn:E.
  - apply truth_R in E. toR. change (10 ^ 1)%Z with 10%Z. field. exact E.
  - assert (d = 0%R) as -> by (destruct (Req_dec d 0); [assumption|apply truth_R in H; congruence]). toR. unfold Rdiv. rewrite Rmult_0_l, Rinv_0. ring.
Qed.
Lemma Reqb_IZR a b q : Reqb (IZR a) (IZR b - IZR q) = (a =? b - q).
Proof.
  rewrite <- minus_IZR. destruct (Reqb_spec (IZR a) (IZR (b - q))) as [E|N]; destruct (Z.eqb_spec a (b - q)); try reflexivity; [apply eq_IZR in E; lia|subst; congruence].
Qed.
Lemma smi_fun size (h l c : list R) q r s : zlen h = size -> zlen l = size -> zlen c = size -> 0 <= size <= INT_MAX -> 2 <= q <= INT_MAX -> 1 <= r -> 1 <= s ->
  @ti_smi RA size [h; l; c] [IZR q; IZR r; IZR s] = Ok (OKAY, [tab 0 (size - q + 1) (smi_at q r s h l c)]).
Proof.
  intros Hh Hl Hc Hs Hq Hr Hs'. unfold ti_smi. rewrite !flt_IZR_1 by lia. cbn [orb].
  replace (@fadd RA (@fopp RA (IZR q)) (@of_Z RA 1)) with (IZR (- q + 1)) by (cbn; rewrite plus_IZR, opp_IZR; reflexivity).
  rewrite cast_IZR by zl. rewrite ceilto_IZR by zl. cbn [bind]. replace (@feq RA _ _) with true by (cbn; destruct (Reqb_spec (IZR (- q + 1)) (IZR (- q + 1))); [reflexivity|congruence]).
  set (num := smi_num q h l c). set (den := smi_den q h l). assert (Ln : zlen num = Z.max 0 (size - q + 1)) by (unfold num, smi_num; rewrite zlen_tab; lia). assert (Ld : zlen den = Z.max 0 (size - q + 1)) by (unfold den, smi_den; rewrite zlen_tab; lia).
  set (St := fun k => (emaR r num k, emaR s (ema_list r num) k, emaR r den k, emaR s (ema_list r den) k)).
  assert (N : forall i (hi lo : @trk RA), q - 1 <= i < size -> fst hi = hiR h (i - q + 1) i -> fst lo = loR l (i - q + 1) i ->
     (zr c i - @lit RA 5 1 * (fst hi + fst lo) = zr num (i - q + 1) /\ fst hi - fst lo = zr den (i - q + 1))%R).
  { intros i hi lo Hi E1 E2. unfold num, den, smi_num, smi_den. rewrite Hc, Hh. rewrite !zr_tab by lia. replace (i - q + 1 + q - 1) with i by lia. rewrite E1, E2. toR. change (10 ^ 1)%Z with 10%Z. split; [lra|reflexivity]. }
  assert (V : forall k, @smi_value RA (St k) = smi_at q r s h l c k) by (intros; unfold St; rewrite smi_value_R; reflexivity).
  etransitivity; [apply (@batch_tab RA _ (fun i (st : option (@trk RA * @trk RA) * option (@smi_emas RA)) =>
     (1 <= i -> exists hi lo, fst st = Some (hi, lo) /\ @hi_ok RA h q (- q + 1) i hi /\ @lo_ok RA l q (- q + 1) i lo) /\ (q <= i -> snd st = Some (St (i - q))))
    [smi_at q r s h l c] (q - 1)); [lia|lia|split; lia|]|].
  - intros i [ext ema] Hi (HI & HE). cbn [fst snd] in *. disp. destruct (i <? 1) eqn:E0.
    + assert (i = 0) as -> by lia. rewrite !rdr by lia. cbn [bind wp fst snd map]. replace (0 <? q - 1) with true by lia. split; [reflexivity|]. split; [|lia]. intros _. do 2 eexists. split; [reflexivity|].
      rewrite Z.add_0_r. split; [apply oneR_hi|apply oneR_lo]; lia.
    + destruct HI as (hi & lo & -> & A1 & A2); [lia|]. unfold val. rewrite !rdr by lia. cbn [bind].
      replace (0 - (- q + 1)) with (q - 1) by lia. replace (1 - (- q + 1)) with q by lia. destruct (i <? q - 1) eqn:E1; [|destruct (i <? q) eqn:E2].
      * destruct (pushR_hi h q (- q + 1) i (- q + 1 + i) hi A1) as [W1 Y1]; try lia. destruct (pushR_lo l q (- q + 1) i (- q + 1 + i) lo A2) as [W2 Y2]; try lia.
        cbn [wp fst snd map]. split; [reflexivity|]. split; [|lia]. intros _. do 2 eexists. split; [reflexivity|]. split; assumption.
      * destruct (pushR_hi h q (- q + 1) i (- q + 1 + i) hi A1) as [W1 Y1]; try lia. destruct (pushR_lo l q (- q + 1) i (- q + 1 + i) lo A2) as [W2 Y2]; try lia.
        cbn [bind wp fst snd map]. assert (Z0 : i - q + 1 = 0) by lia. destruct (N i _ _ ltac:(lia) (eq_trans W1 (f_equal (fun z => hiR h z i) (eq_sym Z0))) (eq_trans W2 (f_equal (fun z => loR l z i) (eq_sym Z0)))) as [N1 N2].
        assert (F : smi_first (zr c i) (trk_push le_f (zr h i) (- q + 1 + i) hi) (trk_push ge_f (zr l i) (- q + 1 + i) lo) = St 0).
        { unfold smi_first. toR. rewrite N1, N2. replace (i - q + 1) with 0 by lia. unfold St. rewrite !emaR_0, !zr_ema, !emaR_0 by lia. reflexivity. }
        rewrite F. replace (i - (q - 1)) with 0 by lia. split; [rewrite V; reflexivity|]. split; [|intros _; replace (i + 1 - q) with 0 by lia; reflexivity].
        intros _. do 2 eexists. split; [reflexivity|]. split; assumption.
      * assert (EX : forall k, @feq RA (@of_Z RA k) (@fsub RA (@of_Z RA (- q + 1 + i)) (IZR q)) = (k =? - q + 1 + i - q)) by (intros; apply Reqb_IZR). rewrite !EX.
        destruct (nextR_hi h q (- q + 1) i (- q + 1 + i) (snd hi =? - q + 1 + i - q) (@rescan_hand RA lessf h q i (- q + 1 + i)) hi A1) as (h' & EE1 & V1 & X1); try lia; [intros; apply handR_hi; lia|].
        destruct (nextR_lo l q (- q + 1) i (- q + 1 + i) (snd lo =? - q + 1 + i - q) (@rescan_hand RA moref l q i (- q + 1 + i)) lo A2) as (l' & EE2 & V2 & X2); try lia; [intros; apply handR_lo; lia|].
        rewrite EE1. cbn [bind]. rewrite EE2. cbn [bind]. rewrite HE by lia. cbn [bind wp fst snd map].
        replace (Z.max 0 (i - q + 1)) with (i - q + 1) in * by lia. destruct (N i h' l' ltac:(lia) V1 V2) as [N1 N2].
        assert (F : smi_next (IZR r) (IZR s) (zr c i) h' l' (St (i - q)) = St (i - q + 1)).
        { assert (ST : forall p y k (d : R), 0 <= k -> d = zr y (k + 1) -> ((d - emaR p y k) * (2 / (1 + IZR p)) + emaR p y k = emaR p y (k + 1))%R).
          { intros p y k d Hk ->. rewrite emaR_S by lia. replace (1 + IZR p)%R with (IZR p + 1)%R by ring. reflexivity. }
          unfold smi_next, St. toR. rewrite N1, N2. rewrite !(ST r _ (i - q)) by (lia || reflexivity). rewrite !(ST s _ (i - q)) by (try lia; symmetry; apply zr_ema; lia). reflexivity. }
        rewrite F. replace (i - (q - 1)) with (i - q + 1) by lia. split; [rewrite V; reflexivity|]. split; [|intros _; replace (i + 1 - q) with (i - q + 1) by lia; reflexivity].
        intros _. do 2 eexists. split; [reflexivity|]. split; assumption.
  - cbn [map]. do 3 f_equal. apply tab_eq; lia.
Qed.
Lemma smi_ref_fun size (h l c : list R) q r s : zlen h = size -> zlen l = size -> zlen c = size -> size <= INT_MAX -> 1 <= q <= size + 1 -> 1 <= r <= INT_MAX -> 1 <= s <= INT_MAX -> q <= INT_MAX ->
  @ti_smi_ref RA size [h; l; c] [IZR q; IZR r; IZR s] = Ok (OKAY, [tab 0 (size - q + 1) (smi_at q r s h l c)]).
Proof.
  intros Hh Hl Hc Hs Hq Hr Hs' Hq'. unfold ti_smi_ref. rewrite !flt_IZR_1 by lia. cbn [orb]. unfold start_p1. rewrite cast_IZR by zl. cbn [bind]. unfold ck. replace (_ && _) with true by (unfold INT_MIN, INT_MAX in *; lia). cbn [check bind].
  replace (0 <=? size - (q - 1)) with true by lia. cbn [check bind].
  assert (Oq : @to_int RA (IZR q) = Some q) by (apply (@to_int_of_Z RA RA_laws q); zl). assert (Or : @to_int RA (IZR r) = Some r) by (apply (@to_int_of_Z RA RA_laws r); zl). assert (Os : @to_int RA (IZR s) = Some s) by (apply (@to_int_of_Z RA RA_laws s); zl).
  rewrite (max_fun _ RA_ord size h _ q) by (try assumption; try lia; intros ? ?; exact I).
  rewrite (min_fun _ RA_ord size l _ q) by (try assumption; try lia; intros ? ?; exact I). cbn [bind]. rewrite !rd1. cbn [bind].
  set (num := smi_num q h l c). set (den := smi_den q h l). assert (Ln : zlen num = Z.max 0 (size - q + 1)) by (unfold num, smi_num; rewrite zlen_tab; lia). assert (Ld : zlen den = Z.max 0 (size - q + 1)) by (unfold den, smi_den; rewrite zlen_tab; lia).
  replace (size - (q - 1)) with (size - q + 1) by lia.
  match goal with |- (let* _ := for_ 0 ?n ?f ?s0 in _) = _ =>
    destruct (for_rel (fun i (st : list (@T RA) * list (@T RA)) (_ : unit) => st = (tab 0 i (zr num), tab 0 i (zr den))) 0 n f (fun _ s => Ok s) s0 tt) as (s' & [] & -> & _ & ->) end.
  { lia. } { rewrite !tab_nil by lia. reflexivity. }
  { intros i st [] Hi ->. rewrite !rdr by (change (@T RA) with R; rewrite ?zlen_tab; lia). cbn [bind wp]. rewrite !zr_tab by lia. rewrite !tab_snoc by lia.
    f_equal; f_equal; f_equal; unfold num, den, smi_num, smi_den; rewrite zr_tab by lia; [|reflexivity]. replace (size - (size - q + 1) + i) with (i + q - 1) by lia. toR. change (10 ^ 1)%Z with 10%Z. lra. }
  cbn [bind]. change (@T RA) with R. rewrite !tab_self by (rewrite ?Ln, ?Ld; lia).
  rewrite (ema_list_fun (size - q + 1) num _ r) by (try assumption; lia). cbn [bind]. rewrite !rd1. cbn [bind].
  rewrite (ema_list_fun (size - q + 1) (ema_list r num) _ s) by (rewrite ?ema_list_len; try assumption; lia). cbn [bind]. rewrite !rd1. cbn [bind].
  rewrite (ema_list_fun (size - q + 1) den _ r) by (try assumption; lia). cbn [bind]. rewrite !rd1. cbn [bind].
  rewrite (ema_list_fun (size - q + 1) (ema_list r den) _ s) by (rewrite ?ema_list_len; try assumption; lia). cbn [bind]. rewrite !rd1. cbn [bind].
  rewrite (@for_tab RA 0 (size - q + 1) _ (smi_at q r s h l c)).
  - cbn [bind]. rewrite Z.sub_0_r. reflexivity.
  - intros i o Hi. rewrite !rdr by (rewrite !ema_list_len; lia). cbn [bind]. rewrite !zr_ema by (rewrite ?ema_list_len; lia). rewrite Z.sub_0_r. do 3 f_equal. unfold smi_at. fold num den. toR. change (10 ^ 1)%Z with 10%Z.
    replace (5 / 10 * emaR s (ema_list r den) i)%R with (emaR s (ema_list r den) i / 2)%R by field. do 3 f_equal. unfold Rdiv. ring.
Qed.

(** ** cmi *)
Definition cmi_at (p : Z) (h l c : list R) (k : Z) : R :=
  let y := tab 0 (zlen h) (@tr_at RA h l c) in
  (ln ((hiR y k (k + p - 1) - loR y k (k + p - 1)) / Rsum (window k p y)) / ln (IZR p) * 100)%R.
Definition fl (s : @trk RA) : R * R := (fst s, IZR (snd s)).
Lemma Reqb_Z a b : Reqb (IZR a) (IZR b) = (a =? b).
Proof. destruct (Reqb_spec (IZR a) (IZR b)) as [E|N]; destruct (Z.eqb_spec a b); try reflexivity; [apply eq_IZR in E; lia|subst; congruence]. Qed.
Lemma cmi_ext_fl cmp dom r (t : R) now e s : @cmi_ext RA cmp r t now e (dom (fst s) t) (fl s) = (let* s' := @trk_next RA dom (@rescan_phys RA cmp r now) e t now s in Ok (fl s')).
Proof.
  unfold cmi_ext, trk_next, rescan_phys. destruct e.
  - destruct (max_elem cmp (rbuf r) 0 (rM r)) as [it|]; [|reflexivity]. cbn [bind]. destruct (rd (rbuf r) it); [|reflexivity]. cbn [bind]. destruct (ring_age r it); reflexivity.
  - cbn [bind]. unfold trk_push. destruct (dom (fst s) t); reflexivity.
Qed.
Lemma cmi_fun size (h l c : list R) o p : zlen h = size -> zlen l = size -> zlen c = size -> 0 <= size <= INT_MAX -> @to_int RA o = Some p -> 2 <= p ->
  (forall i, 0 <= i < size -> (zr l i <= zr h i)%R) -> @ti_cmi RA size [h; l; c] [o] = Ok (OKAY, [tab 0 (size - p + 1) (cmi_at p h l c)]).
Proof.
  intros Hh Hl Hc Hs Ho Hp HL. unfold ti_cmi, cast. rewrite Ho. cbn [bind]. replace (p <? 1) with false by lia. set (y := tab 0 size (@tr_at RA h l c) : list R).
  assert (Ly : zlen y = size) by (unfold y; change (@T RA) with R; rewrite zlen_tab; lia).
  assert (T0 : 0 < size -> (zr h 0 - zr l 0)%R = zr y 0) by (intros; unfold y; rewrite zr_tab by lia; reflexivity).
  assert (TR : forall i, 1 <= i < size -> stdtr (zr h i) (zr l i) (zr c (i - 1)) = zr y i).
  { intros i Hi. rewrite stdtr_tr by (apply HL; lia). unfold y. rewrite zr_tab by lia. unfold tr_at. replace (i =? 0) with false by lia. reflexivity. }
  destruct (@hist_new RA p (zpR y) ltac:(lia)) as (r & -> & Hr); [intros; apply zpR_neg; lia|]. cbn [bind].
  assert (PUT : forall i (r : @ring RA), 0 <= i < size -> @hist RA r p (zpR y) i -> exists r', @ring_set RA r (zr y i) = Ok r' /\ @full RA r' p (zpR y) i).
  { intros i r' Hi H. apply hist_set; [exact H|]. rewrite zpR_pos by lia. reflexivity. }
  etransitivity; [apply (@batch_tab RA _ (fun i (s : R * option (@cmi_state RA) * @ring RA) => let '(sum, ext, tr) := s in
     sum = flat p (zr y) i /\ (1 <= i -> exists hi lo, ext = Some (fl hi, fl lo) /\ @hi_ok RA y p 0 i hi /\ @lo_ok RA y p 0 i lo) /\ @hist RA tr p (zpR y) i)
    [cmi_at p h l c] (p - 1)); [lia|lia| |]|].
  - split; [rewrite flat_0 by lia; reflexivity|]. split; [lia|exact Hr].
  - intros i [[sum ext] tr] Hi (-> & HI & Hh'). destruct (PUT i tr Hi Hh') as (r' & Er & Hf). disp. destruct (i <? 1) eqn:E0.
    + assert (i = 0) as -> by lia. rewrite !rdr by lia. cbn [bind]. replace (@fsub RA (zr h 0) (zr l 0)) with (zr y 0) by (symmetry; apply T0; lia). rewrite Er. cbn [bind wp fst snd map]. replace (0 <? p - 1) with true by lia.
      split; [reflexivity|]. split; [apply flat_warm; lia|]. split; [|apply hist_step, Hf]. intros _. exists (zr y 0, 0), (zr y 0, 0). split; [reflexivity|]. split; [apply oneR_hi|apply oneR_lo]; lia.
    + destruct HI as (hi & lo & -> & A1 & A2); [lia|]. unfold val. rewrite !rdr by lia. cbn [bind]. rewrite !TR by lia. rewrite Er. cbn [bind]. destruct (i <? p - 1) eqn:E1.
      * destruct (pushR_hi y p 0 i i hi A1) as [W1 Y1]; try lia. destruct (pushR_lo y p 0 i i lo A2) as [W2 Y2]; try lia.
        cbn [wp fst snd map]. split; [reflexivity|]. split; [apply flat_warm; lia|]. split; [|apply hist_step, Hf]. intros _. do 2 eexists. split; [|split; [exact Y1|exact Y2]].
        unfold cmi_warm, trk_push. cbn [fst snd fl]. change (@le_f RA (fst hi) (zr y i)) with (@fle RA (fst hi) (zr y i)). change (@ge_f RA (fst lo) (zr y i)) with (@fle RA (zr y i) (fst lo)).
        destruct (@fle RA (fst hi) (zr y i)), (@fle RA (zr y i) (fst lo)); reflexivity.
      * unfold cmi_next. change (@feq RA (snd (fl hi)) (@of_Z RA (i - p))) with (Reqb (IZR (snd hi)) (IZR (i - p))). change (@feq RA (snd (fl lo)) (@of_Z RA (i - p))) with (Reqb (IZR (snd lo)) (IZR (i - p))). rewrite !Reqb_Z.
        assert (P : i >= p - 1) by lia.
        destruct (nextR_hi y p 0 i i (snd hi =? i - p) (@rescan_phys RA lessf r' i) hi A1) as (h' & EE1 & V1 & X1); try lia.
        { intros. apply (rescan_phys_ok (fun _ => True) _ _ Lmax) with (M := p); try exact I; try lia; try exact Hf; try (change (@T RA) with R; lia); intros; exact I. }
        destruct (nextR_lo y p 0 i i (snd lo =? i - p) (@rescan_phys RA moref r' i) lo A2) as (l' & EE2 & V2 & X2); try lia.
        { intros. apply (rescan_phys_ok (fun _ => True) _ _ Lmin) with (M := p); try exact I; try lia; try exact Hf; try (change (@T RA) with R; lia); intros; exact I. }
        pose proof (cmi_ext_fl lessf le_f r' (zr y i) i (snd hi =? i - p) hi) as Q1. rewrite EE1 in Q1. cbn [bind] in Q1.
        pose proof (cmi_ext_fl moref ge_f r' (zr y i) i (snd lo =? i - p) lo) as Q2. rewrite EE2 in Q2. cbn [bind] in Q2.
        match type of Q1 with _ = ?v => match goal with |- context [@cmi_ext RA ?a ?b ?c ?d ?e ?f (fl hi)] => replace (@cmi_ext RA a b c d e f (fl hi)) with v by (symmetry; exact Q1) end end. cbn [bind].
        match type of Q2 with _ = ?v => match goal with |- context [@cmi_ext RA ?a ?b ?c ?d ?e ?f (fl lo)] => replace (@cmi_ext RA a b c d e f (fl lo)) with v by (symmetry; exact Q2) end end. cbn [bind].
        rewrite (full_get _ _ _ _ (p - 1) Hf) by lia. cbn [bind wp fst snd map].
        replace (Z.max 0 (i - p + 1)) with (i - p + 1) in * by lia. replace (@fadd RA (flat p (zr y) i) (zr y i)) with (Flat p (zr y) (i - p + 1)) by (symmetry; apply flat_full; lia).
        split; [|split].
        -- replace (i - (p - 1)) with (i - p + 1) by lia. do 2 f_equal. unfold cmi_at, cmi_value. rewrite Hh. fold y. cbn [fst snd fl]. rewrite V1, V2. replace (i - p + 1 + p - 1) with i by lia.
           rewrite Rsum_window by lia. unfold Flat. rewrite win_shift by lia. reflexivity.
        -- rewrite zpR_pos by lia. replace (i - (p - 1)) with (i - p + 1) by lia. apply flat_next; lia.
        -- split; [|apply hist_step, Hf]. intros _. do 2 eexists. split; [reflexivity|]. split; assumption.
  - cbn [map]. replace (size - (p - 1)) with (size - p + 1) by lia. reflexivity.
Qed.
Lemma cmi_ref_fun size (h l c : list R) p : zlen h = size -> zlen l = size -> zlen c = size -> 0 <= size <= INT_MAX -> 1 <= p <= INT_MAX -> p <= size + 1 ->
  @ti_cmi_ref RA size [h; l; c] [IZR p] = Ok (OKAY, [tab 0 (size - p + 1) (cmi_at p h l c)]).
Proof.
  intros Hh Hl Hc Hs Hp Hps. assert (Ho : @to_int RA (IZR p) = Some p) by (apply (@to_int_of_Z RA RA_laws p); zl).
  unfold ti_cmi_ref. rewrite flt_IZR_1 by lia. rewrite cast_IZR by zl. cbn [bind]. replace (0 <=? size - p + 1) with true by lia. cbn [check bind].
  match goal with |- (let* _ := ?t in _) = _ => replace t with (Ok (OKAY, [tab 0 size (@tr_at RA h l c)])) by (symmetry; apply (@Fun_tr.tr_fun RA size h l c); assumption || lia) end. cbn [bind]. rewrite !rd1. cbn [bind]. set (y := tab 0 size (@tr_at RA h l c) : list R).
  assert (Ly : zlen y = size) by (unfold y; change (@T RA) with R; rewrite zlen_tab; lia).
  rewrite (sum_fun size y _ p) by (assumption || lia). cbn [bind]. rewrite !rd1. cbn [bind].
  replace (@fsub RA (IZR p) (@of_Z RA 1)) with (IZR (p - 1)) by (cbn; rewrite minus_IZR; reflexivity). rewrite cast_IZR by zl. cbn [bind].
  rewrite (@for_tab RA (p - 1) size _ (cmi_at p h l c)).
  - cbn [bind]. replace (size - (p - 1)) with (size - p + 1) by lia. reflexivity.
  - intros i o Hi. destruct (elemR_hi y (i - p + 1) i) as (b & E1 & Hb & Vb); try lia. destruct (elemR_lo y (i - p + 1) i) as (b' & E2 & Hb' & Vb'); try lia.
    change (@max_elem RA (fun x y => @flt RA x y) y (i - p + 1) (i + 1)) with (@max_elem RA lessf y (i - p + 1) (i + 1)). change (@max_elem RA (fun x y => @flt RA y x) y (i - p + 1) (i + 1)) with (@max_elem RA moref y (i - p + 1) (i + 1)).
    rewrite E1. cbn [bind]. rewrite rdr by lia. cbn [bind]. rewrite E2. cbn [bind]. rewrite rdr by lia. cbn [bind]. rewrite rdr by (change (@T RA) with R; rewrite zlen_tab; lia). cbn [bind]. rewrite zr_tab by lia. rewrite Vb, Vb'.
    unfold cmi_at. rewrite Hh. fold y. replace (i - (p - 1)) with (i - p + 1) by lia. replace (i - p + 1 + p - 1) with i by lia. reflexivity.
Qed.
End R.

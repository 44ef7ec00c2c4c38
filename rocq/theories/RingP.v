(** Ring buffer and rolling buffer: proofs. *)
From Verif Require Export Ring Tactics.
Section P.
Context {A : Arith}.

Definition wrap (M p : Z) : Z := if p >=? M then p - M else p.

(** [ring_ok r M h]: [r] is a well-formed ring of capacity [M] whose value at offset [k]
    is [h k]. *)
Definition ring_ok (r : ring) (M : Z) (h : Z -> T) : Prop :=
  rM r = M /\ 0 <= rpos r < M /\ zlen (rbuf r) = M /\
  forall k, 0 <= k < M -> zf (rbuf r) (wrap M (rpos r + k)) = h k.

Lemma ring_ok_ext r M h h' : ring_ok r M h -> (forall k, 0 <= k < M -> h k = h' k) -> ring_ok r M h'.
Proof.
  intros (H1 & H2 & H3 & H4) He. repeat split; try lia; try assumption.
  intros k Hk. rewrite H4, He by lia. reflexivity.
Qed.

Lemma zf_repeat0 n i : 0 <= i < Z.of_nat n -> zf (repeat #0 n) i = #0.
Proof. intros H. unfold zf, zn. apply nth_repeat. Qed.

Lemma ring_new_ok M : 0 < M -> exists r, ring_new M = Ok r /\ ring_ok r M (fun _ => #0).
Proof.
  intros H. unfold ring_new. replace (0 <? M) with true by lia. cbn [check bind].
  eexists; split; [reflexivity|]. unfold ring_ok; cbn [rM rpos rbuf].
  repeat split; try lia.
  - rewrite zlen_repeat. lia.
  - intros k Hk. apply zf_repeat0. unfold wrap. destruct (0 + k >=? M) eqn:E; lia.
Qed.

Lemma ring_cur_ok r M h : ring_ok r M h -> ring_cur r = Ok (h 0).
Proof.
  intros (H1 & H2 & H3 & H4). unfold ring_cur. rewrite rd_zf by lia.
  rewrite <- H4 by lia. do 2 f_equal. unfold wrap. replace (rpos r + 0 >=? M) with false by lia. lia.
Qed.

Lemma ring_at_ok r M h k : ring_ok r M h -> 0 <= k < M ->
  ring_at r k = Ok (wrap M (rpos r + k)).
Proof.
  intros (H1 & H2 & H3 & H4) Hk. unfold ring_at. rewrite H1.
  replace (k <? M) with true by lia. replace (k >? -1) with true by lia.
  reflexivity.
Qed.

Lemma ring_get_ok r M h k : ring_ok r M h -> 0 <= k < M -> ring_get r k = Ok (h k).
Proof.
  intros Hr Hk. unfold ring_get. erewrite ring_at_ok by eassumption. cbn [bind].
  destruct Hr as (H1 & H2 & H3 & H4).
  rewrite rd_zf, H4 by (try lia; unfold wrap; destruct (rpos r + k >=? M) eqn:E; lia). reflexivity.
Qed.

Lemma ring_set_ok r M h x : ring_ok r M h ->
  exists r', ring_set r x = Ok r' /\ ring_ok r' M (fun k => if k =? 0 then x else h k).
Proof.
  intros (H1 & H2 & H3 & H4). unfold ring_set. rewrite upd_ok by lia. cbn [bind].
  eexists; split; [reflexivity|]. unfold ring_ok; cbn [rM rpos rbuf]. repeat split; try lia.
  - unfold zlen in *. rewrite zlen_upd_nat. lia.
  - intros k Hk. unfold zf.
    rewrite zn_upd_nat by (try lia; unfold wrap; destruct (rpos r + k >=? M) eqn:E; lia).
    unfold wrap. destruct (rpos r + k >=? M) eqn:E, (k =? 0) eqn:E0; try lia.
    + replace (rpos r + k - M =? rpos r) with false by lia. rewrite <- H4 by lia.
      unfold zf, wrap. rewrite E. reflexivity.
    + replace (rpos r + k =? rpos r) with true by lia. reflexivity.
    + replace (rpos r + k =? rpos r) with false by lia. rewrite <- H4 by lia.
      unfold zf, wrap. rewrite E. reflexivity.
Qed.

Lemma ring_put_ok r M h i x : ring_ok r M h -> 0 <= i < M ->
  exists r', ring_put r i x = Ok r' /\ ring_ok r' M (fun k => if k =? i then x else h k).
Proof.
  intros Hr Hi. unfold ring_put. erewrite ring_at_ok by eassumption. cbn [bind].
  destruct Hr as (H1 & H2 & H3 & H4).
  assert (Hw : forall k, 0 <= k < M -> 0 <= wrap M (rpos r + k) < M).
  { intros k Hk. unfold wrap. destruct (rpos r + k >=? M) eqn:E; lia. }
  rewrite upd_ok by (rewrite H3; apply Hw; lia). cbn [bind].
  eexists; split; [reflexivity|]. unfold ring_ok; cbn [rM rpos rbuf]. repeat split; try lia.
  - unfold zlen in *. rewrite zlen_upd_nat. lia.
  - intros k Hk. unfold zf.
    rewrite zn_upd_nat by (rewrite ?H3; apply Hw; lia).
    destruct (k =? i) eqn:E0.
    + replace k with i by lia. rewrite Z.eqb_refl. reflexivity.
    + replace (wrap M (rpos r + k) =? wrap M (rpos r + i)) with false.
      { apply H4; lia. }
      unfold wrap. destruct (rpos r + k >=? M) eqn:?, (rpos r + i >=? M) eqn:?; lia.
Qed.

Lemma ring_step_ok r M h : ring_ok r M h ->
  ring_ok (ring_step r) M (fun k => if k =? 0 then h (M - 1) else h (k - 1)).
Proof.
  intros (H1 & H2 & H3 & H4). unfold ring_step, ring_ok; cbn [rM rpos rbuf]. rewrite H1.
  destruct (rpos r - 1 =? -1) eqn:E.
  - repeat split; try lia. intros k Hk. destruct (k =? 0) eqn:Ek.
    + rewrite <- H4 by lia. f_equal. unfold wrap.
      replace (rpos r - 1 + M + k >=? M) with false by lia.
      replace (rpos r + (M - 1) >=? M) with false by lia. lia.
    + rewrite <- H4 by lia. f_equal. unfold wrap.
      replace (rpos r - 1 + M + k >=? M) with true by lia.
      replace (rpos r + (k - 1) >=? M) with false by lia. lia.
  - repeat split; try lia. intros k Hk. destruct (k =? 0) eqn:Ek.
    + rewrite <- H4 by lia. f_equal. unfold wrap.
      replace (rpos r - 1 + k >=? M) with false by lia.
      replace (rpos r + (M - 1) >=? M) with true by lia. lia.
    + rewrite <- H4 by lia. f_equal. unfold wrap.
      replace (rpos r + (k - 1)) with (rpos r - 1 + k) by lia. reflexivity.
Qed.

(** ringbuf<2>: the same view. *)
Definition ring2_ok (r : ring2) (h : Z -> T) : Prop := ra1 r = h 0 /\ ra2 r = h 1.

Lemma ring2_new_ok : ring2_ok ring2_new (fun _ => #0).
Proof. split; reflexivity. Qed.
Lemma ring2_get_ok r h k : ring2_ok r h -> 0 <= k < 2 -> ring2_get r k = Ok (h k).
Proof.
  intros [H1 H2] Hk. unfold ring2_get. replace (k <? 2) with true by lia.
  replace (k >? -1) with true by lia. cbn [check bind].
  destruct (k =? 0) eqn:E; [replace k with 0 by lia|replace k with 1 by lia]; congruence.
Qed.
Lemma ring2_set_ok r h x : ring2_ok r h -> ring2_ok (ring2_set r x) (fun k => if k =? 0 then x else h k).
Proof. intros [H1 H2]. split; cbn; auto. Qed.
Lemma ring2_step_ok r h : ring2_ok r h ->
  ring2_ok (ring2_step r) (fun k => if k =? 0 then h 1 else h (k - 1)).
Proof. intros [H1 H2]. split; cbn; auto. Qed.

(** ** Histories: any sequence of writes and steps. *)
Inductive rop := RSet (x : T) | RStep.

(** Abstract meaning: the list of the values stored in the successive "current" positions,
    newest first.  [RStep] opens a new position holding the value stored [M] positions ago
    (0 if there is none: the buffer starts zeroed), [RSet] replaces the newest. *)
Definition spec_op (M : Z) (hist : list T) (o : rop) : list T :=
  match o with
  | RSet x => match hist with [] => [x] | _ :: t => x :: t end
  | RStep => nth (Z.to_nat (M - 1)) hist #0 :: hist
  end.
Definition spec_run (M : Z) (ops : list rop) : list T := fold_left (spec_op M) ops [#0].

Definition ring_op (r : ring) (o : rop) : res ring :=
  match o with RSet x => ring_set r x | RStep => Ok (ring_step r) end.
Fixpoint ring_run (r : ring) (ops : list rop) : res ring :=
  match ops with [] => Ok r | o :: t => let* r := ring_op r o in ring_run r t end.

Lemma ring_run_hist M ops r hist :
  0 < M -> hist <> [] -> ring_ok r M (fun k => nth (Z.to_nat k) hist #0) ->
  exists r', ring_run r ops = Ok r' /\
    ring_ok r' M (fun k => nth (Z.to_nat k) (fold_left (spec_op M) ops hist) #0).
Proof.
  intros HM. revert r hist; induction ops as [|o ops IH]; intros r hist Hne Hr; cbn [ring_run fold_left].
  - exists r; auto.
  - destruct o as [x|]; cbn [ring_op].
    + destruct (ring_set_ok _ _ _ x Hr) as (r' & E & Hr'). rewrite E. cbn [bind].
      apply IH.
      * destruct hist; discriminate.
      * eapply ring_ok_ext; [exact Hr'|]. intros k Hk. cbn beta.
        destruct hist as [|h0 t]; [contradiction|]. cbn [spec_op].
        destruct (k =? 0) eqn:E0.
        -- replace k with 0 by lia. reflexivity.
        -- replace (Z.to_nat k) with (S (Z.to_nat (k - 1))) by lia. reflexivity.
    + cbn [bind]. apply IH.
      * discriminate.
      * eapply ring_ok_ext; [apply ring_step_ok; exact Hr|]. intros k Hk. cbn beta.
        cbn [spec_op]. destruct (k =? 0) eqn:E0.
        -- replace k with 0 by lia. reflexivity.
        -- replace (Z.to_nat k) with (S (Z.to_nat (k - 1))) by lia. reflexivity.
Qed.

Lemma ring_history M ops : 0 < M ->
  exists r0 r, ring_new M = Ok r0 /\ ring_run r0 ops = Ok r /\
    forall k, 0 <= k < M -> ring_get r k = Ok (nth (Z.to_nat k) (spec_run M ops) #0).
Proof.
  intros HM. destruct (ring_new_ok M HM) as (r0 & E0 & H0).
  destruct (ring_run_hist M ops r0 [#0] HM ltac:(discriminate)) as (r & E & H).
  - eapply ring_ok_ext; [exact H0|]. intros k Hk. cbn beta.
    destruct (Z.to_nat k) as [|[|]]; reflexivity.
  - exists r0, r. split; [exact E0|split; [exact E|]]. intros k Hk.
    erewrite ring_get_ok by eassumption. reflexivity.
Qed.

Definition ring2_op (r : ring2) (o : rop) : ring2 :=
  match o with RSet x => ring2_set r x | RStep => ring2_step r end.

Lemma ring2_history ops k : 0 <= k < 2 ->
  ring2_get (fold_left ring2_op ops ring2_new) k = Ok (nth (Z.to_nat k) (spec_run 2 ops) #0).
Proof.
  intros Hk. unfold spec_run.
  assert (G : forall r hist, hist <> [] -> ring2_ok r (fun k => nth (Z.to_nat k) hist #0) ->
    ring2_ok (fold_left ring2_op ops r) (fun k => nth (Z.to_nat k) (fold_left (spec_op 2) ops hist) #0)).
  { induction ops as [|o ops IH]; intros r hist Hne Hr; cbn [fold_left]; [exact Hr|].
    destruct hist as [|h0 t]; [contradiction|]. destruct o as [x|]; apply IH; try discriminate.
    - destruct Hr as [H1 H2]. split; [reflexivity|exact H2].
    - destruct Hr as [H1 H2]. split; [exact H2|exact H1]. }
  apply (ring2_get_ok _ (fun k => nth (Z.to_nat k) (fold_left (spec_op 2) ops [#0]) #0)); [|exact Hk].
  apply G; [discriminate|split; reflexivity].
Qed.

(** ** Extreme search *)
Section Find.
Variable good : T -> Prop.
Hypothesis O : OrdLaws A good.

Lemma good_lt_trans x y z : good x -> good y -> good z ->
  (x .< y) = true -> (y .<= z) = true -> (x .< z) = true.
Proof.
  intros Gx Gy Gz H1 H2. rewrite (ord_lt_le _ _ O) in * by assumption.
  apply negb_true_iff in H1. apply negb_true_iff. destruct (z .<= x) eqn:E; [|reflexivity].
  rewrite (ord_trans _ _ O y z x) in H1 by assumption. discriminate.
Qed.

(** [cmp] is "less" or "greater": [ge x y] = not (cmp x y) is a total preorder. *)
Definition strict (cmp : T -> T -> bool) : Prop :=
  (forall x, good x -> cmp x x = false) /\
  (forall x y z, good x -> good y -> good z -> cmp x y = false -> cmp y z = false -> cmp x z = false) /\
  (forall x y, good x -> good y -> cmp x y = true -> cmp y x = false).

Lemma strict_lt : strict (fun x y => x .< y).
Proof.
  repeat split; intros.
  - rewrite (ord_lt_le _ _ O), (ord_refl _ _ O) by assumption. reflexivity.
  - rewrite (ord_lt_le _ _ O) in * by assumption. apply negb_false_iff in H2, H3. apply negb_false_iff.
    eapply (ord_trans _ _ O) with (y := y); eassumption.
  - rewrite (ord_lt_le _ _ O) in * by assumption. apply negb_true_iff in H1. apply negb_false_iff.
    destruct (ord_total _ _ O x y H H0) as [E|E]; [exact E|congruence].
Qed.
Lemma strict_gt : strict (fun x y => x .> y).
Proof.
  destruct strict_lt as (H1 & H2 & H3). repeat split; intros.
  - apply H1; assumption.
  - apply H2 with (y := y); assumption.
  - apply H3; assumption.
Qed.

Lemma max_elem_rev_ok cmp buf hi lo : strict cmp -> Forall good buf ->
  0 <= lo < hi -> hi <= zlen buf ->
  wp (max_elem_rev cmp buf hi lo) (fun b => lo <= b < hi /\
     forall j, lo <= j < hi -> cmp (zf buf b) (zf buf j) = false).
Proof.
  intros (S1 & S2 & S3) HG Hlo Hhi.
  assert (G : forall i, 0 <= i < zlen buf -> good (zf buf i)).
  { intros i Hi. unfold zf, zn. rewrite Forall_forall in HG. apply HG, nth_In. unfold zlen in Hi; lia. }
  unfold max_elem_rev. wps.
  loop (fun i b => hi - i <= b < hi /\ forall j, hi - i <= j < hi -> cmp (zf buf b) (zf buf j) = false).
  - lia.
  - split; [lia|]. intros j Hj. replace j with (hi - 1) by lia. apply S1, G; lia.
  - intros i b Hi [Hb HI]. wps.
    destruct (cmp (zf buf b) (zf buf (hi - 1 - i))) eqn:E.
    + split; [lia|]. intros j Hj. destruct (Z.eq_dec j (hi - 1 - i)) as [->|N].
      * apply S1, G; lia.
      * apply S2 with (y := zf buf b); try (apply G; lia).
        -- apply S3; try (apply G; lia). exact E.
        -- apply HI; lia.
    + split; [lia|]. intros j Hj. destruct (Z.eq_dec j (hi - 1 - i)) as [->|N]; [exact E|apply HI; lia].
  - intros b [Hb HI]. split; [lia|]. intros j Hj. apply HI; lia.
Qed.

(** find_max/find_min return the position of an extreme of the [period] newest values, and
    iterator_to_age gives its offset. *)
Lemma ring_find_ok cmp r M h period : strict cmp -> ring_ok r M h ->
  (forall k, 0 <= k < M -> good (h k)) -> 1 <= period <= M ->
  exists it age, ring_find cmp r period = Ok it /\ ring_age r it = Ok age /\
    0 <= age < period /\ rd (rbuf r) it = Ok (h age) /\
    forall j, 0 <= j < period -> cmp (h age) (h j) = false.
Proof.
  intros Hs (H1 & H2 & H3 & H4) HG Hp.
  assert (Hw : forall k, 0 <= k < M -> 0 <= wrap M (rpos r + k) < M).
  { intros k Hk. unfold wrap. destruct (rpos r + k >=? M) eqn:E; lia. }
  assert (HGb : Forall good (rbuf r)).
  { apply Forall_forall. intros x Hx. apply In_nth with (d := f0) in Hx. destruct Hx as (n & Hn & Hx).
    set (k := if Z.of_nat n <? rpos r then Z.of_nat n - rpos r + M else Z.of_nat n - rpos r).
    assert (Hk : 0 <= k < M /\ wrap M (rpos r + k) = Z.of_nat n).
    { unfold zlen in H3. unfold k, wrap. destruct (Z.of_nat n <? rpos r) eqn:E.
      - replace (rpos r + (Z.of_nat n - rpos r + M) >=? M) with true by lia. lia.
      - replace (rpos r + (Z.of_nat n - rpos r) >=? M) with false by lia. lia. }
    destruct Hk as [Hk Ek]. rewrite <- Hx. specialize (H4 k Hk). rewrite Ek in H4.
    unfold zf, zn in H4. rewrite Nat2Z.id in H4. rewrite H4. apply HG; exact Hk. }
  (* offset of a physical index *)
  assert (Hoff : forall it, 0 <= it < M -> exists k, 0 <= k < M /\ wrap M (rpos r + k) = it /\
            ring_age r it = Ok k /\ k = if it <? rpos r then it - rpos r + M else it - rpos r).
  { intros it Hit. exists (if it <? rpos r then it - rpos r + M else it - rpos r).
    unfold ring_age. rewrite H1. replace ((0 <=? it) && (it <? M)) with true by lia. cbn [check bind].
    unfold wrap. destruct (it <? rpos r) eqn:E.
    - split; [lia|]. replace (rpos r + (it - rpos r + M) >=? M) with true by lia.
      split; [lia|]. split; [|reflexivity].
      f_equal. rewrite Z.rem_small by lia. lia.
    - split; [lia|]. replace (rpos r + (it - rpos r) >=? M) with false by lia.
      split; [lia|]. split; [|reflexivity].
      f_equal. replace (it + (M - rpos r)) with ((it - rpos r) + 1 * M) by lia.
      rewrite Z.rem_mod_nonneg by lia. rewrite Z.mod_add by lia. apply Z.mod_small. lia. }
  enough (W : exists it, ring_find cmp r period = Ok it /\ 0 <= it < M /\
     (forall k, 0 <= k < M -> wrap M (rpos r + k) = it -> k < period) /\
     forall j, 0 <= j < period -> cmp (zf (rbuf r) it) (h j) = false).
  { destruct W as (it & E & Hit & Hk & Hm).
    destruct (Hoff it Hit) as (k & Hk1 & Hk2 & Ha & _).
    exists it, k. split; [exact E|]. split; [exact Ha|]. split; [split; [lia|apply Hk; assumption]|].
    assert (Ez : zf (rbuf r) it = h k) by (rewrite <- Hk2; apply H4; lia).
    split; [rewrite rd_zf by lia; congruence|].
    intros j Hj. rewrite <- Ez. apply Hm; exact Hj. }
  unfold ring_find. rewrite H1. replace (period <=? M) with true by lia.
  replace (period >? 0) with true by lia. cbn [check bind].
  destruct (rpos r + period >? M) eqn:Esplit.
  - replace (rpos r + (M - rpos r)) with M by lia.
    pose proof (max_elem_rev_ok cmp (rbuf r) M (rpos r) Hs HGb ltac:(lia) ltac:(lia)) as W1.
    pose proof (max_elem_rev_ok cmp (rbuf r) (period - (M - rpos r)) 0 Hs HGb ltac:(lia) ltac:(lia)) as W2.
    apply wp_ex in W1, W2. destruct W1 as (it1 & E1 & B1 & X1), W2 as (it2 & E2 & B2 & X2).
    rewrite E1. cbn [bind]. rewrite E2. cbn [bind].
    rewrite !rd_zf by lia. cbn [bind]. eexists; split; [reflexivity|].
    destruct Hs as (S1 & S2 & S3).
    assert (Gz : forall i, 0 <= i < M -> good (zf (rbuf r) i)).
    { intros i Hi. unfold zf, zn. rewrite Forall_forall in HGb. apply HGb, nth_In. unfold zlen in H3; lia. }
    set (it := if negb (cmp (zf (rbuf r) it1) (zf (rbuf r) it2)) then it1 else it2).
    assert (Hit : 0 <= it < M) by (unfold it; destruct (negb _); lia).
    split; [exact Hit|]. split.
    + intros k Hk Ek. unfold wrap in Ek. destruct (rpos r + k >=? M) eqn:E; [|lia].
      assert (it = it2) by (unfold it in *; destruct (negb _); lia). lia.
    + assert (Hboth : cmp (zf (rbuf r) it) (zf (rbuf r) it1) = false /\ cmp (zf (rbuf r) it) (zf (rbuf r) it2) = false).
      { unfold it. destruct (cmp (zf (rbuf r) it1) (zf (rbuf r) it2)) eqn:Ec; cbn [negb].
        - split; [apply S3; try (apply Gz; lia); exact Ec|apply S1, Gz; lia].
        - split; [apply S1, Gz; lia|exact Ec]. }
      destruct Hboth as [Hb1 Hb2].
      intros j Hj. rewrite <- H4 by lia. unfold wrap. destruct (rpos r + j >=? M) eqn:E.
      * apply S2 with (y := zf (rbuf r) it2); try (apply Gz; lia); [exact Hb2|apply X2; lia].
      * apply S2 with (y := zf (rbuf r) it1); try (apply Gz; lia); [exact Hb1|apply X1; lia].
  - pose proof (max_elem_rev_ok cmp (rbuf r) (rpos r + period) (rpos r) Hs HGb ltac:(lia) ltac:(lia)) as W1.
    apply wp_ex in W1. destruct W1 as (it1 & E1 & B1 & X1).
    exists it1. split; [exact E1|]. split; [lia|]. split.
    + intros k Hk Ek. unfold wrap in Ek. destruct (rpos r + k >=? M) eqn:E; lia.
    + intros j Hj. rewrite <- H4 by lia. unfold wrap. replace (rpos r + j >=? M) with false by lia.
      apply X1; lia.
Qed.
End Find.

End P.

Section Q.
Context {A : Arith}.
Lemma spec_run_last M (xs : list T) (x : T) :
  spec_run M (concat (map (fun v => [RSet v; RStep]) xs) ++ [RSet x]) = x :: rev xs.
Proof.
  unfold spec_run. rewrite fold_left_app. cbn [fold_left].
  assert (G : exists y, fold_left (spec_op M) (concat (map (fun v => [RSet v; RStep]) xs)) [#0] = y :: rev xs).
  { induction xs as [|v xs IH] using rev_ind; [exists #0; reflexivity|].
    destruct IH as (y & E). rewrite map_app, concat_app, fold_left_app, E. cbn.
    rewrite rev_app_distr. eexists. reflexivity. }
  destruct G as (y & E). rewrite E. reflexivity.
Qed.

Lemma ring_last_values (N : Z) (xs : list T) (x : T) (k : Z) : 0 <= k < N ->
  exists r0 r, ring_new N = Ok r0 /\
    ring_run r0 (concat (map (fun v => [RSet v; RStep]) xs) ++ [RSet x]) = Ok r /\
    ring_get r k = Ok (nth (Z.to_nat k) (x :: rev xs) #0).
Proof.
  intros Hk. destruct (ring_history N (concat (map (fun v => [RSet v; RStep]) xs) ++ [RSet x]) ltac:(lia)) as (r0 & r & E0 & E & H).
  exists r0, r. split; [exact E0|split; [exact E|]]. rewrite H by exact Hk. rewrite spec_run_last. reflexivity.
Qed.

Lemma find_max_history (good : T -> Prop) : OrdLaws A good ->
  forall (N : Z) (ops : list rop) (period : Z),
  Forall good (spec_run N ops) -> good #0 -> 1 <= period <= N ->
  exists r0 r it age, ring_new N = Ok r0 /\ ring_run r0 ops = Ok r /\
    ring_find_max r period = Ok it /\ ring_age r it = Ok age /\ 0 <= age < period /\
    rd (rbuf r) it = Ok (nth (Z.to_nat age) (spec_run N ops) #0) /\
    forall j, 0 <= j < period ->
      (nth (Z.to_nat j) (spec_run N ops) #0 .<= nth (Z.to_nat age) (spec_run N ops) #0) = true.
Proof.
  intros O N ops period HG G0 Hp.
  assert (Gn : forall k, good (nth k (spec_run N ops) #0)).
  { intros k. destruct (nth_in_or_default k (spec_run N ops) #0) as [I|E]; [|rewrite E; exact G0].
    rewrite Forall_forall in HG. apply HG, I. }
  destruct (ring_new_ok N ltac:(lia)) as (r0 & E0 & H0).
  destruct (ring_run_hist N ops r0 [#0] ltac:(lia) ltac:(discriminate)) as (r & E & H).
  { eapply ring_ok_ext; [exact H0|]. intros k Hk. cbn beta. destruct (Z.to_nat k) as [|[|]]; reflexivity. }
  destruct (ring_find_ok good _ r N _ period (strict_lt good O) H (fun k _ => Gn _) Hp) as (it & age & F1 & F2 & F3 & F4 & F5).
  exists r0, r, it, age. do 4 (split; [assumption|]). split; [lia|]. split; [exact F4|].
  intros j Hj. specialize (F5 j Hj). cbn beta in F5. rewrite (ord_lt_le _ _ O) in F5 by apply Gn.
  apply negb_false_iff in F5. exact F5.
Qed.
Lemma find_min_history (good : T -> Prop) : OrdLaws A good ->
  forall (N : Z) (ops : list rop) (period : Z),
  Forall good (spec_run N ops) -> good #0 -> 1 <= period <= N ->
  exists r0 r it age, ring_new N = Ok r0 /\ ring_run r0 ops = Ok r /\
    ring_find_min r period = Ok it /\ ring_age r it = Ok age /\ 0 <= age < period /\
    rd (rbuf r) it = Ok (nth (Z.to_nat age) (spec_run N ops) #0) /\
    forall j, 0 <= j < period ->
      (nth (Z.to_nat age) (spec_run N ops) #0 .<= nth (Z.to_nat j) (spec_run N ops) #0) = true.
Proof.
  intros O N ops period HG G0 Hp.
  assert (Gn : forall k, good (nth k (spec_run N ops) #0)).
  { intros k. destruct (nth_in_or_default k (spec_run N ops) #0) as [I|E]; [|rewrite E; exact G0].
    rewrite Forall_forall in HG. apply HG, I. }
  destruct (ring_new_ok N ltac:(lia)) as (r0 & E0 & H0).
  destruct (ring_run_hist N ops r0 [#0] ltac:(lia) ltac:(discriminate)) as (r & E & H).
  { eapply ring_ok_ext; [exact H0|]. intros k Hk. cbn beta. destruct (Z.to_nat k) as [|[|]]; reflexivity. }
  destruct (ring_find_ok good _ r N _ period (strict_gt good O) H (fun k _ => Gn _) Hp) as (it & age & F1 & F2 & F3 & F4 & F5).
  exists r0, r, it, age. do 4 (split; [assumption|]). split; [lia|]. split; [exact F4|].
  intros j Hj. specialize (F5 j Hj). cbn beta in F5. rewrite (ord_lt_le _ _ O) in F5 by apply Gn.
  apply negb_false_iff in F5. exact F5.
Qed.
End Q.

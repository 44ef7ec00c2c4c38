(** Ranges of er, rmi, tsi in exact arithmetic. *)
From Verif Require Import StreamOut M_stream2 M_stream4 RArith RSum Tactics.
From Coq Require Import ZifyBool Reals Lra.
Open Scope Z_scope.

Lemma batch_outs {S1} (I : Z -> S1 -> Prop) Ps (l : loops S1) size s outs :
  0 <= size -> I 0 s ->
  (forall i s r, 0 <= i < size -> I i s -> dispatch l i s = Ok r -> outs_ok Ps (snd r) /\ I (i + 1) (fst r)) ->
  @batch_loops RA _ (length Ps) size l s = Ok (OKAY, outs) -> outs_ok Ps outs.
Proof.
  intros Hs H0 Hst. unfold batch_loops. destruct (run_loops _ _ _ _) as [[s' o]|u] eqn:E; cbn [bind]; [|discriminate].
  intros H. injection H; intros <-. exact (loops_outs I Ps l size s s' o Hs H0 Hst E).
Qed.
Ltac open_body := repeat match goal with
  | |- (let* _ := ?m in _) = _ -> _ => let E := fresh "E" in destruct m eqn:E; cbn [bind]; [|discriminate]
  | |- (let '(_, _) := ?m in _) = _ -> _ => destruct m
  end.

(** a ratio of a part to a positive whole *)
Lemma ratio_le (a b : R) : (0 <= a <= b)%R -> (0 < b)%R -> (0 <= a / b <= 1)%R.
Proof.
  intros H Hb. split; [apply Rmult_le_pos; [lra|left; apply Rinv_0_lt_compat; lra]|].
  apply Rmult_le_reg_r with b; [lra|]. unfold Rdiv. rewrite Rmult_assoc, Rinv_l by lra. lra.
Qed.
Lemma truth_R (x : R) : @truth RA x = negb (Reqb x 0). Proof. reflexivity. Qed.

(** ** er *)
Definition move (x : list R) (j : Z) : R := Rabs (@zf RA x j - @zf RA x (j - 1)).
Lemma move_sum x lo hi : lo <= hi -> (Rabs (@zf RA x hi - @zf RA x lo) <= zsum (lo + 1) (hi + 1) (move x))%R.
Proof.
  intros L. apply (zind (fun h => (Rabs (@zf RA x h - @zf RA x lo) <= zsum (lo + 1) (h + 1) (move x))%R) lo hi L).
  - rewrite zsum_nil by lia. rewrite Rminus_diag_eq by reflexivity. rewrite Rabs_R0. lra.
  - intros n Hn IH. rewrite zsum_snoc by lia. unfold move at 2. replace (n + 1 - 1) with n by lia.
    replace (@zf RA x (n + 1) - @zf RA x lo)%R with ((@zf RA x n - @zf RA x lo) + (@zf RA x (n + 1) - @zf RA x n))%R by (cbn; lra).
    eapply Rle_trans; [apply Rabs_triang|]. lra.
Qed.
Lemma rd_R {x : list R} {i v} : @rd R x i = Ok v -> v = @zf RA x i.
Proof.
  destruct (Z.lt_ge_cases i 0) as [L|L]; [unfold rd; replace (0 <=? i) with false by lia; discriminate|].
  destruct (Z.lt_ge_cases i (zlen x)) as [M|M]; [|unfold rd; replace (i <? zlen x) with false by lia; rewrite andb_false_r; discriminate].
  pose proof (@rd_zf RA x i (conj L M)) as E. intros H. change (@rd (@T RA) x i) with (@rd R x i) in E. rewrite H in E. injection E; intros ->. reflexivity.
Qed.
Lemma er_range size (x : list R) (o : R) y : 0 <= size -> @ti_er RA size [x] [o] = Ok (OKAY, [y]) -> Forall (fun v => 0 <= v <= 1)%R y.
Proof.
  intros Hs. unfold ti_er. destruct (@cast RA o) as [n|]; cbn [bind]; [|discriminate].
  destruct (n <? 1) eqn:En; [discriminate|]. intros H.
  apply (batch_outs (fun i (t : R) => t = zsum (Z.max 1 (i - n + 1)) i (move x)) [fun v : R => (0 <= v <= 1)%R]) in H; [inversion H; assumption|lia|rewrite zsum_nil by lia; reflexivity|].
  clear H. intros i t r Hi Ht. unfold dispatch. cbn [dispatch' Stream.bounded Stream.final].
  destruct (i <? 1) eqn:E1; [|destruct (i <? n) eqn:E2].
  - intros H. injection H; intros <-. split; [repeat constructor|]. cbn [fst]. rewrite zsum_nil in * by lia. assumption.
  - open_body. intros H. injection H; intros <-. split; [repeat constructor|]. cbn [fst]. apply rd_R in E, E0. subst.
    rewrite (Z.max_l _ (i + 1 - n + 1)), (Z.max_l _ (i - n + 1)) by lia. rewrite zsum_snoc by lia. reflexivity.
  - open_body. intros H. injection H; intros <-. clear H. cbn [fst snd]. apply rd_R in E, E0, E3, E4. subst.
    assert (Et : (zsum (Z.max 1 (i - n + 1)) i (move x) + move x i = zsum (i - n + 1) (i + 1) (move x))%R) by (rewrite Z.max_r by lia; rewrite zsum_snoc by lia; reflexivity).
    unfold move at 2 in Et. rewrite Et. clear Et. pose proof (move_sum x (i - n) i ltac:(lia)) as M. split.
    + constructor; [|constructor]. constructor; [|constructor]. rewrite truth_R. cbn [fabs fsub fdiv of_Z RA] in *. 
      destruct (Reqb_spec (Rabs (@zf RA x i - @zf RA x (i - n))) 0) as [Q|Q]; cbn [negb]; [lra|].
      pose proof (Rabs_pos (@zf RA x i - @zf RA x (i - n))). apply ratio_le; [split; [assumption|exact M]|]. eapply Rlt_le_trans; [|exact M]. lra.
    + rewrite (zsum_cons (i - n + 1)) by lia. rewrite Z.max_r by lia. unfold move at 1. replace (i - n + 1 - 1) with (i - n) by lia.
      replace (i + 1 - n + 1) with (i - n + 1 + 1) by lia. cbn. lra.
Qed.

(** ** rmi *)
Lemma smooth_ge (a b p : R) : (0 <= a)%R -> (0 <= b)%R -> (1 <= p)%R -> (0 <= (a - b) * 2 / (1 + p) + b)%R.
Proof.
  intros Ha Hb Hp. set (w := (2 / (1 + p))%R). assert (W : (0 <= w <= 1)%R) by (apply ratio_le; lra).
  replace ((a - b) * 2 / (1 + p) + b)%R with (w * a + (1 - w) * b)%R by (unfold w; field; lra).
  apply Rplus_le_le_0_compat; apply Rmult_le_pos; lra.
Qed.
Lemma rmi_out_range (g l : R) : (0 <= g)%R -> (0 <= l)%R -> (0 <= @rmi_out RA g l <= 100)%R.
Proof.
  intros Hg Hl. unfold rmi_out. rewrite truth_R. destruct (Reqb_spec g 0) as [E|E]; cbn [negb]; cbn [fmul fdiv fadd of_Z RA]; [lra|].
  pose proof (ratio_le g (g + l) ltac:(lra) ltac:(lra)). lra.
Qed.
Lemma MAXf_R (a : R) : (0 <= @MAXf RA (@of_Z RA 0) a)%R.
Proof. change (0 <= if Rltb a 0 then 0 else a)%R. destruct (Rltb_spec a 0); lra. Qed.
Lemma rmi_range size (x : list R) (o p : R) y : 0 <= size -> @ti_rmi RA size [x] [o; p] = Ok (OKAY, [y]) -> Forall (fun v => 0 <= v <= 100)%R y.
Proof.
  intros Hs. unfold ti_rmi. change (@flt RA o #1) with (Rltb o 1). destruct (Rltb_spec o 1) as [Ho|Ho]; [discriminate|].
  destruct (_ .< _); [discriminate|]. destruct (_ .< _); [intros H; injection H; intros <-; constructor|].
  destruct (@cast RA p) as [n|]; cbn [bind]; [|discriminate]. intros H.
  apply (batch_outs (fun i (q : option R * option R) => (forall g, fst q = Some g -> 0 <= g)%R /\ (forall l, snd q = Some l -> 0 <= l)%R) [fun v : R => (0 <= v <= 100)%R]) in H; [inversion H; assumption|lia|split; discriminate|].
  clear H. intros i [g l] r Hi [Hg Hl]. unfold dispatch. cbn [dispatch' Stream.bounded Stream.final fst snd] in *.
  destruct (i <? n) eqn:E1; [|destruct (i <? n + 1) eqn:E2].
  - intros H. injection H; intros <-. split; [repeat constructor|]. split; assumption.
  - open_body. intros H. injection H; intros <-. cbn [fst snd]. split.
    + constructor; [|constructor]. constructor; [|constructor]. apply rmi_out_range; apply MAXf_R.
    + split; intros q Q; injection Q; intros <-; apply MAXf_R.
  - destruct g as [g|]; destruct l as [l|]; unfold val; open_body; cbn [bind]; try discriminate. intros H. injection H; intros <-. cbn [fst snd].
    assert (G : (0 <= (@MAXf RA #0 (a .- a0) - g) * 2 / (1 + o) + g)%R) by (apply smooth_ge; [apply MAXf_R|auto|lra]).
    assert (L : (0 <= (@MAXf RA #0 (a0 .- a) - l) * 2 / (1 + o) + l)%R) by (apply smooth_ge; [apply MAXf_R|auto|lra]).
    split.
    + constructor; [|constructor]. constructor; [|constructor]. apply rmi_out_range; assumption.
    + split; intros q Q; injection Q; intros <-; assumption.
Qed.

(** ** tsi *)
Lemma smooth_abs (a b c d p : R) : (Rabs a <= c)%R -> (Rabs b <= d)%R -> (1 <= p)%R ->
  (Rabs ((a - b) * 2 / (1 + p) + b) <= (c - d) * 2 / (1 + p) + d)%R.
Proof.
  intros Ha Hb Hp. set (w := (2 / (1 + p))%R). assert (W : (0 <= w <= 1)%R) by (apply ratio_le; lra).
  replace ((a - b) * 2 / (1 + p) + b)%R with (w * a + (1 - w) * b)%R by (unfold w; field; lra).
  replace ((c - d) * 2 / (1 + p) + d)%R with (w * c + (1 - w) * d)%R by (unfold w; field; lra).
  eapply Rle_trans; [apply Rabs_triang|]. rewrite !Rabs_mult, (Rabs_right w), (Rabs_right (1 - w)) by lra.
  apply Rplus_le_compat; apply Rmult_le_compat_l; lra.
Qed.
Lemma tsi_out_range (a b : R) : (Rabs a <= b)%R -> (-100 <= 100 * (if negb (Reqb b 0) then a / b else 0) <= 100)%R.
Proof.
  intros H. destruct (Reqb_spec b 0) as [E|E]; cbn [negb]; [lra|]. pose proof (Rabs_pos a).
  assert (H1 : (Rabs (a / b) <= 1)%R); [|pose proof (Rle_abs (a / b)); pose proof (Rle_abs (- (a / b))) as H3; rewrite Rabs_Ropp in H3; lra].
  unfold Rdiv. assert (0 < / b)%R by (apply Rinv_0_lt_compat; lra). rewrite Rabs_mult, (Rabs_right (/ b)) by lra. apply (ratio_le (Rabs a) b); lra.
Qed.
Lemma tsi_range size (x : list R) (o p : R) y : 0 <= size -> @ti_tsi RA size [x] [o; p] = Ok (OKAY, [y]) -> Forall (fun v => -100 <= v <= 100)%R y.
Proof.
  intros Hs. unfold ti_tsi. change (@flt RA o #1) with (Rltb o 1). destruct (Rltb_spec o 1) as [Ho|Ho]; [discriminate|].
  change (@flt RA p #1) with (Rltb p 1). destruct (Rltb_spec p 1) as [Hp|Hp]; [discriminate|]. intros H.
  apply (batch_outs (fun i (q : option R * option (R * R * R * R)) => forall a b c d, snd q = Some (a, b, c, d) -> Rabs a <= c /\ Rabs b <= d)%R [fun v : R => (-100 <= v <= 100)%R]) in H; [inversion H; assumption|lia|discriminate|].
  clear H. intros i [z e] r Hi He. unfold dispatch. cbn [dispatch' Stream.bounded Stream.final fst snd] in *.
  destruct (i <? 1) eqn:E1; [|destruct (i <? 2) eqn:E2].
  - open_body. intros H. injection H; intros <-. split; [repeat constructor|]. exact He.
  - open_body. intros H. injection H; intros <-. cbn [fst snd]. rewrite !truth_R. cbn [fabs fsub fmul fdiv of_Z RA]. split.
    + constructor; [|constructor]. constructor; [|constructor]. apply tsi_out_range. apply Rle_refl.
    + intros a' b' c' d' Q. injection Q; intros <- <- <- <-. split; apply Rle_refl.
  - destruct e as [[[[a b] c] d]|]; [|unfold val; open_body; cbn [bind]; discriminate]. destruct (He a b c d eq_refl) as [Hac Hbd].
    open_body. change (@Ok (R * R * R * R) (a, b, c, d) = Ok (t1, t2, t0, t)) in E3. injection E3; intros <- <- <- <-. intros H. injection H; intros <-. cbn [fst snd]. rewrite !truth_R. cbn [fabs fsub fadd fmul fdiv of_Z RA].
    match goal with |- context[((?u - a) * 2)%R] => 
      pose proof (smooth_abs u a (Rabs u) c o ltac:(lra) Hac ltac:(lra)) as S1;
      pose proof (smooth_abs _ b _ d p S1 Hbd ltac:(lra)) as S2 end.
    split.
    + constructor; [|constructor]. constructor; [|constructor]. apply tsi_out_range. exact S2.
    + intros a' b' c' d' Q. injection Q; intros <- <- <- <-. split; assumption.
Qed.

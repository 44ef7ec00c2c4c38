(** What the window averages and dispersions compute, in exact real arithmetic. *)
From Verif Require Export Fun_any RSum.

Ltac toR := unfold zf, f0 in *;
  cbn [T of_Z lit fadd fsub fmul fdiv fopp fabs fsqrt flt fle feq libm fpow RA] in *.

(** Start of a functional proof on [RA]. *)
Tactic Notation "openR" reference(f) := intros; ranges; apply wp_eq;
  unfold f, start_p, start_p1, start0, start1;
  wps; contra; try solve [rewrite !tab_nil by zl; reflexivity].

Notation zr := (zn 0%R).

Lemma zsum0_roll p f : zsum 0 p f = zsum (p - p) p f.
Proof. rewrite Z.sub_diag. reflexivity. Qed.

Lemma peq {B C} (a c : B) (b d : C) : a = c -> b = d -> (a, b) = (c, d).
Proof. congruence. Qed.

(** Accumulate [f] over the first [p] bars. *)
Ltac acc1 f := loop (fun i s => s = zsum 0 i f);
  [zl|rewrite zsum_nil by lia; reflexivity|intros ? ? ? ->; wps; toR; rewrite zsum_snoc by lia; try reflexivity|intros ? ->].
Ltac acc2 f g := loop (fun i s => s = (zsum 0 i f, zsum 0 i g));
  [zl|rewrite !zsum_nil by lia; reflexivity|intros ? ? ? ->; wps; toR; rewrite !zsum_snoc by lia; try reflexivity|intros ? ->].
(** Roll the window sum of [f]. *)
Ltac roll1 p f F := loop (fun i s => s = (zsum (i - p) i f, tab 0 (i - p + 1) F));
  [zl
  |rewrite !Z.sub_diag; apply peq; [reflexivity|apply tab_one; [lia|]]
  |let i := fresh "i" in let Hi := fresh "Hi" in intros i ? Hi ->; wps; rewrite (zsum_roll i p) by lia;
   apply peq; [reflexivity|apply (tab_next' _ (i - p + 1)); [zl|zl|reflexivity|]]
  |intros ? ->; try fintab].
Ltac roll2 p f g F := loop (fun i s => s = (zsum (i - p) i f, zsum (i - p) i g, tab 0 (i - p + 1) F));
  [zl
  |rewrite !Z.sub_diag; apply peq; [reflexivity|apply tab_one; [lia|]]
  |let i := fresh "i" in let Hi := fresh "Hi" in intros i ? Hi ->; wps; rewrite !(zsum_roll i p) by lia;
   apply peq; [apply peq; toR; ring|apply (tab_next' _ (i - p + 1)); [zl|zl|reflexivity|]]
  |intros ? ->; try fintab].
(** Normalise the window bounds of the next output. *)
Ltac rolled i p := replace (i - p + 1 + p) with (i + 1) by lia; replace (i - p + 1) with (i + 1 - p) by lia;
  rewrite ?(zsum_roll i p) by lia.

Section R.

Lemma sma_fun size (x : list R) o p : zlen x = size -> 0 <= size <= INT_MAX -> @to_int RA o = Some p -> 1 <= p ->
  @ti_sma RA size [x] [o] = Ok (OKAY, [tab 0 (size - p + 1) (fun k => mean (window k p x))]).
Proof.
  intros. rewrite (tab_ext _ _ _ (fun k => zsum k (k + p) (zr x) / IZR p)%R)
    by (intros; unfold mean; rewrite Rsum_window, zlen_window by lia; reflexivity).
  openR ti_sma. setF. acc1 (zr x). roll1 p (zr x) F; unfold F.
  - toR. unfold Rdiv. rewrite Rmult_1_l. reflexivity.
  - rolled i p. toR. unfold Rdiv. rewrite Rmult_1_l. reflexivity.
Qed.
Lemma sum_fun size (x : list R) o p : zlen x = size -> 0 <= size <= INT_MAX -> @to_int RA o = Some p -> 1 <= p ->
  @ti_sum RA size [x] [o] = Ok (OKAY, [tab 0 (size - p + 1) (fun k => Rsum (window k p x))]).
Proof.
  intros. rewrite (tab_ext _ _ _ (fun k => zsum k (k + p) (zr x)))
    by (intros; rewrite Rsum_window by lia; reflexivity).
  openR ti_sum. setF. acc1 (zr x). roll1 p (zr x) F; unfold F.
  - reflexivity.
  - rolled i p. reflexivity.
Qed.
Lemma qstick_fun size (o c : list R) q p : zlen o = size -> zlen c = size -> 0 <= size <= INT_MAX -> @to_int RA q = Some p -> 1 <= p ->
  @ti_qstick RA size [o; c] [q] = Ok (OKAY, [tab 0 (size - p + 1) (fun k => mean (window k p c) - mean (window k p o))%R]).
Proof.
  intros. rewrite (tab_ext _ _ _ (fun k => zsum k (k + p) (fun i => zr c i - zr o i)%R / IZR p)%R)
    by (intros; unfold mean; rewrite !Rsum_window, !zlen_window, zsum_minus by lia; lra).
  openR ti_qstick. setF. acc1 (fun i => zr c i - zr o i)%R. roll1 p (fun i => zr c i - zr o i)%R F; unfold F.
  - toR. unfold Rdiv. rewrite Rmult_1_l. reflexivity.
  - rolled i p. toR. unfold Rdiv. rewrite Rmult_1_l. reflexivity.
Qed.
Lemma dpo_fun size (x : list R) o p : zlen x = size -> 0 <= size <= INT_MAX -> @to_int RA o = Some p -> 3 <= p ->
  @ti_dpo RA size [x] [o] = Ok (OKAY, [tab 0 (size - p + 1) (fun k => zr x (k + p - 1 - (p / 2 + 1)) - mean (window k p x))%R]).
Proof.
  intros. assert (p / 2 <= p - 2) by (assert (p / 2 < p - 1) by (apply Z.div_lt_upper_bound; lia); lia).
  assert (0 <= p / 2) by (apply Z.div_pos; lia).
  rewrite (tab_ext _ _ _ (fun k => zr x (k + p - 1 - (p / 2 + 1)) - zsum k (k + p) (zr x) / IZR p)%R)
    by (intros; unfold mean; rewrite Rsum_window, zlen_window by lia; reflexivity).
  assert (Eq : Z.quot p 2 = p / 2) by (apply Z.quot_div_nonneg; lia).
  openR ti_dpo. setF. acc1 (zr x). wps. roll1 p (zr x) F; unfold F.
  - toR. unfold Rdiv. rewrite Rmult_1_l. do 2 f_equal; lia.
  - rolled i p. toR. unfold Rdiv. rewrite Rmult_1_l. do 2 f_equal; lia.
Qed.
(** Volume-weighted mean of a window (the code writes 0 when the weighted sum is 0). *)
Definition wmean (k p : Z) (x v : list R) : R :=
  (zsum k (k + p) (fun i => zr x i * zr v i) / zsum k (k + p) (zr v))%R.
Lemma truth_div (a b : R) : (if @truth RA a then @fdiv RA a b else @of_Z RA 0) = (a / b)%R.
Proof.
  unfold truth. toR. destruct (Reqb_spec a 0) as [->|N]; cbn [negb]; [|reflexivity]. unfold Rdiv. ring.
Qed.
Lemma vwma_fun size (x v : list R) o p : zlen x = size -> zlen v = size -> 0 <= size <= INT_MAX -> @to_int RA o = Some p -> 1 <= p ->
  @ti_vwma RA size [x; v] [o] = Ok (OKAY, [tab 0 (size - p + 1) (fun k => wmean k p x v)]).
Proof.
  openR ti_vwma. setF. acc2 (fun i => zr x i * zr v i)%R (zr v).
  roll2 p (fun i => zr x i * zr v i)%R (zr v) F; unfold F, wmean.
  - rewrite truth_div. reflexivity.
  - rolled i p. rewrite truth_div. reflexivity.
Qed.

(** Dispersion. *)
Lemma popvar_zsum k p (x : list R) : 0 <= k -> 1 <= p -> k + p <= zlen x ->
  popvar (window k p x) = (zsum k (k + p) (fun i => zr x i * zr x i) * (1 / IZR p)
    - (zsum k (k + p) (zr x) * (1 / IZR p)) * (zsum k (k + p) (zr x) * (1 / IZR p)))%R.
Proof.
  intros. assert (IZR p <> 0)%R by (apply not_0_IZR; lia).
  rewrite popvar_alt.
  - unfold mean. rewrite zlen_map, zlen_window by lia. rewrite !Rsum_window by lia.
    rewrite (window_tab 0%R) by lia. unfold tab at 1. rewrite map_map.
    change (Rsum (map (fun x0 => (zr x (k + Z.of_nat x0) * zr x (k + Z.of_nat x0))%R) (seq 0 (Z.to_nat (k + p - k)))))
      with (zsum k (k + p) (fun i => zr x i * zr x i)%R). field. assumption.
  - intros E. apply (f_equal zlen) in E. rewrite zlen_window in E by lia. cbn in E. lia.
Qed.
Lemma var_fun size (x : list R) o p : zlen x = size -> 0 <= size <= INT_MAX -> @to_int RA o = Some p -> 1 <= p ->
  @ti_var RA size [x] [o] = Ok (OKAY, [tab 0 (size - p + 1) (fun k => popvar (window k p x))]).
Proof.
  intros. erewrite (tab_ext _ _ _ (fun k => _)) by (intros; rewrite popvar_zsum by lia; reflexivity).
  openR ti_var. setF. acc2 (zr x) (fun i => zr x i * zr x i)%R.
  roll2 p (zr x) (fun i => zr x i * zr x i)%R F; unfold F.
  - reflexivity.
  - rolled i p. reflexivity.
Qed.
Lemma sqrt_pos_only (v : R) : (0 <= v)%R -> (if @flt RA (@of_Z RA 0) v then @fsqrt RA v else v) = sqrt v.
Proof.
  intros H. toR. destruct (Rltb_spec 0 v); [reflexivity|]. replace v with 0%R by lra. rewrite sqrt_0. reflexivity.
Qed.
Lemma sqrt_popvar k p (x : list R) : 0 <= k -> 1 <= p -> k + p <= zlen x ->
  let v := (zsum k (k + p) (fun i => zr x i * zr x i) * (1 / IZR p)
    - (zsum k (k + p) (zr x) * (1 / IZR p)) * (zsum k (k + p) (zr x) * (1 / IZR p)))%R in
  sqrt (popvar (window k p x)) = if @flt RA (@of_Z RA 0) v then @fsqrt RA v else v.
Proof.
  intros. pose proof (popvar_nonneg (window k p x)) as Hn. rewrite popvar_zsum in * by lia. fold v in Hn |- *.
  symmetry. apply sqrt_pos_only. exact Hn.
Qed.
Lemma stddev_fun size (x : list R) o p : zlen x = size -> 0 <= size <= INT_MAX -> @to_int RA o = Some p -> 1 <= p ->
  @ti_stddev RA size [x] [o] = Ok (OKAY, [tab 0 (size - p + 1) (fun k => sqrt (popvar (window k p x)))]).
Proof.
  intros. openR ti_stddev. setF. acc2 (zr x) (fun i => zr x i * zr x i)%R.
  roll2 p (zr x) (fun i => zr x i * zr x i)%R F; unfold F.
  - rewrite sqrt_popvar by lia. reflexivity.
  - rewrite sqrt_popvar by lia.
    rolled i p. reflexivity.
Qed.
Lemma stderr_fun size (x : list R) o p : zlen x = size -> 0 <= size <= INT_MAX -> @to_int RA o = Some p -> 1 <= p ->
  @ti_stderr RA size [x] [o] = Ok (OKAY, [tab 0 (size - p + 1) (fun k => sqrt (popvar (window k p x)) / sqrt (IZR p))%R]).
Proof.
  intros. openR ti_stderr. setF. acc2 (zr x) (fun i => zr x i * zr x i)%R.
  assert (Hm : forall a, (1 / sqrt (IZR p) * a = a / sqrt (IZR p))%R) by (intros; unfold Rdiv; ring).
  roll2 p (zr x) (fun i => zr x i * zr x i)%R F; unfold F.
  - rewrite sqrt_popvar by lia. 
    etransitivity; [|apply Hm]. reflexivity.
  - rewrite sqrt_popvar by lia.
    etransitivity; [|apply Hm]. rolled i p. reflexivity.
Qed.
(** Reversing a sum. *)
Lemma zsum_rev n f : 0 <= n -> zsum 0 n (fun j => f (n - 1 - j)) = zsum 0 n f.
Proof.
  intros H. revert f.
  apply (zind (fun n => forall f, zsum 0 n (fun j => f (n - 1 - j)) = zsum 0 n f) 0 n H).
  - intros f. rewrite !zsum_nil by lia. reflexivity.
  - intros m Hm IH f. rewrite (zsum_snoc 0 m (fun j => _)) by lia. rewrite (zsum_cons 0 (m + 1) f) by lia.
    replace (m + 1 - 1 - m) with 0 by lia.
    rewrite (zsum_ext 0 m _ (fun j => (fun i => f (i + 1)) (m - 1 - j))) by (intros; f_equal; lia).
    rewrite (IH (fun i => f (i + 1))). rewrite <- (zsum_shift 1 0 m f). change (0 + 1) with 1. lra.
Qed.
Lemma Rsum_map_window (f : R -> R) k p x : 0 <= k -> 0 <= p -> k + p <= zlen x ->
  Rsum (map f (window k p x)) = zsum k (k + p) (fun i => f (zr x i)).
Proof.
  intros. rewrite (window_tab 0%R) by lia. unfold zsum, tab. rewrite map_map. reflexivity.
Qed.
Lemma meanabsdev_zsum k p (x : list R) : 0 <= k -> 1 <= p -> k + p <= zlen x ->
  meanabsdev (window k p x) =
    (zsum k (k + p) (fun i => Rabs (zsum k (k + p) (zr x) * (1 / IZR p) - zr x i)) * (1 / IZR p))%R.
Proof.
  intros. unfold meanabsdev. set (m := mean (window k p x)). unfold mean. rewrite zlen_map, zlen_window by lia.
  rewrite Rsum_map_window by lia.
  rewrite (zsum_ext k (k + p) _ (fun i => Rabs (zsum k (k + p) (zr x) * (1 / IZR p) - zr x i))); [unfold Rdiv; ring|].
  intros i Hi. unfold m, mean. rewrite zlen_window, Rsum_window by lia. rewrite Rabs_minus_sym. f_equal.
  unfold Rdiv. ring.
Qed.
Lemma md_inner (x : list (@T RA)) (avg : @T RA) i p : 1 <= p -> 0 <= i - p + 1 -> i < zlen x ->
  for_ 0 p (fun j acc => let* x0 := rd x (i - j) in Ok (acc .+ fabs (avg .- x0))) #0
  = Ok (zsum (i - p + 1) (i + 1) (fun k => Rabs (avg - zr x k))%R).
Proof.
  intros. apply wp_eq. loop (fun j acc => acc = zsum 0 j (fun j => Rabs (avg - zr x (i - j)))%R).
  - lia.
  - rewrite zsum_nil by lia. reflexivity.
  - intros j acc Hj ->. wps. rewrite zsum_snoc by lia. reflexivity.
  - intros acc ->.
    replace (zsum (i - p + 1) (i + 1)) with (zsum (0 + (i - p + 1)) (p + (i - p + 1))) by (f_equal; lia).
    rewrite zsum_shift. rewrite <- (zsum_rev p) by lia. apply zsum_ext. intros j Hj. do 3 f_equal. lia.
Qed.
Lemma md_fun size (x : list R) o p : zlen x = size -> 0 <= size <= INT_MAX -> @to_int RA o = Some p -> 1 <= p ->
  @ti_md RA size [x] [o] = Ok (OKAY, [tab 0 (size - p + 1) (fun k => meanabsdev (window k p x))]).
Proof.
  intros. openR ti_md. setF.
  loop (fun i s => s = (zsum (Z.max 0 (i - p)) i (zr x), tab 0 (i - p + 1) F)).
  - lia.
  - rewrite zsum_nil by lia. rewrite tab_nil by lia. reflexivity.
  - intros i s Hi ->.
    assert (En : zsum (Z.max 0 (i + 1 - p)) (i + 1) (zr x) = (zsum (Z.max 0 (i - p)) i (zr x) + zr x i - (if i >=? p then zr x (i - p) else 0))%R).
    { destruct (i >=? p) eqn:?.
      - replace (Z.max 0 (i + 1 - p)) with (i + 1 - p) by lia. rewrite zsum_roll by lia.
        replace (Z.max 0 (i - p)) with (i - p) by lia. lra.
      - replace (Z.max 0 (i + 1 - p)) with 0 by lia. rewrite zsum_snoc by lia.
        replace (Z.max 0 (i - p)) with 0 by lia. lra. }
    wps; contra.
    + eapply wp_ok; [apply md_inner; zl|]. wps. replace (Z.max 0 (i - p)) with (i - p) in * by lia.
      apply peq; [symmetry; exact En|]. apply (tab_next' _ (i - p + 1)); [zl|zl|reflexivity|]. unfold F.
      rewrite meanabsdev_zsum by lia. replace (i - p + 1 + p) with (i + 1) by lia.
      replace (i - p + 1) with (i + 1 - p) by lia. rewrite (zsum_roll i p (zr x)) by lia. reflexivity.
    + eapply wp_ok; [apply md_inner; zl|]. wps. rewrite Rminus_0_r in En. rewrite En.
      replace (Z.max 0 (i - p)) with (i + 1 - p) in * by lia.
      apply peq; [reflexivity|]. apply (tab_next' _ (i - p + 1)); [zl|zl|reflexivity|]. unfold F.
      rewrite meanabsdev_zsum by lia. replace (i - p + 1 + p) with (i + 1) by lia.
      replace (i - p + 1) with (i + 1 - p) by lia. rewrite (zsum_snoc (i + 1 - p) i (zr x)) by lia. reflexivity.
    + rewrite !tab_nil by zl. rewrite En. toR. apply peq; [ring|reflexivity].
  - intros s ->. fintab.
Qed.
End R.

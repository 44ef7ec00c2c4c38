(** Weighted averages and the regression family, in exact real arithmetic. *)
From Verif Require Export Fun_basic.

(** Sum over the window of [p] bars ending at bar i, indexed from its oldest bar. *)
Lemma win_shift k p f : zsum k (k + p) f = zsum 0 p (fun j => f (k + j)).
Proof.
  replace (zsum k (k + p)) with (zsum (0 + k) (p + k)) by (f_equal; lia).
  rewrite zsum_shift. apply zsum_ext. intros. f_equal. lia.
Qed.
(** Rolling the linearly weighted sum. *)
Lemma wsum_roll k p x : 1 <= p ->
  (zsum 0 p (fun j => zr x (k + j) * IZR (j + 1)) - zsum 0 p (fun j => zr x (k + j)) =
   zsum 0 (p - 1) (fun j => zr x (k + 1 + j)%Z * IZR (j + 1)))%R.
Proof.
  intros H. rewrite <- zsum_minus. rewrite (zsum_cons 0 p) by lia.
  replace (zsum (0 + 1) p) with (zsum (0 + 1) (p - 1 + 1)) by (f_equal; lia). rewrite zsum_shift.
  rewrite (zsum_ext 0 (p - 1) _ (fun j => zr x (k + 1 + j)%Z * IZR (j + 1))%R).
  - cbn. rewrite Z.add_0_r. ring.
  - intros j Hj. replace (k + (j + 1)) with (k + 1 + j) by lia. rewrite (plus_IZR (j + 1) 1). ring.
Qed.

Section R.

Lemma wma_fun size (x : list R) o p : zlen x = size -> 0 <= size <= INT_MAX -> @to_int RA o = Some p -> 1 <= p ->
  p * (p + 1) <= INT_MAX ->
  @ti_wma RA size [x] [o] = Ok (OKAY, [tab 0 (size - p + 1) (fun k => wavg (fun j => IZR (j + 1)) k p x)]).
Proof.
  openR ti_wma; try nia. setF.
  assert (Hw : IZR (Z.quot (p * (p + 1)) 2) = zsum 0 p (fun j => IZR (j + 1))).
  { rewrite zsum_id by lia. rewrite Z.quot_div_nonneg by lia.
    assert (Hm : (p * (p + 1)) mod 2 = 0).
    { rewrite Z.mul_mod, Z.add_mod by lia. pose proof (Z.mod_pos_bound p 2 ltac:(lia)).
      assert (p mod 2 = 0 \/ p mod 2 = 1) as [-> | ->] by lia; reflexivity. }
    pose proof (Z.div_mod (p * (p + 1)) 2 ltac:(lia)) as Hd. rewrite Hm in Hd.
    apply (f_equal IZR) in Hd. rewrite plus_IZR, !mult_IZR, plus_IZR in Hd. lra. }
  acc2 (zr x) (fun j => zr x j * IZR (j + 1))%R.
  loop (fun i s => s = (zsum 0 (p - 1) (fun j => zr x (i - p + 1 + j)), zsum 0 (p - 1) (fun j => zr x (i - p + 1 + j) * IZR (j + 1))%R, tab 0 (i - p + 1) F)).
  - lia.
  - replace (p - 1 - p + 1) with 0 by lia. rewrite tab_nil by lia. reflexivity.
  - intros i s Hi ->. wps.
    assert (Ey : zsum 0 p (fun j => zr x (i - p + 1 + j)) = (zsum 0 (p - 1) (fun j => zr x (i - p + 1 + j)%Z) + zr x i)%R).
    { replace (zsum 0 p) with (zsum 0 (p - 1 + 1)) by (f_equal; lia). rewrite zsum_snoc by lia. do 2 f_equal. lia. }
    assert (Exy : zsum 0 p (fun j => zr x (i - p + 1 + j) * IZR (j + 1))%R =
       (zsum 0 (p - 1) (fun j => zr x (i - p + 1 + j)%Z * IZR (j + 1)) + zr x i * IZR p)%R).
    { replace (zsum 0 p) with (zsum 0 (p - 1 + 1)) by (f_equal; lia). rewrite zsum_snoc by lia.
      f_equal. replace (i - p + 1 + (p - 1)) with i by lia. do 2 f_equal. lia. }
    apply peq; [apply peq|].
    + toR. rewrite <- Ey. rewrite (zsum_cons 0 p) by lia.
      replace (zsum (0 + 1) p) with (zsum (0 + 1) (p - 1 + 1)) by (f_equal; lia). rewrite zsum_shift.
      rewrite Z.add_0_r. rewrite (zsum_ext 0 (p - 1) _ (fun j => zr x (i + 1 - p + 1 + j))) by (intros; f_equal; lia). lra.
    + toR. rewrite <- Ey, <- Exy. rewrite wsum_roll by lia. apply zsum_ext. intros. do 2 f_equal. lia.
    + apply (tab_next' _ (i - p + 1)); [zl|zl|reflexivity|]. unfold F, wavg. toR. rewrite Hw, <- Exy. f_equal.
      apply zsum_ext. intros. ring.
  - intros s ->. fintab.
Qed.

(** Wilder's average: starts at the mean of the first [p] values. *)
Lemma wilders_fun size (x : list R) o p : zlen x = size -> 0 <= size <= INT_MAX -> @to_int RA o = Some p -> 1 <= p ->
  @ti_wilders RA size [x] [o] = Ok (OKAY, [tab 0 (size - p + 1) (fun k =>
    trec (fun i => @ema_step RA (1 / IZR p)%R (zr x i)) p (k + p) (mean (window 0 p x)))]).
Proof.
  intros. replace (mean (window 0 p x)) with (if (p <=? size) then (zsum 0 p (zr x) / IZR p)%R else mean (window 0 p x)).
  2: { destruct (p <=? size) eqn:?; [|reflexivity]. unfold mean. rewrite Rsum_window, zlen_window by lia. reflexivity. }
  openR ti_wilders. replace (p <=? size) with true by lia. acc1 (zr x).
  recur p (p - 1) (fun i => @ema_step RA (1 / IZR p)%R (zr x i)) (zsum 0 p (zr x) / IZR p)%R.
  apply tab_one; [lia|]. rewrite trec_nil by lia. reflexivity.
Qed.

(** The regression sweep: FINAL is called for every bar i >= p-1 with the sum of 1..p, the
    window sum and the least-squares slope of the window ending at bar i. *)
Lemma LINEAR_REGRESSION_fun {S} size (x : list R) p
    (final : Z -> @T RA -> @T RA -> @T RA -> S * list (@T RA) -> res (S * list (@T RA)))
    (g : Z -> S * list R -> S * list R) (s0 : S) :
  zlen x = size -> 1 <= p <= size -> p * p <= INT_MAX ->
  (forall i s, p - 1 <= i < size ->
     final i (zsum 0 p (fun j => IZR (j + 1))) (zsum 0 p (fun j => zr x (i - p + 1 + j))) (lr_slope (i - p + 1) p x) s = Ok (g i s)) ->
  LINEAR_REGRESSION size (x : list (@T RA)) p final s0 = Ok (snd (trec g (p - 1) size (s0, []))).
Proof.
  intros Hl Hp Hpp Hf. apply wp_eq. unfold LINEAR_REGRESSION.
  loop (fun i s => s = (zsum 0 i (fun j => IZR (j + 1)), zsum 0 i (fun j => IZR ((j + 1) * (j + 1))),
                        zsum 0 i (zr x), zsum 0 i (fun j => zr x j * IZR (j + 1))%R)).
  - lia.
  - rewrite !zsum_nil by lia. reflexivity.
  - intros i s Hi ->. assert (0 <= (i + 1) * (i + 1) <= p * p) by nia. wps. rewrite !zsum_snoc by lia. reflexivity.
  - intros s ->. assert (0 <= p * p) by nia. wps.
    loop (fun i s => s = (zsum 0 (p - 1) (fun j => zr x (i - p + 1 + j)), zsum 0 (p - 1) (fun j => zr x (i - p + 1 + j) * IZR (j + 1))%R, trec g (p - 1) i (s0, []))).
    + lia.
    + rewrite trec_nil by lia. replace (p - 1 - p + 1) with 0 by lia. reflexivity.
    + intros i s Hi ->. wps.
      assert (Ey : zsum 0 p (fun j => zr x (i - p + 1 + j)) = (zsum 0 (p - 1) (fun j => zr x (i - p + 1 + j)%Z) + zr x i)%R).
      { replace (zsum 0 p) with (zsum 0 (p - 1 + 1)) by (f_equal; lia). rewrite zsum_snoc by lia. do 2 f_equal. lia. }
      assert (Exy : zsum 0 p (fun j => zr x (i - p + 1 + j) * IZR (j + 1))%R =
         (zsum 0 (p - 1) (fun j => zr x (i - p + 1 + j)%Z * IZR (j + 1)) + zr x i * IZR p)%R).
      { replace (zsum 0 p) with (zsum 0 (p - 1 + 1)) by (f_equal; lia). rewrite zsum_snoc by lia.
        f_equal. replace (i - p + 1 + (p - 1)) with i by lia. do 2 f_equal. lia. }
      assert (E1 : (zsum 0 (p - 1) (fun j => IZR (j + 1)) + IZR p)%R = zsum 0 p (fun j => IZR (j + 1))).
      { replace (zsum 0 p) with (zsum 0 (p - 1 + 1)) by (f_equal; lia). rewrite zsum_snoc by lia. do 2 f_equal. lia. }
      assert (E2 : (zsum 0 (p - 1) (fun j => IZR ((j + 1) * (j + 1))) + IZR (p * p))%R = zsum 0 p (fun j => IZR ((j + 1) * (j + 1)))).
      { replace (zsum 0 p) with (zsum 0 (p - 1 + 1)) by (f_equal; lia). rewrite zsum_snoc by lia. do 2 f_equal. lia. }
      specialize (Hf i (trec g (p - 1) i (s0, [])) Hi).
      toR. rewrite <- Ey, <- Exy, E1, E2.
      match goal with |- wp (final i ?a ?b ?c ?d) _ => replace c with (lr_slope (i - p + 1) p x)
        by (unfold lr_slope; cbv zeta; unfold Rdiv; rewrite Rmult_1_l; reflexivity) end.
      rewrite Hf. wps. apply (wp_rd 0%R); [zl|]. wps. rewrite trec_snoc by lia. apply peq; [|reflexivity]. apply peq.
      * rewrite (zsum_cons 0 p) by lia.
        replace (zsum (0 + 1) p) with (zsum (0 + 1) (p - 1 + 1)) by (f_equal; lia). rewrite zsum_shift.
        rewrite Z.add_0_r. rewrite (zsum_ext 0 (p - 1) _ (fun j => zr x (i + 1 - p + 1 + j))) by (intros; f_equal; lia). lra.
      * rewrite wsum_roll by lia. apply zsum_ext. intros. do 2 f_equal. lia.
    + intros s ->. destruct (trec g (p - 1) size (s0, [])) as [u out]. wps. reflexivity.
Qed.
Lemma trec_app_tab {S B} (f : Z -> B) lo hi (u : S) : lo <= hi ->
  trec (fun i (s : S * list B) => (fst s, snd s ++ [f i])) lo hi (u, []) = (u, tab 0 (hi - lo) (fun k => f (k + lo))).
Proof.
  intros H. apply (zind (fun hi => trec (fun i (s : S * list B) => (fst s, snd s ++ [f i])) lo hi (u, []) = (u, tab 0 (hi - lo) (fun k => f (k + lo)))) lo hi H).
  - rewrite trec_nil, tab_nil by lia. reflexivity.
  - intros n Hn IH. rewrite trec_snoc, IH by lia. cbn [fst snd].
    replace (n + 1 - lo) with (n - lo + 1) by lia. rewrite tab_snoc by lia. rewrite Z.sub_add. reflexivity.
Qed.
(** Value of the fitted line at abscissa t (1 = oldest bar, p = newest). *)
Definition lr_at (t : Z) (k p : Z) (x : list R) : R := (lr_icept k p x + lr_slope k p x * IZR t)%R.
Lemma line_fun size (x : list R) p t : zlen x = size -> 1 <= p <= size -> p * p <= INT_MAX ->
  LINEAR_REGRESSION size (x : list (@T RA)) p (FINAL_line p t) tt = Ok (tab 0 (size - p + 1) (fun k => lr_at t k p x)).
Proof.
  intros. erewrite (LINEAR_REGRESSION_fun size x p _ (fun i s => (fst s, snd s ++ [lr_at t (i - p + 1) p x]))); try assumption.
  - rewrite (trec_app_tab (fun i => lr_at t (i - p + 1) p x)) by lia. cbn [snd]. f_equal.
    rewrite (tab_ext _ _ _ (fun k => lr_at t k p x)) by (intros; f_equal; lia). apply tab_eq; lia.
  - intros i [u out] Hi. unfold FINAL_line. cbn [fst snd]. do 4 f_equal.
    unfold lr_at, lr_icept. toR. unfold Rdiv. rewrite Rmult_1_l. reflexivity.
Qed.
Ltac lr_tac := intros; ranges; apply wp_eq; unfold_wp; unfold start_p1; wps; contra;
  try solve [rewrite tab_nil by zl; reflexivity];
  rewrite line_fun by zl; fintab.
Lemma linreg_fun size (x : list R) o p : zlen x = size -> 0 <= size <= INT_MAX -> @to_int RA o = Some p -> 1 <= p ->
  p * p <= INT_MAX -> @ti_linreg RA size [x] [o] = Ok (OKAY, [tab 0 (size - p + 1) (fun k => lr_at p k p x)]).
Proof. lr_tac. Qed.
Lemma linregintercept_fun size (x : list R) o p : zlen x = size -> 0 <= size <= INT_MAX -> @to_int RA o = Some p -> 1 <= p ->
  p * p <= INT_MAX -> @ti_linregintercept RA size [x] [o] = Ok (OKAY, [tab 0 (size - p + 1) (fun k => lr_at 1 k p x)]).
Proof. lr_tac. Qed.
Lemma tsf_fun size (x : list R) o p : zlen x = size -> 0 <= size <= INT_MAX -> @to_int RA o = Some p -> 1 <= p ->
  p * p <= INT_MAX -> @ti_tsf RA size [x] [o] = Ok (OKAY, [tab 0 (size - p + 1) (fun k => lr_at (p + 1) k p x)]).
Proof. intros; assert (p <= 46341) by (unfold INT_MAX in *; nia); lr_tac. Qed.
Lemma linregslope_fun size (x : list R) o p : zlen x = size -> 0 <= size <= INT_MAX -> @to_int RA o = Some p -> 1 <= p ->
  p * p <= INT_MAX -> @ti_linregslope RA size [x] [o] = Ok (OKAY, [tab 0 (size - p + 1) (fun k => lr_slope k p x)]).
Proof.
  openR ti_linregslope.
  erewrite (LINEAR_REGRESSION_fun size x p _ (fun i s => (fst s, snd s ++ [lr_slope (i - p + 1) p x]))); try zl.
  - rewrite (trec_app_tab (fun i => lr_slope (i - p + 1) p x)) by lia. cbn [snd].
    rewrite (tab_ext _ _ _ (fun k => lr_slope k p x)) by (intros; f_equal; lia). fintab.
  - intros i [u out] Hi. reflexivity.
Qed.
(** Percentage error of the previous bar's forecast. *)
Lemma fosc_fun size (x : list R) o p : zlen x = size -> 0 <= size <= INT_MAX -> @to_int RA o = Some p -> 1 <= p ->
  p * p <= INT_MAX -> @ti_fosc RA size [x] [o] = Ok (OKAY, [tab 0 (size - p) (fun k =>
     let e := (zr x (k + p) - lr_at (p + 1) k p x)%R in if Reqb e 0 then 0%R else (100 * e / zr x (k + p))%R)]).
Proof.
  intros. assert (p <= 46341) by (unfold INT_MAX in *; nia). openR ti_fosc. setF.
  erewrite (LINEAR_REGRESSION_fun size x p _ (fun i s =>
     (lr_at (p + 1) (i - p + 1) p x, if i >=? p then snd s ++ [let e := (zr x i - fst s)%R in if Reqb e 0 then 0%R else (100 * e / zr x i)%R] else snd s))); try zl.
  - replace (snd (trec _ (p - 1) size _)) with (tab 0 (size - p) F). { fintab. }
    enough (Hz : forall m, p - 1 <= m -> trec (fun i (s : R * list R) => (lr_at (p + 1) (i - p + 1) p x,
              if i >=? p then snd s ++ [let e := (zr x i - fst s)%R in if Reqb e 0 then 0%R else (100 * e / zr x i)%R]
              else snd s)) (p - 1) m (0%R, []) = (if m =? p - 1 then 0%R else lr_at (p + 1) (m - p) p x, tab 0 (m - p) F)).
    { toR. rewrite Hz by lia. reflexivity. }
    intros m Hm. apply (zind (fun m => trec _ (p - 1) m _ = _) (p - 1) m Hm).
    + rewrite trec_nil, tab_nil by lia. rewrite Z.eqb_refl. reflexivity.
    + intros n Hn IH. rewrite trec_snoc, IH by lia. cbn [fst snd].
      destruct (n + 1 =? p - 1) eqn:?; [lia|]. apply peq. { f_equal; lia. }
      destruct (n >=? p) eqn:?.
      * destruct (n =? p - 1) eqn:?; [lia|]. apply (tab_next' _ (n - p)); [lia|lia|reflexivity|].
        unfold F. rewrite Z.sub_add. reflexivity.
      * rewrite !tab_nil by lia. reflexivity.
  - intros i [tsf out] Hi. apply wp_eq. wps; contra.
    + apply peq; [|]. { unfold lr_at, lr_icept. toR. unfold Rdiv. rewrite Rmult_1_l. reflexivity. }
      unfold truth. toR. destruct (Reqb _ 0); reflexivity.
    + apply peq; [|reflexivity]. unfold lr_at, lr_icept. toR. unfold Rdiv. rewrite Rmult_1_l. reflexivity.
Qed.
End R.

(** Closed forms and ranges in exact real arithmetic. *)
From Verif Require Export Fun_lr.

(** A step towards the input by a fraction in [0,1] stays between old value and input. *)
Lemma ema_step_between per x v lo hi : (0 <= per <= 1)%R -> (lo <= x <= hi)%R -> (lo <= v <= hi)%R ->
  (lo <= @ema_step RA per x v <= hi)%R.
Proof.
  intros Hp Hx Hv. unfold ema_step. toR. nra.
Qed.
Lemma trec_inv {S} (P : S -> Prop) (step : Z -> S -> S) lo hi s :
  P s -> (forall i s, lo <= i < hi -> P s -> P (step i s)) -> P (trec step lo hi s).
Proof.
  intros H0 Hs. destruct (Z.le_gt_cases lo hi) as [L|L]; [|rewrite trec_nil by lia; exact H0].
  apply (zind (fun h => h <= hi -> P (trec step lo h s)) lo hi L); [|..|lia].
  - intros _. rewrite trec_nil by lia. exact H0.
  - intros n Hn IH _. rewrite trec_snoc by lia. apply Hs; [lia|]. apply IH. lia.
Qed.
Lemma per_ema p : 1 <= p -> (0 <= 2 / (IZR p + 1) <= 1)%R.
Proof.
  intros H. assert (1 <= IZR p)%R by (apply IZR_le; lia). split.
  - apply Rmult_le_pos; [lra|]. left. apply Rinv_0_lt_compat. lra.
  - apply (Rmult_le_reg_r (IZR p + 1)); [lra|]. unfold Rdiv. rewrite Rmult_assoc, Rinv_l by lra. lra.
Qed.
Lemma per_wilder p : 1 <= p -> (0 <= 1 / IZR p <= 1)%R.
Proof.
  intros H. assert (1 <= IZR p)%R by (apply IZR_le; lia). split.
  - apply Rmult_le_pos; [lra|]. left. apply Rinv_0_lt_compat. lra.
  - apply (Rmult_le_reg_r (IZR p)); [lra|]. unfold Rdiv. rewrite Rmult_assoc, Rinv_l by lra. lra.
Qed.
Lemma mean_between k p x lo hi : 1 <= p -> 0 <= k -> k + p <= zlen x ->
  (forall i, k <= i < k + p -> (lo <= zr x i <= hi)%R) -> (lo <= mean (window k p x) <= hi)%R.
Proof.
  intros Hp Hk Hl H. unfold mean. rewrite Rsum_window, zlen_window by lia.
  assert (1 <= IZR p)%R by (apply IZR_le; lia).
  assert (IZR p * lo <= zsum k (k + p) (zr x) <= IZR p * hi)%R.
  { assert (Ec : forall c, (IZR p * c)%R = zsum k (k + p) (fun _ => c)) by (intros; rewrite zsum_const by lia; do 2 f_equal; lia).
    rewrite !Ec. split; apply zsum_le; intros; apply H; lia. }
  split; apply (Rmult_le_reg_r (IZR p)); try lra; unfold Rdiv; rewrite Rmult_assoc, Rinv_l by lra; lra.
Qed.

(** Additive recurrences are sums. *)
Lemma trec_sum (c : Z -> R) lo hi s : lo <= hi -> trec (fun i s => s + c i)%R lo hi s = (s + zsum lo hi c)%R.
Proof.
  intros H. apply (zind (fun hi => trec (fun i s => s + c i)%R lo hi s = (s + zsum lo hi c)%R) lo hi H).
  - rewrite trec_nil, zsum_nil by lia. lra.
  - intros n Hn IH. rewrite trec_snoc, zsum_snoc, IH by lia. lra.
Qed.

(** On-balance volume. *)
Definition obv_term (c v : list R) (j : Z) : R :=
  if Rltb (zr c (j - 1)) (zr c j) then zr v j
  else if Rltb (zr c j) (zr c (j - 1)) then (- zr v j)%R else 0%R.
Lemma obv_sum c v i : 0 <= i -> trec (fun i => @obv_step RA (zf c i) (zf c (i - 1)) (zf v i)) 1 (i + 1) (@of_Z RA 0)
  = zsum 1 (i + 1) (obv_term c v).
Proof.
  intros H. rewrite (trec_ext _ (fun i s => s + obv_term c v i)%R).
  - rewrite trec_sum by lia. toR. lra.
  - intros j s Hj. unfold obv_step, obv_term. toR. destruct (Rltb (zr c (j - 1)) (zr c j)); [reflexivity|].
    destruct (Rltb (zr c j) (zr c (j - 1))); toR; lra.
Qed.
(** Accumulation/distribution: money-flow multiplier times volume, nothing on flat bars. *)
Definition ad_flow (h l c v : list R) (j : Z) : R :=
  if Reqb (zr h j) (zr l j) then 0%R
  else (((zr c j - zr l j) - (zr h j - zr c j)) / (zr h j - zr l j) * zr v j)%R.
Lemma ad_sum h l c v i : 0 <= i ->
  trec (fun i => @ad_term RA (zf h i) (zf l i) (zf c i) (zf v i)) 0 (i + 1) (@of_Z RA 0) = zsum 0 (i + 1) (ad_flow h l c v).
Proof.
  intros H. rewrite (trec_ext _ (fun i s => s + ad_flow h l c v i)%R).
  - rewrite trec_sum by lia. toR. lra.
  - intros j s Hj. unfold ad_term, ad_flow. toR.
    destruct (Reqb_spec (zr h j - zr l j) 0), (Reqb_spec (zr h j) (zr l j)); cbn [negb]; try lra.
Qed.
(** Williams accumulation: distance of the close from the true low (up day) or true high (down day). *)
Definition wad_move (h l c : list R) (j : Z) : R :=
  if Rltb (zr c (j - 1)) (zr c j) then (zr c j - Rmin (zr c (j - 1)) (zr l j))%R
  else if Rltb (zr c j) (zr c (j - 1)) then (zr c j - Rmax (zr c (j - 1)) (zr h j))%R else 0%R.
Lemma MINf_R a b : @MINf RA a b = Rmin a b.
Proof. unfold MINf, Rmin. toR. destruct (Rltb_spec a b), (Rle_dec a b); lra. Qed.
Lemma MAXf_R a b : @MAXf RA a b = Rmax a b.
Proof. unfold MAXf, Rmax. toR. destruct (Rltb_spec b a), (Rle_dec a b); lra. Qed.
Lemma wad_sum h l c i : 0 <= i ->
  trec (fun i => @wad_step RA (zf h i) (zf l i) (zf c i) (zf c (i - 1))) 1 (i + 1) (@of_Z RA 0) = zsum 1 (i + 1) (wad_move h l c).
Proof.
  intros H. rewrite (trec_ext _ (fun i s => s + wad_move h l c i)%R).
  - rewrite trec_sum by lia. toR. lra.
  - intros j s Hj. unfold wad_step, wad_move. rewrite MINf_R, MAXf_R. toR.
    destruct (Rltb (zr c (j - 1)) (zr c j)); [reflexivity|]. destruct (Rltb (zr c j) (zr c (j - 1))); lra.
Qed.
(** True range. *)
Lemma tr_val_R h l pc : @tr_val RA h l pc = Rmax (Rmax (h - l) (Rabs (h - pc))) (Rabs (l - pc)).
Proof.
  unfold tr_val. toR. unfold Rmax.
  destruct (Rltb_spec (h - l) (Rabs (h - pc))), (Rle_dec (h - l) (Rabs (h - pc))); try lra;
  match goal with |- context[Rltb ?a ?b] => destruct (Rltb_spec a b) end;
  match goal with |- context[Rle_dec ?a ?b] => destruct (Rle_dec a b) end; lra.
Qed.

(** Relative strength and momentum. *)
Lemma up_nonneg x i : (0 <= @up_change RA x i)%R.
Proof. unfold up_change. toR. destruct (Rltb_spec (zr x (i - 1)) (zr x i)); lra. Qed.
Lemma down_nonneg x i : (0 <= @down_change RA x i)%R.
Proof. unfold down_change. toR. destruct (Rltb_spec (zr x i) (zr x (i - 1))); lra. Qed.
Lemma up_change_R x i : @up_change RA x i = Rmax 0 (zr x i - zr x (i - 1)).
Proof. unfold up_change, Rmax. toR. destruct (Rltb_spec (zr x (i - 1)) (zr x i)), (Rle_dec 0 (zr x i - zr x (i - 1))); lra. Qed.
Lemma down_change_R x i : @down_change RA x i = Rmax 0 (zr x (i - 1) - zr x i).
Proof. unfold down_change, Rmax. toR. destruct (Rltb_spec (zr x i) (zr x (i - 1))), (Rle_dec 0 (zr x (i - 1) - zr x i)); lra. Qed.
Lemma smoothed_nonneg c p i : 1 <= p -> (forall j, 0 <= c j)%R -> (0 <= @smoothed RA c p i)%R.
Proof.
  intros Hp Hc. unfold smoothed. pose proof (per_wilder p Hp) as Hper.
  apply (trec_inv (fun s => 0 <= s)%R).
  - apply Rmult_le_pos; [|left; apply Rinv_0_lt_compat, IZR_lt; lia].
    apply (trec_inv (fun s => 0 <= s)%R); toR; [lra|]. intros j s _ Hs. specialize (Hc j). lra.
  - intros j s _ Hs. unfold ema_step. toR. specialize (Hc j). nra.
Qed.
Lemma ratio_range u d : (0 <= u)%R -> (0 <= d)%R -> (0 <= u / (u + d) <= 1)%R.
Proof.
  intros. destruct (Req_dec (u + d) 0) as [E|N].
  - replace u with 0%R by lra. unfold Rdiv. rewrite Rmult_0_l. lra.
  - assert (0 < u + d)%R by lra. split.
    + apply Rmult_le_pos; [lra|]. left. apply Rinv_0_lt_compat. lra.
    + apply (Rmult_le_reg_r (u + d)); [lra|]. unfold Rdiv. rewrite Rmult_assoc, Rinv_l by lra. lra.
Qed.
Lemma rsi_range u d : (0 <= u)%R -> (0 <= d)%R -> (0 <= @rsi_val RA u d <= 100)%R.
Proof.
  intros Hu Hd. unfold rsi_val. pose proof (ratio_range u d Hu Hd). unfold truth. toR.
  destruct (Reqb u 0); cbn [negb]; lra.
Qed.

Definition cmo_val (u d : R) : R := if Reqb (u + d) 0 then 0%R else (100 * (u - d) / (u + d))%R.
Lemma cmo_range u d : (0 <= u)%R -> (0 <= d)%R -> (-100 <= cmo_val u d <= 100)%R.
Proof.
  intros Hu Hd. unfold cmo_val. destruct (Reqb_spec (u + d) 0); [lra|]. assert (0 < u + d)%R by lra.
  split; apply (Rmult_le_reg_r (u + d)); try lra; unfold Rdiv; rewrite Rmult_assoc, Rinv_l by lra; lra.
Qed.
Lemma UPWARD_eq {A : Arith} x i : 0 < i < zlen x -> UPWARD x i = Ok (up_change x i).
Proof. intros. apply wp_eq. unfold UPWARD. wps. reflexivity. Qed.
Lemma DOWNWARD_eq {A : Arith} x i : 0 < i < zlen x -> DOWNWARD x i = Ok (down_change x i).
Proof. intros. apply wp_eq. unfold DOWNWARD. wps. reflexivity. Qed.
Lemma cmo_fun size (x : list R) o p : zlen x = size -> 0 <= size <= INT_MAX -> @to_int RA o = Some p -> 1 <= p ->
  @ti_cmo RA size [x] [o] = Ok (OKAY, [tab 0 (size - p) (fun k =>
    cmo_val (zsum (k + 1) (k + 1 + p) (@up_change RA x)) (zsum (k + 1) (k + 1 + p) (@down_change RA x)))]).
Proof.
  openR ti_cmo. replace (Z.min p size) with p by lia. replace (Z.max 1 p) with p by lia. setF.
  loop (fun i s => s = (zsum 1 i (@up_change RA x), zsum 1 i (@down_change RA x))).
  - lia.
  - rewrite !zsum_nil by lia. reflexivity.
  - intros i s Hi ->. rewrite UPWARD_eq, DOWNWARD_eq by zl. wps. rewrite !zsum_snoc by lia. reflexivity.
  - intros s ->.
    loop (fun i s => s = (zsum (i - p + 1) i (@up_change RA x), zsum (i - p + 1) i (@down_change RA x), tab 0 (i - p) F)).
    + lia.
    + rewrite Z.sub_diag. reflexivity.
    + intros i s Hi ->. rewrite !UPWARD_eq, !DOWNWARD_eq by zl. wps.
      assert (Er : forall f, (zsum (i - p + 1) i f + f i - f (i - p + 1)%Z)%R = zsum (i + 1 - p + 1) (i + 1) f).
      { intros f. rewrite <- zsum_snoc by lia. rewrite (zsum_cons (i - p + 1)) by lia.
        replace (i - p + 1 + 1) with (i + 1 - p + 1) by lia. lra. }
      toR. rewrite !Er. apply peq; [reflexivity|].
      apply (tab_next' _ (i - p)); [lia|lia|reflexivity|]. unfold F, cmo_val, truth. toR.
      replace (i - p + 1 + p) with (i + 1) by lia. rewrite !zsum_snoc by lia.
      destruct (Reqb _ 0); reflexivity.
    + intros s ->. fintab.
Qed.

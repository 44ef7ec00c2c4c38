(** What the directional movement indicators compute over the reals. *)
From Coq Require Import Reals Lra.
From Verif Require Import M_osc Fun_exact Fun_osc RSum RArith.
From Verif Require Export SpecR2.
Open Scope Z_scope.

Lemma rdR (l : list R) i : 0 <= i < zlen l -> @rd (@T RA) l i = Ok (zr l i).
Proof. intros. apply (rd_ok 0%R). assumption. Qed.

Lemma direction_eq (h l : list R) i : 1 <= i < zlen h -> i < zlen l ->
  @CALC_DIRECTION RA h l i = Ok (dm_up h l i, dm_down h l i).
Proof.
  intros Hh Hl. unfold CALC_DIRECTION. rewrite !rdR by lia. cbn [bind]. unfold dm_up, dm_down. toR.
  set (u := (zr h i - zr h (i - 1))%R). set (d := (zr l (i - 1) - zr l i)%R). clearbody u d. change (@T RA) with R in *.
  destruct (Rltb_spec u 0), (Rltb_spec d u); cbn [andb];
  destruct (Rltb_spec 0 u), (Rleb_spec d u), (Rltb_spec 0 d), (Rleb_spec u d); cbn [andb]; try lra;
  repeat match goal with |- context[Rltb ?a ?b] => destruct (Rltb_spec a b) end; try lra; repeat f_equal; lra.
Qed.
Lemma wsum_0 p f i : i = p - 1 -> wsum p f i = zsum 1 p f.
Proof. intros ->. unfold wsum. apply trec_nil. lia. Qed.
Lemma wsum_S p f i : 1 <= p <= i -> wsum p f i = (wsum p f (i - 1) * ((IZR p - 1) / IZR p) + f i)%R.
Proof. intros. unfold wsum. rewrite trec_snoc by lia. rewrite Z.sub_add. reflexivity. Qed.

Lemma dm_init_eq (h l : list R) p : 1 <= p <= zlen h -> p <= zlen l ->
  @dm_init RA h l p = Ok (zsum 1 p (dm_up h l), zsum 1 p (dm_down h l)).
Proof.
  intros Hh Hl. apply wp_eq. unfold dm_init.
  loop (fun i s => s = (zsum 1 i (dm_up h l), zsum 1 i (dm_down h l))).
  - lia.
  - rewrite !zsum_nil by lia. reflexivity.
  - intros i s Hi ->. rewrite direction_eq by lia. wps. rewrite !zsum_snoc by lia. reflexivity.
  - intros s ->. reflexivity.
Qed.

Lemma dm_fun size (h l : list R) o p : zlen h = size -> zlen l = size -> 0 <= size <= INT_MAX -> @to_int RA o = Some p -> 1 <= p ->
  @ti_dm RA size [h; l] [o] = Ok (OKAY, [tab 0 (size - p + 1) (fun k => wsum p (dm_up h l) (k + p - 1)); tab 0 (size - p + 1) (fun k => wsum p (dm_down h l) (k + p - 1))]).
Proof.
  openR ti_dm. match goal with |- context[[tab 0 ?s ?F0; tab 0 ?s ?F1]] => set (G0 := F0); set (G1 := F1) end.
  rewrite dm_init_eq by zl. wps.
  apply (wp_for (fun i st => st = (wsum p (dm_up h l) (i - 1), wsum p (dm_down h l) (i - 1), tab 0 (i - p + 1) G0, tab 0 (i - p + 1) G1))).
  - lia.
  - rewrite !wsum_0 by lia. repeat apply peq; try reflexivity; (apply tab_one; [lia|]); [unfold G0|unfold G1]; rewrite wsum_0 by lia; reflexivity.
  - intros i st Hi ->. rewrite direction_eq by zl. wps. replace (i + 1 - 1) with i by lia.
    rewrite (wsum_S p _ i) by lia. rewrite (wsum_S p (dm_down h l) i) by lia.
    repeat apply peq; try reflexivity; (apply (tab_next' _ (i - p + 1)); [zl|zl|reflexivity|]); [unfold G0|unfold G1]; replace (i - p + 1 + p - 1) with i by lia; rewrite (wsum_S p _ i) by lia; reflexivity.
  - intros st ->. wps; try zl. repeat f_equal; lia.
Qed.
Lemma dx_val_eq (u d : R) : @dx_val RA u d = dx_of u d.
Proof. reflexivity. Qed.
Lemma dx_fun size (h l : list R) o p : zlen h = size -> zlen l = size -> 0 <= size <= INT_MAX -> @to_int RA o = Some p -> 1 <= p ->
  @ti_dx RA size [h; l] [o] = Ok (OKAY, [tab 0 (size - p + 1) (fun k => dx_at p h l (k + p - 1))]).
Proof.
  openR ti_dx. setF. rewrite dm_init_eq by zl. wps.
  apply (wp_for (fun i st => st = (wsum p (dm_up h l) (i - 1), wsum p (dm_down h l) (i - 1), tab 0 (i - p + 1) F))).
  - lia.
  - rewrite !wsum_0 by lia. repeat apply peq; try reflexivity; (apply tab_one; [lia|]); unfold F, dx_at; rewrite !wsum_0 by lia; reflexivity.
  - intros i st Hi ->. rewrite direction_eq by zl. wps. replace (i + 1 - 1) with i by lia.
    rewrite (wsum_S p _ i) by lia. rewrite (wsum_S p (dm_down h l) i) by lia.
    repeat apply peq; try reflexivity; (apply (tab_next' _ (i - p + 1)); [zl|zl|reflexivity|]); unfold F, dx_at; replace (i - p + 1 + p - 1) with i by lia;
    rewrite (wsum_S p _ i) by lia; rewrite (wsum_S p (dm_down h l) i) by lia; reflexivity.
  - intros st ->. fintab.
Qed.

Lemma range_eq (h l c : list R) i : 1 <= i < zlen h -> i < zlen l -> i <= zlen c -> 
  @CALC_TRUERANGE RA h l c i = Ok (range_at h l c i).
Proof.
  intros. rewrite (@CALC_TRUERANGE_eq RA) by zl. f_equal. unfold tr_val, range_at. toR.
  assert (Em : forall a b : R, (if Rltb a b then b else a) = Rmax a b) by (intros a b; unfold Rmax; destruct (Rltb_spec a b), (Rle_dec a b); lra).
  rewrite !Em. symmetry. apply Rmax_assoc.
Qed.

Lemma di_val (a b : R) : (if @truth RA a then @fdiv RA (@fmul RA (@of_Z RA 100) a) b else @of_Z RA 0) = (100 * a / b)%R.
Proof. unfold truth. toR. destruct (Reqb_spec a 0) as [->|N]; cbn [negb]; [|reflexivity]. unfold Rdiv. ring. Qed.
Lemma di_fun size (h l c : list R) o p : zlen h = size -> zlen l = size -> zlen c = size -> 0 <= size <= INT_MAX -> @to_int RA o = Some p -> 1 <= p ->
  @ti_di RA size [h; l; c] [o] = Ok (OKAY,
    [tab 0 (size - p + 1) (fun k => 100 * wsum p (dm_up h l) (k + p - 1) / wsum p (range_at h l c) (k + p - 1))%R;
     tab 0 (size - p + 1) (fun k => 100 * wsum p (dm_down h l) (k + p - 1) / wsum p (range_at h l c) (k + p - 1))%R]).
Proof.
  openR ti_di. match goal with |- context[[tab 0 ?s ?F0; tab 0 ?s ?F1]] => set (G0 := F0); set (G1 := F1) end.
  replace (Z.min p size) with p by lia. replace (Z.max 1 p) with p by lia. rewrite Z.eqb_refl.
  loop (fun i s => s = (zsum 1 i (range_at h l c), zsum 1 i (dm_up h l), zsum 1 i (dm_down h l))).
  - lia.
  - rewrite !zsum_nil by lia. reflexivity.
  - intros i s Hi ->. rewrite range_eq by zl. wps. rewrite direction_eq by zl. wps. rewrite !zsum_snoc by lia. reflexivity.
  - intros s ->. rewrite !di_val. wps.
    apply (wp_for (fun i st => st = (wsum p (range_at h l c) (i - 1), wsum p (dm_up h l) (i - 1), wsum p (dm_down h l) (i - 1), tab 0 (i - p + 1) G0, tab 0 (i - p + 1) G1))).
    + lia.
    + rewrite !wsum_0 by lia. repeat apply peq; try reflexivity; (apply tab_one; [lia|]); [unfold G0|unfold G1]; rewrite !wsum_0 by lia; reflexivity.
    + intros i st Hi ->. rewrite range_eq by zl. wps. rewrite direction_eq by zl. wps. replace (i + 1 - 1) with i by lia. rewrite !di_val.
      assert (Ew : forall f, wsum p f i = (wsum p f (i - 1) * ((IZR p - 1) / IZR p) + f i)%R) by (intros; apply wsum_S; lia).
      rewrite !Ew. repeat apply peq; try reflexivity; (apply (tab_next' _ (i - p + 1)); [zl|zl|reflexivity|]); [unfold G0|unfold G1]; replace (i - p + 1 + p - 1) with i by lia; rewrite !Ew; reflexivity.
    + intros st ->. wps; try zl. repeat f_equal; lia.
Qed.

Lemma adx_0 p h l i : 1 <= p -> i = 2 * p - 2 -> adx_at p h l i = (zsum (p - 1) (2 * p - 1) (dx_at p h l) / IZR p)%R.
Proof. intros ? ->. unfold adx_at. apply trec_nil. lia. Qed.
Lemma adx_S p h l i : 1 <= p -> 2 * p - 1 <= i -> adx_at p h l i = (adx_at p h l (i - 1) * ((IZR p - 1) / IZR p) + dx_at p h l i / IZR p)%R.
Proof. intros. unfold adx_at. rewrite trec_snoc by lia. rewrite Z.sub_add. reflexivity. Qed.
(** The variable [adx] of the code after bar i: the sum of the indices, later p times the mean. *)
Definition adx_sum (p : Z) (h l : list R) (i : Z) : R :=
  if i <? 2 * p - 2 then zsum (p - 1) (i + 1) (dx_at p h l) else (IZR p * adx_at p h l i)%R.
Lemma adx_sum_0 p h l : 2 <= p -> adx_sum p h l (p - 1) = dx_at p h l (p - 1).
Proof. intros. unfold adx_sum. replace (p - 1 <? 2 * p - 2) with true by lia. rewrite Z.sub_add. replace p with (p - 1 + 1) at 2 by lia. apply zsum_one. Qed.
Lemma adx_sum_S1 p h l i : 2 <= p -> p <= i <= 2 * p - 2 -> adx_sum p h l i = (adx_sum p h l (i - 1) + dx_at p h l i)%R.
Proof.
  intros Hp Hi. unfold adx_sum. replace (i - 1 <? 2 * p - 2) with true by lia. replace (i - 1 + 1) with i by lia. rewrite <- zsum_snoc by lia.
  destruct (i <? 2 * p - 2) eqn:E; [reflexivity|]. rewrite adx_0 by lia. assert (0 < IZR p)%R by (apply IZR_lt; lia).
  replace (2 * p - 1) with (i + 1) by lia. field. lra.
Qed.
Lemma adx_sum_S2 p h l i : 2 <= p -> 2 * p - 1 <= i -> adx_sum p h l i = (adx_sum p h l (i - 1) * ((IZR p - 1) / IZR p) + dx_at p h l i)%R.
Proof.
  intros Hp Hi. unfold adx_sum. replace (i - 1 <? 2 * p - 2) with false by lia. replace (i <? 2 * p - 2) with false by lia.
  rewrite (adx_S p h l i) by lia. assert (0 < IZR p)%R by (apply IZR_lt; lia). field. lra.
Qed.
Lemma adx_out p h l i : 2 <= p -> 2 * p - 2 <= i -> (adx_sum p h l i * (1 / IZR p))%R = adx_at p h l i.
Proof. intros. unfold adx_sum. replace (i <? 2 * p - 2) with false by lia. assert (0 < IZR p)%R by (apply IZR_lt; lia). field. lra. Qed.

Lemma adx_fun size (h l : list R) o p : zlen h = size -> zlen l = size -> 0 <= size <= INT_MAX -> @to_int RA o = Some p -> 2 <= p <= 1073741824 ->
  @ti_adx RA size [h; l] [o] = Ok (OKAY, [tab 0 (size - (2 * p - 2)) (fun k => adx_at p h l (k + (2 * p - 2)))]).
Proof.
  intros Hh Hl Hs Ho Hp. ranges. apply wp_eq. unfold ti_adx, start_p12. wps; contra. { rewrite tab_nil by zl. reflexivity. }
  setF. rewrite dm_init_eq by zl. wps. rewrite dx_val_eq.
  apply (wp_for (fun i st => st = (wsum p (dm_up h l) (i - 1), wsum p (dm_down h l) (i - 1), adx_sum p h l (i - 1), tab 0 (i - (2 * p - 2)) F))).
  - lia.
  - rewrite adx_sum_0 by lia. rewrite tab_nil by lia. unfold dx_at. rewrite !wsum_0 by lia. repeat apply peq; try reflexivity. toR. apply Rplus_0_l.
  - intros i st Hi ->. rewrite direction_eq by zl. wps; replace (i + 1 - 1) with i by lia;
    rewrite (wsum_S p (dm_up h l) i), (wsum_S p (dm_down h l) i) by lia; rewrite dx_val_eq;
    (assert (Ed : dx_of (wsum p (dm_up h l) (i - 1) * ((IZR p - 1) / IZR p) + dm_up h l i) (wsum p (dm_down h l) (i - 1) * ((IZR p - 1) / IZR p) + dm_down h l i) = dx_at p h l i)
      by (unfold dx_at; rewrite (wsum_S p (dm_up h l) i), (wsum_S p (dm_down h l) i) by lia; reflexivity)); toR; rewrite Ed.
    + repeat apply peq; try reflexivity. * rewrite (adx_sum_S1 p h l i) by lia. reflexivity. * rewrite !tab_nil by lia. reflexivity.
    + assert (Es : (adx_sum p h l (i - 1) + dx_at p h l i)%R = adx_sum p h l i) by (rewrite (adx_sum_S1 p h l i) by lia; reflexivity).
      rewrite Es. repeat apply peq; try reflexivity. apply (tab_next' _ (i - (2 * p - 2))); [zl|zl|reflexivity|]. unfold F. rewrite adx_out by lia. f_equal; lia.
    + assert (Es : (adx_sum p h l (i - 1) * ((IZR p - 1) / IZR p) + dx_at p h l i)%R = adx_sum p h l i) by (rewrite (adx_sum_S2 p h l i) by lia; reflexivity).
      rewrite Es. repeat apply peq; try reflexivity. apply (tab_next' _ (i - (2 * p - 2))); [zl|zl|reflexivity|]. unfold F. rewrite adx_out by lia. f_equal; lia.
  - intros st ->. fintab.
Qed.
Lemma adxr_fun size (h l : list R) o p : zlen h = size -> zlen l = size -> 0 <= size <= INT_MAX -> @to_int RA o = Some p -> 2 <= p <= 268435453 ->
  @ti_adxr RA size [h; l] [o] = Ok (OKAY, [tab 0 (size - 3 * (p - 1)) (fun k => let i := k + 3 * (p - 1) in ((adx_at p h l i + adx_at p h l (i - (p - 1))) / 2)%R)]).
Proof.
  intros Hh Hl Hs Ho Hp. ranges. apply wp_eq. unfold ti_adxr, start_p13. wps; contra. { rewrite tab_nil by zl. reflexivity. }
  setF. rewrite dm_init_eq by zl. wps. rewrite dx_val_eq. destruct (@buffer_new_ok RA (p - 1) ltac:(lia)) as (b0 & Eb & Hb & _). rewrite Eb. wps.
  apply (wp_for (fun i st => exists b, st = (wsum p (dm_up h l) (i - 1), wsum p (dm_down h l) (i - 1), adx_sum p h l (i - 1), b, tab 0 (i - 3 * (p - 1)) F)
    /\ @slots_ok RA b (p - 1) (tab (2 * p - 2) i (adx_at p h l)))).
  - lia.
  - exists b0. split; [|rewrite tab_nil by lia; exact Hb]. rewrite adx_sum_0 by lia. rewrite tab_nil by lia. unfold dx_at. rewrite !wsum_0 by lia. repeat apply peq; try reflexivity. toR. apply Rplus_0_l.
  - clear b0 Eb Hb. intros i st Hi (b & -> & Hb). rewrite direction_eq by zl. wps; replace (i + 1 - 1) with i by lia;
    rewrite (wsum_S p (dm_up h l) i), (wsum_S p (dm_down h l) i) by lia; rewrite dx_val_eq;
    (assert (Ed : dx_of (wsum p (dm_up h l) (i - 1) * ((IZR p - 1) / IZR p) + dm_up h l i) (wsum p (dm_down h l) (i - 1) * ((IZR p - 1) / IZR p) + dm_down h l i) = dx_at p h l i)
      by (unfold dx_at; rewrite (wsum_S p (dm_up h l) i), (wsum_S p (dm_down h l) i) by lia; reflexivity)); toR; rewrite Ed.
    + exists b. split; [|rewrite tab_nil in * by lia; exact Hb]. repeat apply peq; try reflexivity. * rewrite (adx_sum_S1 p h l i) by lia. reflexivity. * rewrite !tab_nil by lia. reflexivity.
    + assert (Es : (adx_sum p h l (i - 1) + dx_at p h l i)%R = adx_sum p h l i) by (rewrite (adx_sum_S1 p h l i) by lia; reflexivity).
      rewrite Es, adx_out by lia. destruct (@buffer_qpush_ok RA b (p - 1) _ (adx_at p h l i) Hb) as (b' & Eb & Hb' & _). rewrite Eb. wps.
      exists b'. split; [|rewrite tab_snoc by lia; exact Hb']. repeat apply peq; try reflexivity. rewrite !tab_nil by lia. reflexivity.
    + assert (Es : (adx_sum p h l (i - 1) * ((IZR p - 1) / IZR p) + dx_at p h l i)%R = adx_sum p h l i) by (rewrite (adx_sum_S2 p h l i) by lia; reflexivity).
      rewrite Es, adx_out by lia. destruct (@buffer_qpush_ok RA b (p - 1) _ (adx_at p h l i) Hb) as (b' & Eb & Hb' & _).
      rewrite (@buffer_get_next RA b (p - 1) _ Hb) by (change (@T RA) with R; rewrite zlen_tab; lia). wps. rewrite Eb. wps.
      exists b'. split; [|rewrite tab_snoc by lia; exact Hb']. repeat apply peq; try reflexivity.
      apply (tab_next' _ (i - 3 * (p - 1))); [zl|zl|reflexivity|]. unfold F. cbv zeta. replace (i - 3 * (p - 1) + 3 * (p - 1)) with i by lia.
      toR. rewrite zlen_tab. rewrite zn_tab by lia. replace (2 * p - 2 + (Z.max 0 (i - (2 * p - 2)) - (p - 1))) with (i - (p - 1)) by lia. change (10 ^ 1)%Z with 10%Z. field.
    + assert (Es : (adx_sum p h l (i - 1) * ((IZR p - 1) / IZR p) + dx_at p h l i)%R = adx_sum p h l i) by (rewrite (adx_sum_S2 p h l i) by lia; reflexivity).
      rewrite Es, adx_out by lia. destruct (@buffer_qpush_ok RA b (p - 1) _ (adx_at p h l i) Hb) as (b' & Eb & Hb' & _). rewrite Eb. wps.
      exists b'. split; [|rewrite tab_snoc by lia; exact Hb']. repeat apply peq; try reflexivity. rewrite !tab_nil by lia. reflexivity.
  - intros st (b & -> & _). fintab.
Qed.

(** A table starting at bar a, counted from 0. *)
Lemma tab_shift0 a b (f : Z -> R) : tab a b f = tab 0 (b - a) (fun k => f (k + a)).
Proof.
  destruct (Z.le_gt_cases a b) as [L|L]; [|rewrite !tab_nil by lia; reflexivity].
  apply (zind (fun b => tab a b f = tab 0 (b - a) (fun k => f (k + a))) a b L); [rewrite !tab_nil by lia; reflexivity|].
  intros n Hn IH. rewrite tab_snoc by lia. rewrite IH. replace (n + 1 - a) with (n - a + 1) by lia. rewrite tab_snoc by lia. rewrite Z.sub_add. reflexivity.
Qed.
Lemma tab_at a n b (f g : Z -> R) : b - a = n -> (forall k, 0 <= k < n -> g k = f (k + a)) -> tab 0 n g = tab a b f.
Proof. intros <- H. rewrite (tab_shift0 a b). apply tab_ext. exact H. Qed.

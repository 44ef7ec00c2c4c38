(** What the streamed indicators compute, in exact real arithmetic: shmma, lma, dwma, copp, pfe,
    pbands, posc. *)
From Verif Require Export Fun_exact2.
From Verif Require Import M_stream4 M_stream5.
From Coq Require Import Reals Lra.
Open Scope Z_scope.
Section R.
Local Existing Instance RA.

(** Sums over the last [p] bars, plain and weighted 1, 2, .., p: over a full window from bar [k],
    and over the part of the window before bar [i]. *)
Definition Flat (p : Z) (f : Z -> R) (k : Z) : R := zsum 0 p (fun j => f (k + j)).
Definition Lin (p : Z) (f : Z -> R) (k : Z) : R := zsum 0 p (fun j => (f (k + j)%Z * IZR (j + 1))%R).
Definition from (p i : Z) : Z := Z.max 0 (i - p + 1).
Definition flat (p : Z) (f : Z -> R) (i : Z) : R := zsum 0 (i - from p i) (fun j => f (from p i + j)).
Definition lin (p : Z) (f : Z -> R) (i : Z) : R := zsum 0 (i - from p i) (fun j => (f (from p i + j)%Z * IZR (j + 1))%R).
Lemma flat_0 p f : 1 <= p -> flat p f 0 = 0%R. Proof. intros. unfold flat, from. apply zsum_nil. lia. Qed.
Lemma lin_0 p f : 1 <= p -> lin p f 0 = 0%R. Proof. intros. unfold lin, from. apply zsum_nil. lia. Qed.
Lemma flat_warm p f i : 0 <= i < p - 1 -> (flat p f i + f i)%R = flat p f (i + 1).
Proof.
  intros. unfold flat. replace (from p (i + 1)) with 0 by (unfold from; lia). replace (from p i) with 0 by (unfold from; lia).
  rewrite !Z.sub_0_r, zsum_snoc by lia. reflexivity.
Qed.
Lemma lin_warm p f i : 0 <= i < p - 1 -> (lin p f i + f i * IZR (i + 1))%R = lin p f (i + 1).
Proof.
  intros. unfold lin. replace (from p (i + 1)) with 0 by (unfold from; lia). replace (from p i) with 0 by (unfold from; lia).
  rewrite !Z.sub_0_r, zsum_snoc by lia. reflexivity.
Qed.
Lemma flat_full p f i : 1 <= p -> p - 1 <= i -> (flat p f i + f i)%R = Flat p f (i - p + 1).
Proof.
  intros. unfold flat, Flat. replace (from p i) with (i - p + 1) by (unfold from; lia). replace (i - (i - p + 1)) with (p - 1) by lia.
  replace (zsum 0 p) with (zsum 0 (p - 1 + 1)) by (f_equal; lia). rewrite zsum_snoc by lia. f_equal. f_equal. lia.
Qed.
Lemma lin_full p f i : 1 <= p -> p - 1 <= i -> (lin p f i + f i * IZR p)%R = Lin p f (i - p + 1).
Proof.
  intros. unfold lin, Lin. replace (from p i) with (i - p + 1) by (unfold from; lia). replace (i - (i - p + 1)) with (p - 1) by lia.
  replace (zsum 0 p) with (zsum 0 (p - 1 + 1)) by (f_equal; lia). rewrite zsum_snoc by lia. repeat f_equal; lia.
Qed.
Lemma flat_next p f i : 1 <= p -> p - 1 <= i -> (Flat p f (i - p + 1) - f (i - p + 1)%Z)%R = flat p f (i + 1).
Proof.
  intros. unfold flat, Flat. replace (from p (i + 1)) with (i - p + 2) by (unfold from; lia). replace (i + 1 - (i - p + 2)) with (p - 1) by lia.
  rewrite (zsum_cons 0 p) by lia. rewrite Z.add_0_r.
  replace (zsum (0 + 1) p) with (zsum (0 + 1) (p - 1 + 1)) by (f_equal; lia). rewrite zsum_shift.
  rewrite (zsum_ext _ _ (fun j => f (i - p + 1 + (j + 1))) (fun j => f (i - p + 2 + j))) by (intros; f_equal; lia). ring.
Qed.
Lemma lin_next p f i : 1 <= p -> p - 1 <= i -> (Lin p f (i - p + 1) - Flat p f (i - p + 1))%R = lin p f (i + 1).
Proof.
  intros. unfold lin, Lin, Flat. replace (from p (i + 1)) with (i - p + 2) by (unfold from; lia). replace (i + 1 - (i - p + 2)) with (p - 1) by lia.
  rewrite <- zsum_minus. rewrite (zsum_cons 0 p) by lia.
  replace (zsum (0 + 1) p) with (zsum (0 + 1) (p - 1 + 1)) by (f_equal; lia). rewrite zsum_shift. change (IZR (0 + 1)) with 1%R. rewrite Rmult_1_r, Rminus_eq_0, Rplus_0_l.
  apply zsum_ext. intros j Hj. replace (i - p + 1 + (j + 1)) with (i - p + 2 + j) by lia. rewrite (plus_IZR (j + 1)). ring.
Qed.
Lemma Flat_mean p x k : 1 <= p -> 0 <= k -> k + p <= zlen x -> mean (window k p x) = (Flat p (zr x) k / IZR p)%R.
Proof. intros. unfold mean, Flat. rewrite Rsum_window, zlen_window, win_shift by lia. reflexivity. Qed.
Lemma Lin_wavg p x k : wavg linw k p x = (Lin p (zr x) k / zsum 0 p linw)%R.
Proof. unfold wavg, Lin. f_equal. apply zsum_ext. intros. ring. Qed.
Lemma wma_list_fun size (x : list R) o p : zlen x = size -> size <= INT_MAX -> @to_int RA o = Some p -> 1 <= p -> p * (p + 1) <= INT_MAX ->
  @ti_wma RA size [x] [o] = Ok (OKAY, [wma_list p x]).
Proof. intros Hx Hs Ho Hp Hq. pose proof (zlen_nonneg x). unfold wma_list. rewrite Hx. apply wma_fun; try assumption; lia. Qed.

Lemma tab_self (l : list R) n : zlen l = Z.max 0 n -> tab 0 n (zr l) = l.
Proof. intros E. apply (list_eq_zn 0%R); rewrite zlen_tab; [lia|]. intros i Hi. rewrite zn_tab by lia. reflexivity. Qed.

(** lma *)
Lemma denom_lin p : 1 <= p -> for_ 0 p (fun i denom => Ok (@fadd RA denom (@of_Z RA (i + 1)))) (@of_Z RA 0) = Ok (zsum 0 p linw).
Proof. intros. rewrite (for_zsum 0 p _ linw); [|lia|reflexivity]. toR. rewrite Rplus_0_l. reflexivity. Qed.
Lemma lma_fun size (x : list R) o p : zlen x = size -> 0 <= size <= INT_MAX -> @to_int RA o = Some p -> 1 <= p ->
  @ti_lma RA size [x] [o] = Ok (OKAY, [tab 0 (size - p + 1) (lma_at p x)]).
Proof.
  intros Hx Hs Ho Hp. unfold ti_lma, cast. rewrite Ho. cbn [bind]. replace (p <? 1) with false by lia. rewrite denom_lin by lia. cbn [bind].
  etransitivity; [apply (@batch_tab RA _ (fun i s => s = (lin p (zr x) i, flat p (zr x) i)) [lma_at p x] (p - 1)); [lia|lia| |]|].
  - rewrite flat_0, lin_0 by lia. reflexivity.
  - intros i s Hi ->. disp. destruct (i <? p - 1) eqn:E; rewrite !rdr by lia; cbn [bind wp fst snd map].
    + split; [reflexivity|]. toR. rewrite <- flat_warm, <- lin_warm by lia. rewrite (Rmult_comm (IZR (i + 1))). reflexivity.
    + replace (i - (p - 1)) with (i - p + 1) by lia. toR. rewrite (Rmult_comm (IZR p)). rewrite lin_full, flat_full, lin_next, flat_next by lia. split; [|reflexivity].
      unfold lma_at. rewrite Lin_wavg, Flat_mean by lia. unfold Rdiv. rewrite Rmult_assoc. reflexivity.
  - cbn [map]. do 3 f_equal. apply tab_eq; lia.
Qed.
Lemma lma_ref_fun size (x : list R) p : zlen x = size -> size <= INT_MAX -> 1 <= p <= size + 1 -> p * (p + 1) <= INT_MAX ->
  @ti_lma_ref RA size [x] [IZR p] = Ok (OKAY, [tab 0 (size - p + 1) (lma_at p x)]).
Proof.
  intros Hx Hs Hp Hq. unfold ti_lma_ref. rewrite flt_IZR_1 by lia. pose proof (zlen_nonneg x).
  assert (Ho : @to_int RA (IZR p) = Some p) by (apply (@to_int_of_Z RA RA_laws p); zl).
  replace (@fadd RA (@fsub RA (@of_Z RA size) (IZR p)) (@of_Z RA 1)) with (IZR (size - p + 1)) by (cbn; rewrite plus_IZR, minus_IZR; reflexivity).
  rewrite ceilto_IZR, cast_IZR by zl. cbn [bind]. replace (0 <=? size - p + 1) with true by lia. cbn [check bind]. unfold call1.
  assert (L : zlen (wma_list p x) = size - p + 1) by (unfold wma_list; rewrite zlen_tab; lia).
  rewrite (wma_list_fun size x _ p) by (assumption || lia). cbn [bind]. rewrite rd1. cbn [bind]. change (@zlen (@T RA)) with (@zlen R). rewrite L, Z.leb_refl. cbn [check bind].
  rewrite (sma_fun size x _ p) by (assumption || lia). cbn [bind]. rewrite rd1. cbn [bind]. change (@zlen (@T RA)) with (@zlen R). rewrite zlen_tab.
  replace (Z.max 0 (size - p + 1 - 0) <=? size - p + 1) with true by lia. cbn [check bind].
  rewrite (@for_tab RA 0 (size - p + 1) _ (lma_at p x)).
  - cbn [bind]. do 3 f_equal. apply tab_eq; lia.
  - intros i o Hi. unfold wma_list. rewrite !rdr by (rewrite zlen_tab; lia). rewrite !zr_tab by lia. cbn [bind]. rewrite Z.sub_0_r. reflexivity.
Qed.

(** dwma: the weighted mean of the weighted means *)
Definition zpR (l : list R) : Z -> R := @zp RA l.
Lemma zpR_pos l j : 0 <= j -> zpR l j = zr l j. Proof. apply (@zp_pos RA). Qed.
Lemma zpR_neg l j : j < 0 -> zpR l j = 0%R. Proof. apply (@zp_neg RA). Qed.
Lemma Lin_wma p x k : 0 <= k < zlen x - p + 1 -> 1 <= p -> (Lin p (zr x) k / ((1 + IZR p) * IZR p / 2))%R = zpR (wma_list p x) k.
Proof. intros Hk Hp. rewrite zpR_pos by lia. unfold wma_list. rewrite zr_tab by lia. rewrite Lin_wavg, zsum_id by lia. f_equal. f_equal. ring. Qed.
Lemma dwma_fun size (x : list R) o p : zlen x = size -> 0 <= size <= INT_MAX -> @to_int RA o = Some p -> 1 <= p -> 2 * (p - 1) <= INT_MAX ->
  @ti_dwma RA size [x] [o] = Ok (OKAY, [wma_list p (wma_list p x)]).
Proof.
  intros Hx Hs Ho Hp Hpp. unfold ti_dwma, cast. rewrite Ho. cbn [bind]. replace (p <? 1) with false by lia.
  set (G := zpR (wma_list p x)).
  destruct (@hist_new RA p G) as (r0 & -> & Hr0); [lia|apply zpR_neg|]. cbn [bind]. rewrite ck_ok by zl. cbn [bind].
  set (m i := Z.max 0 (i - (p - 1))).
  etransitivity; [apply (@batch_tab RA _ (fun i s => fst s = (lin p (zr x) i, flat p (zr x) i, lin p G (m i), flat p G (m i)) /\ @hist RA (snd s) p G (m i))
     [(fun k => zr (wma_list p (wma_list p x)) k)] (2 * (p - 1))); [lia|lia| |]|].
  - cbn [fst snd]. replace (m 0) with 0 by (unfold m; lia). rewrite !flat_0, !lin_0 by lia. split; [reflexivity|exact Hr0].
  - intros i [[[[n1 s1] n2] s2] r] Hi [E Hr]. cbn [fst snd] in E, Hr. injection E as -> -> -> ->. disp.
    assert (Z1 : i < p - 1 \/ p - 1 <= i < 2 * (p - 1) \/ 2 * (p - 1) <= i) by lia.
    assert (Gn : p - 1 <= i -> @fdiv RA (Lin p (zr x) (i - p + 1)) (@fdiv RA (@fmul RA (@fadd RA (@of_Z RA 1) (@of_Z RA p)) (@of_Z RA p)) (@of_Z RA 2)) = G (m i)).
    { intros. unfold G. replace (m i) with (i - p + 1) by (unfold m; lia). rewrite <- Lin_wma by lia. reflexivity. }
    destruct Z1 as [Z1 | [Z1 | Z1]].
    + replace (i <? p - 1) with true by lia. replace (i <? 2 * (p - 1)) with true by lia. rewrite !rdr by lia. cbn [bind wp fst snd map].
      replace (m (i + 1)) with (m i) by (unfold m; lia). split; [reflexivity|]. split; [|exact Hr]. rewrite <- flat_warm, <- lin_warm by lia. toR.
      rewrite (Rmult_comm (IZR (i + 1))). reflexivity.
    + replace (i <? p - 1) with false by lia. replace (i <? 2 * (p - 1)) with true by lia. rewrite !rdr by lia. cbn [bind].
      match goal with |- context[@ring_set RA r ?v] => destruct (@hist_set RA r p G (m i) v Hr) as (r' & -> & Hf) end.
      { rewrite <- Gn by lia. f_equal. toR. rewrite (Rmult_comm (IZR p)), lin_full by lia. reflexivity. }
      cbn [bind]. rewrite (full_cur r' p G (m i) Hf). cbn [bind wp fst snd map]. split; [reflexivity|]. apply hist_step in Hf.
      replace (m (i + 1)) with (m i + 1) by (unfold m; lia). split; [|exact Hf]. rewrite <- (flat_warm p G), <- (lin_warm p G) by (unfold m; lia). toR.
      rewrite (Rmult_comm (IZR p)), flat_full, lin_full, flat_next, lin_next by lia.
      replace (i - (p - 1) + 1) with (m i + 1) by (unfold m; lia). rewrite (Rmult_comm (IZR (m i + 1))). reflexivity.
    + replace (i <? p - 1) with false by lia. replace (i <? 2 * (p - 1)) with false by lia. rewrite !rdr by lia. cbn [bind].
      match goal with |- context[@ring_set RA r ?v] => destruct (@hist_set RA r p G (m i) v Hr) as (r' & -> & Hf) end.
      { rewrite <- Gn by lia. f_equal. toR. rewrite (Rmult_comm (IZR p)), lin_full by lia. reflexivity. }
      cbn [bind]. rewrite (full_cur r' p G (m i) Hf). cbn [bind]. rewrite (full_get r' p G (m i) (p - 1) Hf) by lia. cbn [bind wp fst snd map]. apply hist_step in Hf.
      replace (m (i + 1)) with (m i + 1) by (unfold m; lia). toR.
      rewrite (Rmult_comm (IZR p) (zr x i)), (Rmult_comm (IZR p) (G (m i))). rewrite !flat_full, !lin_full by (unfold m; lia).
      replace (m i - (p - 1)) with (m i - p + 1) by lia. rewrite !flat_next, !lin_next by (unfold m; lia).
      split; [|split; [reflexivity|exact Hf]]. repeat f_equal. unfold wma_list at 1. rewrite zr_tab.
      2: { unfold wma_list. rewrite zlen_tab. lia. }
      rewrite Lin_wavg, zsum_id by lia. replace (m i - p + 1) with (i - 2 * (p - 1)) by (unfold m; lia). f_equal; [|f_equal; ring].
      unfold Lin. apply zsum_ext. intros j Hj. unfold G. rewrite zpR_pos by lia. reflexivity.
  - cbn [map]. do 3 f_equal. apply tab_self. unfold wma_list. rewrite !zlen_tab. lia.
Qed.
Lemma dwma_ref_fun size (x : list R) p : zlen x = size -> size <= INT_MAX -> 1 <= p <= size + 1 -> p * (p + 1) <= INT_MAX ->
  @ti_dwma_ref RA size [x] [IZR p] = Ok (OKAY, [wma_list p (wma_list p x)]).
Proof.
  intros Hx Hs Hp Hq. unfold ti_dwma_ref. rewrite flt_IZR_1 by lia. pose proof (zlen_nonneg x).
  assert (Ho : @to_int RA (IZR p) = Some p) by (apply (@to_int_of_Z RA RA_laws p); zl).
  replace (@fadd RA (@fsub RA (@of_Z RA size) (IZR p)) (@of_Z RA 1)) with (IZR (size - p + 1)) by (cbn; rewrite plus_IZR, minus_IZR; reflexivity).
  rewrite cast_IZR by zl. cbn [bind]. replace (0 <=? size - p + 1) with true by lia. cbn [check bind]. unfold call1.
  assert (L : zlen (wma_list p x) = size - p + 1) by (unfold wma_list; rewrite zlen_tab; lia).
  rewrite (wma_list_fun size x _ p) by (assumption || lia). cbn [bind]. rewrite rd1. cbn [bind]. change (@zlen (@T RA)) with (@zlen R). rewrite L, Z.leb_refl. cbn [check bind].
  rewrite (wma_list_fun (size - p + 1) (wma_list p x) _ p) by (assumption || lia). cbn [bind]. rewrite rd1. reflexivity.
Qed.

(** shmma *)
Definition mids (p : Z) (f : Z -> R) (i : Z) : R := zsum 0 (i - from p i) (fun j => (midw p j * f (from p i + j)%Z)%R).
Lemma mids_next p f i : 1 <= p -> p - 1 <= i -> 
  (zsum 0 p (fun j => (midw p j * f (i - p + 1 + j)%Z)) - Flat p f (i - p + 1) + (IZR p + 1) / 2 * f (i - p + 1)%Z)%R = mids p f (i + 1).
Proof.
  intros. unfold mids, Flat. replace (from p (i + 1)) with (i - p + 2) by (unfold from; lia). replace (i + 1 - (i - p + 2)) with (p - 1) by lia.
  rewrite <- zsum_minus. rewrite (zsum_cons 0 p) by lia.
  replace (zsum (0 + 1) p) with (zsum (0 + 1) (p - 1 + 1)) by (f_equal; lia). rewrite zsum_shift. unfold midw at 1. rewrite Z.add_0_r, plus_IZR, minus_IZR, mult_IZR.
  rewrite (zsum_ext _ _ _ (fun j => (midw p j * f (i - p + 2 + j)%Z)%R)); [field|].
  intros j Hj. replace (i - p + 1 + (j + 1)) with (i - p + 2 + j) by lia. unfold midw. rewrite !plus_IZR, !minus_IZR, !mult_IZR, plus_IZR. field.
Qed.
Lemma shmma_fun size (x : list R) o p : zlen x = size -> 0 <= size <= INT_MAX -> @to_int RA o = Some p -> 1 <= p -> (p + 1) * p <= INT_MAX ->
  @ti_shmma RA size [x] [o] = Ok (OKAY, [tab 0 (size - p + 1) (shmma_at p x)]).
Proof.
  intros Hx Hs Ho Hp Hpp. assert (Hp' : p <= 46340) by (unfold INT_MAX in Hpp; nia). unfold ti_shmma, cast. rewrite Ho. cbn [bind]. replace (p <? 1) with false by lia.
  etransitivity; [apply (@batch_tab RA _ (fun i s => s = (flat p (zr x) i, mids p (zr x) i)) [shmma_at p x] (p - 1)); [lia|lia| |]|].
  - rewrite flat_0 by lia. unfold mids, from. rewrite zsum_nil by lia. reflexivity.
  - intros i s Hi ->. disp. destruct (i <? p - 1) eqn:E; rewrite !rdr by lia; cbn [bind].
    + rewrite ck_ok by (unfold INT_MIN, INT_MAX; lia). cbn [bind wp fst snd map]. split; [reflexivity|]. rewrite <- flat_warm by lia. f_equal. unfold mids.
      replace (from p (i + 1)) with 0 by (unfold from; lia). replace (from p i) with 0 by (unfold from; lia).
      rewrite !Z.sub_0_r, zsum_snoc by lia. toR. f_equal. unfold midw. rewrite !plus_IZR, minus_IZR, opp_IZR. f_equal. field.
    + unfold shmma_value. rewrite ck_ok by zl. cbn [bind]. rewrite ck_ok by (unfold INT_MIN in *; nia). cbn [bind wp fst snd map]. replace (i - (p - 1)) with (i - p + 1) by lia. toR. rewrite flat_full, flat_next by lia.
      assert (M : (mids p (zr x) i + (IZR p - 1) / 2 * zr x i)%R = zsum 0 p (fun j => (midw p j * zr x (i - p + 1 + j))%R)).
      { unfold mids. replace (from p i) with (i - p + 1) by (unfold from; lia). replace (i - (i - p + 1)) with (p - 1) by lia.
        replace (zsum 0 p) with (zsum 0 (p - 1 + 1)) by (f_equal; lia). rewrite zsum_snoc by lia. replace (i - p + 1 + (p - 1)) with i by lia. f_equal.
        unfold midw. rewrite plus_IZR, minus_IZR, mult_IZR, minus_IZR. field. }
      rewrite M, mids_next by lia. split; [|reflexivity]. unfold shmma_at. rewrite Flat_mean, mult_IZR by lia. reflexivity.
  - cbn [map]. do 3 f_equal. apply tab_eq; lia.
Qed.
Lemma shmma_ref_fun size (x : list R) p : zlen x = size -> 0 <= size <= INT_MAX -> 1 <= p <= INT_MAX ->
  @ti_shmma_ref RA size [x] [IZR p] = Ok (OKAY, [tab 0 (size - p + 1) (shmma_at p x)]).
Proof.
  intros Hx Hs Hp. unfold ti_shmma_ref. rewrite flt_IZR_1 by lia. replace (@fsub RA (IZR p) (@of_Z RA 1)) with (IZR (p - 1)) by (cbn; rewrite minus_IZR; reflexivity).
  rewrite ceilto_IZR, cast_IZR by zl. cbn [bind].
  rewrite (@for_tab RA (p - 1) size _ (shmma_at p x)).
  - cbn [bind]. do 3 f_equal. apply tab_eq; lia.
  - intros i o Hi. rewrite (for_zsum 0 p _ (fun j => zr x (i - j))); [|lia|intros; rewrite rdr by lia; reflexivity]. cbn [bind].
    rewrite (for_zsum 0 p _ (fun j => ((IZR p - (IZR (j * 2) + 1)) / 2 * zr x (i - j))%R)); [|lia|intros; rewrite rdr by lia; reflexivity]. cbn [bind].
    do 4 f_equal. unfold shmma_at. replace (i - (p - 1)) with (i - p + 1) by lia. rewrite Flat_mean by lia. toR. rewrite !Rplus_0_l, plus_IZR. unfold Flat.
    rewrite (zsum_rev p (fun j => zr x (i - p + 1 + j))), (zsum_rev p (fun j => midw p j * zr x (i - p + 1 + j))%R) by lia.
    rewrite (zsum_ext 0 p (fun j => zr x (i - p + 1 + (p - 1 - j))) (fun j => zr x (i - j))) by (intros; f_equal; lia).
    do 3 f_equal. apply zsum_ext. intros j Hj. replace (i - p + 1 + (p - 1 - j)) with (i - j) by lia. f_equal. unfold midw. f_equal.
    rewrite plus_IZR, minus_IZR, !mult_IZR, !minus_IZR. ring.
Qed.

(** copp *)
Lemma rok_hist (r : @ring RA) M i : rok r M -> exists g, @hist RA r M g i.
Proof. intros [h H]. exists (fun j => h (i - j)). exists h. split; [exact H|]. intros k Hk. f_equal. lia. Qed.
Lemma hist_put (r : @ring RA) M g i (v : R) : hist r M g i ->
  exists r', ring_set r v = Ok r' /\ full r' M (fun j => if j =? i then v else g j) i.
Proof.
  intros H. apply hist_set; [|rewrite Z.eqb_refl; reflexivity]. eapply hist_ext; [|exact H]. intros k Hk. cbn. replace (i - k =? i) with false by lia. reflexivity.
Qed.
Lemma copp_roc_R (r : @ring RA) s l x i : 0 <= s <= l -> l <= i < zlen x -> full r (l + 1) (zpR x) i -> @copp_roc RA r s l = Ok (copp_raw s l x i).
Proof.
  intros Hs Hi H. unfold copp_roc, copp_raw. rewrite (full_cur _ _ _ _ H). rewrite !(full_get _ _ _ _ _ H) by lia. rewrite !zpR_pos by lia. cbn [bind].
  unfold truth. toR. destruct (Reqb (zr x (i - s)) 0); [reflexivity|]. destruct (Reqb (zr x (i - l)) 0); reflexivity.
Qed.
Lemma copp_fun size (x : list R) s l w : zlen x = size -> 0 <= size <= INT_MAX -> 1 <= s <= l -> 1 <= w -> l + w <= INT_MAX ->
  @ti_copp RA size [x] [IZR s; IZR l; IZR w] = Ok (OKAY, [wma_list w (copp_list s l x)]).
Proof.
  intros Hx Hs Hsl Hw Hlw. unfold ti_copp, ti_copp_start, copp_START. rewrite !flt_IZR_1 by lia. cbn [orb].
  replace (@flt RA (IZR l) (IZR s)) with false by (symmetry; apply (@flt_of_Z RA RA_laws) || (cbn; destruct (Rltb_spec (IZR l) (IZR s)) as [L|]; [apply lt_IZR in L; lia|reflexivity])).
  replace (@fsub RA (@fadd RA (IZR l) (IZR w)) (@of_Z RA 1)) with (IZR (l + w - 1)) by (cbn; rewrite minus_IZR, plus_IZR; reflexivity).
  replace (@fadd RA (IZR l) (@of_Z RA 1)) with (IZR (l + 1)) by (cbn; rewrite plus_IZR; reflexivity).
  replace (@fadd RA (IZR w) (@of_Z RA 1)) with (IZR (w + 1)) by (cbn; rewrite plus_IZR; reflexivity).
  replace (@fsub RA (IZR w) (@of_Z RA 1)) with (IZR (w - 1)) by (cbn; rewrite minus_IZR; reflexivity).
  rewrite !cast_IZR by zl. cbn [bind].
  destruct (size <=? l + w - 1) eqn:E0; [unfold wma_list, copp_list; rewrite zlen_tab, tab_nil by lia; reflexivity|].
  rewrite !ceilto_IZR by zl. cbn [bind].
  destruct (@hist_new RA (l + 1) (zpR x)) as (r0 & -> & Hr0); [lia|apply zpR_neg|]. cbn [bind].
  destruct (@ring_new_ok RA (w + 1)) as (r1 & -> & Hr1); [lia|]. cbn [bind]. replace (l + w - 1 <=? size) with true by lia. cbn [check bind].
  set (G k := copp_raw s l x (k + l)). set (m i := Z.max 0 (i - l)).
  set (J (i : Z) (r : @ring RA) := rok r (w + 1) /\ (l <= i -> exists g, @hist RA r (w + 1) g i /\ forall j, l <= j < i -> g j = copp_raw s l x j)).
  assert (J0 : forall i r, i <= l -> rok r (w + 1) -> J i r).
  { intros i r Hi Hr. split; [exact Hr|]. intros. destruct (rok_hist r (w + 1) i Hr) as (g & Hg). exists g. split; [exact Hg|]. intros; lia. }
  assert (JS : forall i r, l <= i -> J i r -> exists r', ring_set r (copp_raw s l x i) = Ok r' /\ ring_cur r' = Ok (copp_raw s l x i) /\
     (l + w - 1 <= i -> ring_get r' (w - 1) = Ok (copp_raw s l x (i - (w - 1)))) /\ J (i + 1) (ring_step r')).
  { intros i r Hi [_ H]. destruct (H Hi) as (g & Hg & Eg). destruct (hist_put r (w + 1) g i (copp_raw s l x i) Hg) as (r' & Er & Hf). exists r'.
    split; [exact Er|]. split; [rewrite (full_cur _ _ _ _ Hf), Z.eqb_refl; reflexivity|]. split.
    - intros. rewrite (full_get _ _ _ _ _ Hf) by lia. destruct (i - (w - 1) =? i) eqn:Ei; [do 2 f_equal; lia|]. rewrite Eg by lia. reflexivity.
    - apply hist_step in Hf. split; [eapply hist_rok; exact Hf|]. intros _. eexists. split; [exact Hf|]. intros j Hj. cbn. destruct (j =? i) eqn:Ej; [f_equal; lia|apply Eg; lia]. }
  etransitivity; [apply (@batch_tab RA _ (fun i st => let '(f, g, price, rocs) := st in f = flat w G (m i) /\ g = lin w G (m i) /\ @hist RA price (l + 1) (zpR x) i /\ J i rocs)
     [(fun k => zr (wma_list w (copp_list s l x)) k)] (l + w - 1)); [lia|lia| |]|].
  - replace (m 0) with 0 by (unfold m; lia). rewrite flat_0, lin_0 by lia. split; [reflexivity|]. split; [reflexivity|]. split; [exact Hr0|]. apply J0; [lia|eexists; exact Hr1].
  - intros i [[[f g] price] rocs] Hi (-> & -> & Hp & HJ). disp. rewrite !rdr by lia. cbn [bind].
    destruct (@hist_set RA price (l + 1) (zpR x) i (zr x i) Hp) as (p' & -> & Hf); [rewrite zpR_pos by lia; reflexivity|]. cbn [bind].
    pose proof (hist_step _ _ _ _ Hf) as Hp'. destruct (i <? l) eqn:E1.
    + replace (i <? l + w - 1) with true by lia. cbn [wp fst snd map]. replace (m (i + 1)) with (m i) by (unfold m; lia). split; [reflexivity|]. split; [reflexivity|]. split; [reflexivity|]. split; [exact Hp'|].
      apply J0; [lia|]. apply rok_step, HJ.
    + rewrite (copp_roc_R p' s l x i) by (assumption || lia). cbn [bind]. destruct (JS i rocs) as (r' & -> & EC & Hg & HJ'); [lia|exact HJ|]. cbn [bind]. rewrite EC. cbn [bind].
      change (copp_raw s l x i) with (copp_raw s l x i). replace (copp_raw s l x i) with (G (m i)) by (unfold G; f_equal; unfold m; lia).
      destruct (i <? l + w - 1) eqn:E2.
      * cbn [wp fst snd map]. split; [reflexivity|]. replace (m (i + 1)) with (m i + 1) by (unfold m; lia). rewrite <- flat_warm, <- lin_warm by (unfold m; lia).
        split; [reflexivity|]. split; [|split; assumption]. toR. f_equal. f_equal. rewrite <- minus_IZR. f_equal. unfold m; lia.
      * rewrite Hg by lia. cbn [bind wp fst snd map]. replace (m (i + 1)) with (m i + 1) by (unfold m; lia). toR.
        replace (copp_raw s l x (i - (w - 1))) with (G (m i - w + 1)) by (unfold G; f_equal; unfold m; lia).
        rewrite lin_full, flat_full, flat_next, lin_next by (unfold m; lia). split; [|split; [reflexivity|]; split; [reflexivity|]; split; assumption].
        repeat f_equal. unfold wma_list. rewrite zr_tab.
        2: { unfold copp_list. rewrite zlen_tab. lia. }
        rewrite Lin_wavg, zsum_id by lia. unfold Rdiv. rewrite Rmult_1_l, plus_IZR. f_equal.
        unfold Lin. replace (m i - w + 1) with (i - (l + w - 1)) by (unfold m; lia). apply zsum_ext. intros j Hj. f_equal.
        unfold copp_list. rewrite zr_tab by lia. reflexivity.
  - cbn [map]. do 3 f_equal. apply tab_self. unfold wma_list, copp_list. rewrite !zlen_tab. lia.
Qed.
Lemma copp_ref_fun size (x : list R) s l w : zlen x = size -> 0 <= size <= INT_MAX -> 1 <= s <= l -> 1 <= w -> l + w <= INT_MAX -> w * (w + 1) <= INT_MAX ->
  (forall i, 0 <= i < size -> zr x i <> 0%R) ->
  @ti_copp_ref RA size [x] [IZR s; IZR l; IZR w] = Ok (OKAY, [wma_list w (copp_list s l x)]).
Proof.
  intros Hx Hs Hsl Hw Hlw Hww Hn. unfold ti_copp_ref, ti_copp_start, copp_START. rewrite !flt_IZR_1 by lia. cbn [orb].
  replace (@flt RA (IZR l) (IZR s)) with false by (cbn; destruct (Rltb_spec (IZR l) (IZR s)) as [L|]; [apply lt_IZR in L; lia|reflexivity]).
  replace (@fsub RA (@fadd RA (IZR l) (IZR w)) (@of_Z RA 1)) with (IZR (l + w - 1)) by (cbn; rewrite minus_IZR, plus_IZR; reflexivity).
  rewrite !cast_IZR by zl. cbn [bind].
  destruct (size <? l + w - 1) eqn:E0; [unfold wma_list, copp_list; rewrite zlen_tab, tab_nil by lia; reflexivity|].
  replace ((0 <=? size - s) && (0 <=? size - l)) with true by lia. cbn [check bind]. unfold call1.
  rewrite (@roc_fun RA RA_laws size x _ s), (@roc_fun RA RA_laws size x _ l) by (assumption || lia || (apply (@to_int_of_Z RA RA_laws); zl)). cbn [bind]. rewrite !rd1. cbn [bind].
  rewrite (@for_tab RA 0 (size - l) _ (fun k => copp_raw s l x (k + l))).
  - cbn [bind]. rewrite Z.sub_0_r. replace (tab 0 (size - l) _) with (copp_list s l x) by (unfold copp_list; rewrite Hx; reflexivity).
    rewrite (wma_list_fun (size - l) (copp_list s l x) _ w); [cbn [bind]; rewrite rd1; reflexivity| |lia|apply (@to_int_of_Z RA RA_laws); zl|lia|lia].
    unfold copp_list. rewrite zlen_tab. lia.
  - intros i o Hi. rewrite !rdr by (rewrite zlen_tab; lia). rewrite !zr_tab by lia. cbn [bind]. rewrite Z.sub_0_r. do 4 f_equal.
    unfold copp_raw, truth. toR. replace (i + l - l) with i by lia. replace (i + (size - s - (size - l))) with (i + l - s) by lia. replace (i + l - s + s) with (i + l) by lia.
    pose proof (Hn i ltac:(lia)). pose proof (Hn (i + l - s) ltac:(lia)). destruct (Reqb_spec (zr x i) 0); [contradiction|]. destruct (Reqb_spec (zr x (i + l - s)) 0); [contradiction|].
    cbn [negb orb]. field. split; assumption.
Qed.

(** pfe *)
Lemma pfe_denom_R x i : @pfe_denom RA (zr x i) (zr x (i - 1)) = pfe_path x i.
Proof. unfold pfe_denom. rewrite fpow_2_R. reflexivity. Qed.
Lemma pfe_numer_R (a b s : R) : @fdiv RA (@pfe_numer RA a b) s = ((if Rltb 0 (a - b) then 1 else -1) * 100 * sqrt ((a - b) * (a - b) + 100) / s)%R.
Proof. unfold pfe_numer. rewrite fpow_2_R. toR. destruct (Rltb 0 (a - b)); reflexivity. Qed.
Lemma pfe_fun size (x : list R) o1 o2 p q : zlen x = size -> 0 <= size <= INT_MAX -> @to_int RA o1 = Some p -> 1 <= p < INT_MAX -> @to_int RA o2 = Some q -> 1 <= q < INT_MAX ->
  @ti_pfe RA size [x] [o1; o2] = Ok (OKAY, [ema_list q (pfe_list p x)]).
Proof.
  intros Hx Hs Ho1 Hp Ho2 Hq. unfold ti_pfe, ti_pfe_start, cast. rewrite Ho1, Ho2. cbn [bind]. replace (p <? 1) with false by lia. replace (q <? 1) with false by lia.
  assert (EL : zlen (pfe_list p x) = Z.max 0 (size - p)) by (unfold pfe_list; rewrite zlen_tab; lia).
  destruct (size <=? p) eqn:E0; [unfold ema_list; rewrite tab_nil by lia; reflexivity|].
  destruct (@ring_new_ok RA p) as (r1 & -> & Hr1); [lia|]. cbn [bind].
  set (P := pfe_path x). set (lo i := Z.max 1 (i - p + 1)).
  set (J (i : Z) (r : @ring RA) := rok r p /\ (1 <= i -> exists g, @hist RA r p g i /\ forall j, 1 <= j < i -> g j = P j)).
  assert (JS : forall i r, 1 <= i -> J i r -> exists r', ring_set r (P i) = Ok r' /\ ring_cur r' = Ok (P i) /\
     (p <= i -> ring_get r' (p - 1) = Ok (P (i - (p - 1)))) /\ J (i + 1) (ring_step r')).
  { intros i r Hi [_ H]. destruct (H Hi) as (g & Hg & Eg). destruct (hist_put r p g i (P i) Hg) as (r' & Er & Hf). exists r'.
    split; [exact Er|]. split; [rewrite (full_cur _ _ _ _ Hf), Z.eqb_refl; reflexivity|]. split.
    - intros. rewrite (full_get _ _ _ _ _ Hf) by lia. destruct (i - (p - 1) =? i) eqn:Ei; [do 2 f_equal; lia|]. rewrite Eg by lia. reflexivity.
    - apply hist_step in Hf. split; [eapply hist_rok; exact Hf|]. intros _. eexists. split; [exact Hf|]. intros j Hj. cbn. destruct (j =? i) eqn:Ej; [f_equal; lia|apply Eg; lia]. }
  assert (Ev : forall k, 0 <= k < size - p -> zr (pfe_list p x) k = pfe_raw p x k) by (intros; unfold pfe_list; rewrite zr_tab by lia; reflexivity).
  match goal with |- (let* _ := ?B in _) = _ => assert (EB : B = Ok (OKAY, [tab 0 (size - p) (emaR q (pfe_list p x))])) end.
  { etransitivity; [apply (@batch_tab RA _ (fun i st => let '(f, e, r) := st in f = zsum (lo i) i P /\ (p < i -> e = Some (emaR q (pfe_list p x) (i - p - 1))) /\ J i r)
     [(fun k => emaR q (pfe_list p x) k)] p); [lia|lia| |]|reflexivity].
    - split; [unfold lo; rewrite zsum_nil by lia; reflexivity|]. split; [lia|]. split; [eexists; exact Hr1|lia].
    - intros i [[f e] r] Hi (-> & He & HJ). disp. destruct (i <? 1) eqn:E1.
      + assert (i = 0) as -> by lia. replace (0 <? p) with true by lia. unfold skip. cbn [wp fst snd map repeat]. split; [reflexivity|].
        split; [unfold lo; rewrite !zsum_nil by lia; reflexivity|]. split; [lia|]. split; [apply HJ|]. intros _.
        destruct (rok_hist r p (0 + 1) (proj1 HJ)) as (g & Hg). exists g. split; [exact Hg|]. intros; lia.
      + rewrite !rdr by lia. cbn [bind]. rewrite !pfe_denom_R. fold P. destruct (JS i r) as (r' & ES & EC & Hg & HJ'); [lia|exact HJ|]. rewrite !ES. cbn [bind]. rewrite !EC. cbn [bind].
        assert (SS : @fadd RA (zsum (lo i) i P) (P i) = zsum (lo i) (i + 1) P) by (unfold lo; rewrite zsum_snoc by lia; reflexivity). rewrite SS.
        destruct (i <? p) eqn:E2.
        * replace (i <? p + 1) with true by lia. cbn [wp fst snd map]. split; [reflexivity|]. replace (lo (i + 1)) with (lo i) by (unfold lo; lia). split; [reflexivity|]. split; [lia|exact HJ'].
        * assert (SD : @fsub RA (zsum (lo i) (i + 1) P) (P (i - (p - 1))) = zsum (lo (i + 1)) (i + 1) P).
          { unfold lo. replace (Z.max 1 (i - p + 1)) with (i - p + 1) by lia. replace (Z.max 1 (i + 1 - p + 1)) with (i - p + 1 + 1) by lia. rewrite (zsum_cons (i - p + 1)) by lia.
            replace (i - (p - 1)) with (i - p + 1) by lia. toR. ring. }
          assert (RW : ((if Rltb 0 (zr x i - zr x (i - p)) then 1 else -1) * 100 * sqrt ((zr x i - zr x (i - p)) * (zr x i - zr x (i - p)) + 100) / zsum (lo i) (i + 1) P)%R = zr (pfe_list p x) (i - p)).
          { rewrite Ev by lia. unfold pfe_raw. replace (i - p + p) with i by lia. unfold lo. replace (Z.max 1 (i - p + 1)) with (i - p + 1) by lia. reflexivity. }
          rewrite !rdr by lia. cbn [bind]. destruct (i <? p + 1) eqn:E3.
          -- rewrite pfe_numer_R, RW, Hg by lia. cbn [bind wp fst snd map]. rewrite SD. assert (i = p) as -> by lia. rewrite Z.sub_diag, emaR_0. split; [reflexivity|]. split; [reflexivity|]. split; [|exact HJ'].
             intros _. replace (p + 1 - p - 1) with 0 by lia. rewrite emaR_0. reflexivity.
          -- rewrite He by lia. cbn [val bind]. rewrite pfe_numer_R, RW, Hg by lia. cbn [bind wp fst snd map]. rewrite SD. rewrite (emaR_S' q _ (i - p)) by lia. split; [reflexivity|]. split; [reflexivity|]. split; [|exact HJ'].
             intros _. replace (i + 1 - p - 1) with (i - p) by lia. rewrite (emaR_S' q _ (i - p)) by lia. reflexivity. }
  rewrite EB. cbn [bind forallb]. unfold ema_list. rewrite EL. change (@zlen (@T RA)) with (@zlen R). rewrite zlen_tab. replace (Z.max 0 (size - p - 0) =? size - p) with true by lia. cbn [andb check bind].
  do 3 f_equal. apply tab_eq; lia.
Qed.
Lemma pfe_ref_fun size (x : list R) p q : zlen x = size -> 0 <= size <= INT_MAX -> 1 <= p < INT_MAX -> 1 <= q < INT_MAX ->
  @ti_pfe_ref RA size [x] [IZR p; IZR q] = Ok (OKAY, [ema_list q (pfe_list p x)]).
Proof.
  intros Hx Hs Hp Hq. unfold ti_pfe_ref, ti_pfe_start. rewrite flt_IZR_1 by lia. rewrite !cast_IZR by zl. cbn [bind].
  assert (EL : zlen (pfe_list p x) = Z.max 0 (size - p)) by (unfold pfe_list; rewrite zlen_tab; lia).
  destruct (size <=? p) eqn:E0; [unfold ema_list; rewrite tab_nil by lia; reflexivity|].
  rewrite (@for_tab RA p size _ (pfe_raw p x)).
  - cbn [bind]. change (@T RA) with R. replace (tab 0 (size - p) (pfe_raw p x)) with (pfe_list p x) by (unfold pfe_list; rewrite Hx; reflexivity).
    replace (@fsub RA (@of_Z RA size) (IZR p)) with (IZR (size - p)) by (cbn; rewrite minus_IZR; reflexivity). rewrite cast_IZR by zl. cbn [bind].
    rewrite (ema_list_fun (size - p) (pfe_list p x) _ q); [|lia|lia|apply (@to_int_of_Z RA RA_laws); zl|lia]. cbn [bind]. rewrite rd1. cbn [bind].
    change (@zlen (@T RA)) with (@zlen R). rewrite EL. replace (Z.max 0 (size - p) =? size - p) with true by lia. cbn [check bind]. do 3 f_equal.
    rewrite skipn_all2, app_nil_r; [reflexivity|]. pose proof (ema_list_len q (pfe_list p x)) as L. unfold zlen in L. lia.
  - intros i o Hi. replace (@fadd RA (@fsub RA (@of_Z RA i) (IZR p)) (@of_Z RA 1)) with (IZR (i - p + 1)) by (cbn; rewrite plus_IZR, minus_IZR; reflexivity). rewrite cast_IZR by zl. cbn [bind].
    rewrite (for_zsum (i - p + 1) (i + 1) _ (pfe_path x)); [|lia|intros j s Hj; rewrite !rdr by lia; cbn [bind]; rewrite pfe_denom_R; reflexivity]. cbn [bind].
    rewrite !rdr by lia. cbn [bind]. rewrite pfe_numer_R. toR. rewrite Rplus_0_l. do 4 f_equal. unfold pfe_raw. replace (i - p + p) with i by lia. reflexivity.
Qed.

(** pbands and posc *)
Lemma topof_spec p f : 1 <= p -> (forall j, 0 <= j < p -> (f j <= topof p f)%R) /\ exists j, 0 <= j < p /\ topof p f = f j.
Proof.
  intros Hp. apply (zind (fun p => (forall j, 0 <= j < p -> (f j <= topof p f)%R) /\ exists j, 0 <= j < p /\ topof p f = f j) 1 p Hp); unfold topof.
  - rewrite trec_nil by lia. split; [|exists 0; split; [lia|reflexivity]]. intros j Hj. replace j with 0 by lia. lra.
  - intros i Hi [IH1 (k & Hk & IH2)]. rewrite trec_snoc by lia. split.
    + intros j Hj. destruct (Z.eq_dec j i) as [->|N]; [apply Rmax_r|]. eapply Rle_trans; [apply IH1; lia|apply Rmax_l].
    + destruct (Rle_dec (trec (fun j m => Rmax m (f j)) 1 i (f 0)) (f i)).
      * rewrite Rmax_right by assumption. exists i. split; [lia|reflexivity].
      * rewrite Rmax_left by lra. exists k. split; [lia|assumption].
Qed.
Lemma botof_spec p f : 1 <= p -> (forall j, 0 <= j < p -> (botof p f <= f j)%R) /\ exists j, 0 <= j < p /\ botof p f = f j.
Proof.
  intros Hp. apply (zind (fun p => (forall j, 0 <= j < p -> (botof p f <= f j)%R) /\ exists j, 0 <= j < p /\ botof p f = f j) 1 p Hp); unfold botof.
  - rewrite trec_nil by lia. split; [|exists 0; split; [lia|reflexivity]]. intros j Hj. replace j with 0 by lia. lra.
  - intros i Hi [IH1 (k & Hk & IH2)]. rewrite trec_snoc by lia. split.
    + intros j Hj. destruct (Z.eq_dec j i) as [->|N]; [apply Rmin_r|]. eapply Rle_trans; [apply Rmin_l|apply IH1; lia].
    + destruct (Rle_dec (trec (fun j m => Rmin m (f j)) 1 i (f 0)) (f i)).
      * rewrite Rmin_left by assumption. exists k. split; [lia|assumption].
      * rewrite Rmin_right by lra. exists i. split; [lia|reflexivity].
Qed.
Lemma upband_at p h c i : topof p (fun j => zr h (i - j) + IZR j * lr_slope (i - p + 1) p c)%R = upband p h c (i - p + 1).
Proof. unfold upband. replace (i - p + 1 + p - 1) with i by lia. reflexivity. Qed.
Lemma lowband_at p h c i : botof p (fun j => zr h (i - j) + IZR j * lr_slope (i - p + 1) p c)%R = lowband p h c (i - p + 1).
Proof. unfold lowband. replace (i - p + 1 + p - 1) with i by lia. reflexivity. Qed.
Lemma xsums_R p : 1 <= p -> p * (p + 1) * (2 * p + 1) <= INT_MAX -> @xsums RA p = Ok (zsum 0 p linw, zsum 0 p (fun j => IZR ((j + 1) * (j + 1)))).
Proof.
  intros Hp Hq. unfold INT_MAX in Hq. assert (p <= 1023) by nia. unfold xsums. repeat (rewrite ck_ok by (unfold INT_MIN, INT_MAX; nia); cbn [bind]).
  rewrite zsum_id, zsum_sq by lia. toR. rewrite !mult_IZR, !plus_IZR, mult_IZR. reflexivity.
Qed.
Lemma posc_b_R p x k : 1 <= p -> @posc_b RA (IZR p) (zsum 0 p linw) (zsum 0 p (fun j => IZR ((j + 1) * (j + 1)))) (Lin p (zr x) k) (Flat p (zr x) k) = lr_slope k p x.
Proof.
  intros Hp. unfold posc_b, lr_slope. toR. fold (Lin p (zr x) k) (Flat p (zr x) k).
  assert (Ip : (1 <= IZR p)%R) by (apply IZR_le; lia).
  destruct (Z.eq_dec p 1) as [->|N].
  - rewrite !zsum_id, zsum_sq by lia. unfold Lin, Flat. rewrite (zsum_snoc 0 0), zsum_nil by lia. rewrite (zsum_snoc 0 0), zsum_nil by lia. change (IZR (0 + 1)) with 1%R. 
    match goal with |- (?a / _ = ?b / _)%R => replace a with 0%R by field; replace b with 0%R by field end. unfold Rdiv. rewrite !Rmult_0_l. reflexivity.
  - rewrite !zsum_id, zsum_sq by lia. assert (2 <= IZR p)%R by (apply IZR_le; lia). field. set (q := IZR p) in *.
    assert (0 < q * q * (q + 1) * (q - 1))%R by (repeat apply Rmult_lt_0_compat; lra). assert (0 < (q + 1) * (q - 1))%R by (apply Rmult_lt_0_compat; lra).
    repeat split; [|lra|]; apply Rgt_not_eq; unfold Rgt.
    + replace (q * (q * (q + 1) * (2 * q + 1)) * 4 - q * (q + 1) * (q * (q + 1)) * 6)%R with (2 * (q * q * (q + 1) * (q - 1)))%R by ring. lra.
    + replace ((q + 1) * (2 * q + 1) * 4 - (q + 1) * (q + 1) * 6)%R with (2 * ((q + 1) * (q - 1)))%R by ring. lra.
Qed.
Lemma band_max_R p b (h : list R) i rdh : 1 <= p <= i + 1 -> i < zlen h -> (forall j, 0 <= j < p -> rdh j = Ok (zr h (i - j))) ->
  @band_max RA p b rdh (zr h i) = Ok (topof p (fun j => zr h (i - j) + IZR j * b)%R).
Proof.
  intros Hp Hi Hr. unfold band_max, topof. rewrite Rmult_0_l, Rplus_0_r, Z.sub_0_r. apply for_trec. intros j m Hj. rewrite Hr by lia. cbn [bind]. toR. f_equal.
  destruct (Rltb_spec m (zr h (i - j) + IZR j * b)); [rewrite Rmax_right|rewrite Rmax_left]; lra.
Qed.
Lemma band_min_R p b (h : list R) i rdh : 1 <= p <= i + 1 -> i < zlen h -> (forall j, 0 <= j < p -> rdh j = Ok (zr h (i - j))) ->
  @band_min RA p b rdh (zr h i) = Ok (botof p (fun j => zr h (i - j) + IZR j * b)%R).
Proof.
  intros Hp Hi Hr. unfold band_min, botof. rewrite Rmult_0_l, Rplus_0_r, Z.sub_0_r. apply for_trec. intros j m Hj. rewrite Hr by lia. cbn [bind]. toR. f_equal.
  destruct (Rltb_spec (zr h (i - j) + IZR j * b) m); [rewrite Rmin_right|rewrite Rmin_left]; lra.
Qed.
Lemma proj_max_R p b (h : list R) i rdh : 1 <= p <= i + 1 -> i < zlen h -> (forall j, 0 <= j < p -> rdh j = Ok (zr h (i - j))) ->
  @proj_max RA p b rdh (zr h i) = Ok (topof p (fun j => zr h (i - j) + IZR j * b)%R).
Proof.
  intros Hp Hi Hr. rewrite <- (band_max_R p b h i rdh) by assumption. unfold proj_max, band_max. apply for_ext. intros j m Hj. reflexivity.
Qed.
Lemma proj_min_R p b (h : list R) i rdh : 1 <= p <= i + 1 -> i < zlen h -> (forall j, 0 <= j < p -> rdh j = Ok (zr h (i - j))) ->
  @proj_min RA p b rdh (zr h i) = Ok (botof p (fun j => zr h (i - j) + IZR j * b)%R).
Proof.
  intros Hp Hi Hr. rewrite <- (band_min_R p b h i rdh) by assumption. unfold proj_min, band_min. apply for_ext. intros j m Hj. reflexivity.
Qed.
Lemma pbands_fun size (h l c : list R) o p : zlen h = size -> zlen l = size -> zlen c = size -> 0 <= size <= INT_MAX -> @to_int RA o = Some p -> 1 <= p ->
  p * (p + 1) * (2 * p + 1) <= INT_MAX ->
  @ti_pbands RA size [h; l; c] [o] = Ok (OKAY, [tab 0 (size - p + 1) (lowband p l c); tab 0 (size - p + 1) (upband p h c)]).
Proof.
  intros Hh Hl Hc Hs Ho Hp Hq. unfold ti_pbands, cast. rewrite Ho. cbn [bind]. replace (p <? 1) with false by lia. rewrite xsums_R by lia. cbn [bind].
  etransitivity; [apply (@batch_tab RA _ (fun i s => s = (flat p (zr c) i, lin p (zr c) i)) [lowband p l c; upband p h c] (p - 1)); [lia|lia| |]|].
  - rewrite flat_0, lin_0 by lia. reflexivity.
  - intros i s Hi ->. disp. destruct (i <? p - 1) eqn:E; rewrite !rdr by lia; cbn [bind].
    + cbn [wp fst snd map]. split; [reflexivity|]. toR. rewrite <- flat_warm, <- lin_warm by lia. reflexivity.
    + toR. rewrite lin_full, flat_full by lia. rewrite posc_b_R by lia.
      rewrite (band_max_R p _ h i) by (lia || (intros; apply rdr; lia)). cbn [bind]. rewrite ?(rdr l) by lia. cbn [bind].
      rewrite (band_min_R p _ l i) by (lia || (intros; apply rdr; lia)). cbn [bind]. rewrite ?rdr by lia. cbn [bind wp fst snd map].
      rewrite flat_next, lin_next by lia. split; [|reflexivity]. unfold lowband, upband. replace (i - (p - 1)) with (i - p + 1) by lia. replace (i - p + 1 + p - 1) with i by lia. reflexivity.
  - cbn [map]. do 3 f_equal; [apply tab_eq; lia|]. f_equal. apply tab_eq; lia.
Qed.
Lemma pbands_ref_fun size (h l c : list R) p : zlen h = size -> zlen l = size -> zlen c = size -> size <= INT_MAX -> 1 <= p <= size + 1 -> p * p <= INT_MAX ->
  @ti_pbands_ref RA size [h; l; c] [IZR p] = Ok (OKAY, [tab 0 (size - p + 1) (lowband p l c); tab 0 (size - p + 1) (upband p h c)]).
Proof.
  intros Hh Hl Hc Hs Hp Hq. unfold ti_pbands_ref, start_p1. rewrite cast_IZR by zl. cbn [bind]. rewrite ck_ok by zl. cbn [bind].
  replace (0 <=? size - (p - 1)) with true by lia. cbn [check bind]. unfold call1.
  rewrite (linregslope_fun size c _ p) by (assumption || lia || (apply (@to_int_of_Z RA RA_laws); zl)). cbn [bind]. rewrite rd1. cbn [bind].
  rewrite ceilto_IZR by zl. cbn [bind].
  match goal with |- (let* (_, _) := for_ (p - 1) size ?f ?s0 in _) = _ =>
    destruct (for_rel (fun i (s : list (@T RA) * list (@T RA)) (_ : unit) => s = (tab 0 (i - p + 1) (lowband p l c), tab 0 (i - p + 1) (upband p h c))) (p - 1) size f (fun _ s => Ok s) s0 tt) as (s' & [] & -> & _ & ->) end.
  { lia. } { rewrite !tab_nil by lia. reflexivity. }
  { intros i s [] Hi ->. rewrite rdr by (rewrite zlen_tab; lia). rewrite zr_tab by lia. cbn [bind]. unfold ref_max, ref_min. rewrite !rdr by lia. cbn [bind].
    match goal with |- context[for_ 1 p ?f (zr h i)] => change (for_ 1 p f (zr h i)) with (@band_max RA p (lr_slope (i - (p - 1)) p c) (fun j => rd h (i - j)) (zr h i)) end.
    rewrite (band_max_R p _ h i) by (lia || (intros; apply rdr; lia)). cbn [bind]. rewrite ?(rdr l) by lia. cbn [bind].
    match goal with |- context[for_ 1 p ?f (zr l i)] => change (for_ 1 p f (zr l i)) with (@band_min RA p (lr_slope (i - (p - 1)) p c) (fun j => rd l (i - j)) (zr l i)) end.
    rewrite (band_min_R p _ l i) by (lia || (intros; apply rdr; lia)). cbn [bind wp].
    replace (i + 1 - p + 1) with (i - p + 1 + 1) by lia. rewrite !(tab_snoc 0 (i - p + 1)) by lia.
    replace (i - (p - 1)) with (i - p + 1) by lia. rewrite upband_at, lowband_at. reflexivity. }
  reflexivity.
Qed.

Lemma posc_osc_R (c a b : R) : @posc_osc RA c a b = ((c - a) / (b - a) * 100)%R.
Proof.
  unfold posc_osc, truth. toR. destruct (Reqb_spec (c - a) 0) as [->|]; cbn [negb]; [|reflexivity]. unfold Rdiv. ring.
Qed.
Lemma posc_fun size (h l c : list R) p q : zlen h = size -> zlen l = size -> zlen c = size -> 0 <= size <= INT_MAX -> 1 <= p -> 1 <= q < INT_MAX ->
  p * (p + 1) * (2 * p + 1) <= INT_MAX ->
  @ti_posc RA size [h; l; c] [IZR p; IZR q] = Ok (OKAY, [ema_list q (posc_list p h l c)]).
Proof.
  intros Hh Hl Hc Hs Hp Hq Hpp. assert (p <= 1023) by (unfold INT_MAX in Hpp; nia). unfold ti_posc, ti_posc_start, start_fm1.
  rewrite !cast_IZR by zl. cbn [bind]. replace (p <? 1) with false by lia. replace (q <? 1) with false by lia.
  replace (@fsub RA (IZR p) (@of_Z RA 1)) with (IZR (p - 1)) by (cbn; rewrite minus_IZR; reflexivity). rewrite cast_IZR by zl. cbn [bind].
  set (y := posc_list p h l c).
  assert (EL : zlen y = Z.max 0 (size - p + 1)) by (unfold y, posc_list; rewrite zlen_tab; lia).
  destruct (size <=? p - 1) eqn:E0; [unfold ema_list; rewrite tab_nil by lia; reflexivity|].
  rewrite xsums_R by lia. cbn [bind].
  assert (Ev : forall k, 0 <= k < size - p + 1 -> zr y k = posc_raw p h l c k) by (intros; unfold y, posc_list; rewrite zr_tab by lia; reflexivity).
  etransitivity; [apply (@batch_tab RA _ (fun i st => fst st = (flat p (zr c) i, lin p (zr c) i) /\ (p <= i -> snd st = Some (emaR q y (i - p))))
     [(fun k => emaR q y k)] (p - 1)); [lia|lia| |]|].
  - cbn [fst snd]. split; [rewrite flat_0, lin_0 by lia; reflexivity|lia].
  - intros i [[a b] e] Hi [E1 E2]. cbn [fst snd] in E1, E2. injection E1 as -> ->. disp. destruct (i <? p - 1) eqn:E3.
    + replace (i <? p) with true by lia. rewrite rdr by lia. cbn [bind wp fst snd map]. split; [reflexivity|]. split; [|lia]. toR. rewrite <- flat_warm, <- lin_warm by lia. reflexivity.
    + rewrite !rdr by lia. cbn [bind]. toR. rewrite lin_full, flat_full by lia. rewrite posc_b_R by lia.
      rewrite !(proj_max_R p _ h i) by (lia || (intros; apply rdr; lia)). cbn [bind]. rewrite ?(rdr l) by lia. cbn [bind].
      rewrite !(proj_min_R p _ l i) by (lia || (intros; apply rdr; lia)). cbn [bind]. rewrite ?rdr by lia. cbn [bind]. rewrite !posc_osc_R. rewrite flat_next, lin_next by lia.
      replace (i - (p - 1)) with (i - p + 1) by lia. rewrite upband_at, lowband_at.
      assert (RW : ((zr c i - lowband p l c (i - p + 1)) / (upband p h c (i - p + 1) - lowband p l c (i - p + 1)) * 100)%R = zr y (i - p + 1)).
      { rewrite Ev by lia. unfold posc_raw. replace (i - p + 1 + p - 1) with i by lia. reflexivity. }
      rewrite RW. destruct (i <? p) eqn:E4.
      * cbn [wp fst snd map]. assert (i = p - 1) as -> by lia. replace (p - 1 - p + 1) with 0 by lia. rewrite emaR_0. split; [reflexivity|]. split; [reflexivity|].
        intros _. replace (p - 1 + 1 - p) with 0 by lia. rewrite emaR_0. reflexivity.
      * rewrite E2 by lia. cbn [val bind]. rewrite ck_ok by zl. cbn [bind wp fst snd map].
        assert (Q : ((zr y (i - p + 1) - emaR q y (i - p)) * 2 / IZR (1 + q) + emaR q y (i - p))%R = emaR q y (i - p + 1)).
        { rewrite emaR_S by lia. rewrite plus_IZR, (Rplus_comm 1). unfold Rdiv. ring. }
        rewrite Q. split; [reflexivity|]. split; [reflexivity|]. intros _. do 2 f_equal. lia.
  - cbn [map]. unfold ema_list. do 3 f_equal. rewrite EL. apply tab_eq; lia.
Qed.
Lemma posc_ref_fun size (h l c : list R) p q : zlen h = size -> zlen l = size -> zlen c = size -> size <= INT_MAX -> 1 <= p <= size + 1 -> 1 <= q < INT_MAX ->
  p * p <= INT_MAX ->
  @ti_posc_ref RA size [h; l; c] [IZR p; IZR q] = Ok (OKAY, [ema_list q (posc_list p h l c)]).
Proof.
  intros Hh Hl Hc Hs Hp Hq Hpp. unfold ti_posc_ref, start_p1. rewrite cast_IZR by zl. cbn [bind]. rewrite ck_ok by zl. cbn [bind].
  replace (0 <=? size - (p - 1)) with true by lia. cbn [check bind]. unfold call1.
  rewrite (linregslope_fun size c _ p) by (assumption || lia || (apply (@to_int_of_Z RA RA_laws); zl)). cbn [bind]. rewrite rd1. cbn [bind].
  rewrite ceilto_IZR by zl. cbn [bind].
  rewrite (@for_tab RA (p - 1) size _ (posc_raw p h l c)).
  - cbn [bind]. change (@T RA) with R. replace (tab 0 (size - (p - 1)) (posc_raw p h l c)) with (posc_list p h l c) by (unfold posc_list; apply tab_eq; lia).
    rewrite (ema_list_fun (size - (p - 1)) (posc_list p h l c) _ q); [cbn [bind]; rewrite rd1; reflexivity| |lia|apply (@to_int_of_Z RA RA_laws); zl|lia].
    unfold posc_list. rewrite zlen_tab. lia.
  - intros i o Hi. rewrite rdr by (rewrite zlen_tab; lia). rewrite zr_tab by lia. cbn [bind]. unfold ref_max, ref_min. rewrite !rdr by lia. cbn [bind].
    match goal with |- context[for_ 1 p ?f (zr h i)] => change (for_ 1 p f (zr h i)) with (@band_max RA p (lr_slope (i - (p - 1)) p c) (fun j => rd h (i - j)) (zr h i)) end.
    rewrite (band_max_R p _ h i) by (lia || (intros; apply rdr; lia)). cbn [bind]. rewrite ?(rdr l) by lia. cbn [bind].
    match goal with |- context[for_ 1 p ?f (zr l i)] => change (for_ 1 p f (zr l i)) with (@band_min RA p (lr_slope (i - (p - 1)) p c) (fun j => rd l (i - j)) (zr l i)) end.
    rewrite (band_min_R p _ l i) by (lia || (intros; apply rdr; lia)). cbn [bind]. rewrite ?rdr by lia. cbn [bind]. do 3 f_equal.
    replace (i - (p - 1)) with (i - p + 1) by lia. rewrite upband_at, lowband_at. unfold posc_raw. replace (i - p + 1 + p - 1) with i by lia. reflexivity.
Qed.
End R.

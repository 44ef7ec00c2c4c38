(** hurst, abands and kst as functions of the input over the reals, with their reference
    implementations (for C36 and C43). *)
From Verif Require Export Fun_exact4 C_stream8 M_stream4 M_osc Fun_window2 C_stream3.
From Coq Require Import Reals Lra.
Open Scope Z_scope.

Section R.
Local Existing Instance RA.

(** ** hurst *)
(** The logarithmic return of bar [i] *)
Definition ret_at (x : list R) (i : Z) : R := if i <? 1 then 0%R else ln (zr x i / zr x (i - 1)).
(** Greatest and least of 0 and the running sums of [D] *)
Definition run_hi (n : Z) (D : Z -> R) : R := trec (fun j s => @stdmax RA s (zsum 0 (j + 1) D)) 0 n 0%R.
Definition run_lo (n : Z) (D : Z -> R) : R := trec (fun j s => @stdmin RA s (zsum 0 (j + 1) D)) 0 n 0%R.
Definition dev (p : Z) (f : Z -> R) (j : Z) : R := (f j - zsum 0 p f / IZR p)%R.
(** [f j] is the return [j] bars back *)
Definition hurst_of (p : Z) (f : Z -> R) : R :=
  let D := dev p f in (ln ((run_hi p D - run_lo p D) / sqrt (zsum 0 p (fun j => D j * D j)%R / IZR p)) / ln (IZR p))%R.

Lemma hi_spec n D k : 0 <= k <= n -> (zsum 0 k D <= run_hi n D)%R.
Proof.
  intros Hk. apply (zind (fun n => forall k, 0 <= k <= n -> (zsum 0 k D <= run_hi n D)%R) 0 n ltac:(lia)); [| |exact Hk].
  - intros j Hj. unfold run_hi. rewrite trec_nil, zsum_nil by lia. lra.
  - intros m Hm IH j Hj. assert (E : run_hi (m + 1) D = @stdmax RA (run_hi m D) (zsum 0 (m + 1) D)) by (unfold run_hi; rewrite trec_snoc by lia; reflexivity).
    rewrite E. unfold stdmax. cbn -[Rltb]. destruct (Z.eq_dec j (m + 1)) as [->|N].
    + destruct (Rltb_spec (run_hi m D) (zsum 0 (m + 1) D)); lra.
    + specialize (IH j ltac:(lia)). destruct (Rltb_spec (run_hi m D) (zsum 0 (m + 1) D)); lra.
Qed.
Lemma lo_spec n D k : 0 <= k <= n -> (run_lo n D <= zsum 0 k D)%R.
Proof.
  intros Hk. apply (zind (fun n => forall k, 0 <= k <= n -> (run_lo n D <= zsum 0 k D)%R) 0 n ltac:(lia)); [| |exact Hk].
  - intros j Hj. unfold run_lo. rewrite trec_nil, zsum_nil by lia. lra.
  - intros m Hm IH j Hj. assert (E : run_lo (m + 1) D = @stdmin RA (run_lo m D) (zsum 0 (m + 1) D)) by (unfold run_lo; rewrite trec_snoc by lia; reflexivity).
    rewrite E. unfold stdmin. cbn -[Rltb]. destruct (Z.eq_dec j (m + 1)) as [->|N].
    + destruct (Rltb_spec (zsum 0 (m + 1) D) (run_lo m D)); lra.
    + specialize (IH j ltac:(lia)). destruct (Rltb_spec (zsum 0 (m + 1) D) (run_lo m D)); lra.
Qed.
Lemma hi_in n D : 0 <= n -> exists k, 0 <= k <= n /\ run_hi n D = zsum 0 k D.
Proof.
  intros Hn. apply (zind (fun n => exists k, 0 <= k <= n /\ run_hi n D = zsum 0 k D) 0 n Hn).
  - exists 0. split; [lia|]. unfold run_hi. rewrite trec_nil, zsum_nil by lia. reflexivity.
  - intros m Hm (k & Hk & E). assert (E2 : run_hi (m + 1) D = @stdmax RA (run_hi m D) (zsum 0 (m + 1) D)) by (unfold run_hi; rewrite trec_snoc by lia; reflexivity).
    rewrite E2. unfold stdmax. destruct (@flt RA _ _); [exists (m + 1)|exists k]; split; auto; lia.
Qed.
Lemma lo_in n D : 0 <= n -> exists k, 0 <= k <= n /\ run_lo n D = zsum 0 k D.
Proof.
  intros Hn. apply (zind (fun n => exists k, 0 <= k <= n /\ run_lo n D = zsum 0 k D) 0 n Hn).
  - exists 0. split; [lia|]. unfold run_lo. rewrite trec_nil, zsum_nil by lia. reflexivity.
  - intros m Hm (k & Hk & E). assert (E2 : run_lo (m + 1) D = @stdmin RA (run_lo m D) (zsum 0 (m + 1) D)) by (unfold run_lo; rewrite trec_snoc by lia; reflexivity).
    rewrite E2. unfold stdmin. destruct (@flt RA _ _); [exists (m + 1)|exists k]; split; auto; lia.
Qed.
Lemma dev_sum p f : 1 <= p -> zsum 0 p (dev p f) = 0%R.
Proof.
  intros Hp. unfold dev. rewrite zsum_minus, zsum_const by lia. rewrite Z.sub_0_r. field. apply IZR_neq. lia.
Qed.
(** Returns that are not all the same have a positive range. *)
Lemma range_pos p f : 1 <= p -> (exists j, 1 <= j < p /\ f j <> f (j - 1)) -> (run_lo p (dev p f) < run_hi p (dev p f))%R.
Proof.
  intros Hp (j & Hj & N). set (D := dev p f). destruct (Rlt_or_le (run_lo p D) (run_hi p D)) as [L|L]; [exact L|]. exfalso. apply N.
  assert (Z0 : forall k, 0 <= k <= p -> zsum 0 k D = 0%R).
  { intros k Hk. pose proof (hi_spec p D k Hk). pose proof (lo_spec p D k Hk). pose proof (hi_spec p D 0 ltac:(lia)) as A. pose proof (lo_spec p D 0 ltac:(lia)) as B. rewrite zsum_nil in A, B by lia. lra. }
  assert (D0 : forall k, 0 <= k < p -> D k = 0%R).
  { intros k Hk. pose proof (Z0 (k + 1) ltac:(lia)) as A. rewrite zsum_snoc in A by lia. rewrite Z0 in A by lia. lra. }
  pose proof (D0 j ltac:(lia)) as A. pose proof (D0 (j - 1) ltac:(lia)) as B. unfold D, dev in A, B. lra.
Qed.

Lemma hurst_loop p (f : Z -> R) m (get : Z -> res R) : 0 <= p -> (forall j, 0 <= j < p -> get j = Ok (f j)) ->
  for_ 0 p (fun j '(cum, mx, mn, sd) =>
    let* x := get j in
    let cum := @fadd RA cum (@fsub RA x m) in
    Ok (cum, @stdmax RA mx cum, @stdmin RA mn cum, @fadd RA sd (@fpow RA (@fsub RA x m) (@of_Z RA 2)))) (@of_Z RA 0, @fopp RA (@finf RA), @finf RA, @of_Z RA 0) =
  Ok (zsum 0 p (fun j => f j - m)%R, run_hi p (fun j => f j - m)%R, run_lo p (fun j => f j - m)%R, zsum 0 p (fun j => (f j - m) * (f j - m))%R).
Proof.
  intros Hp G. match goal with |- for_ 0 p ?F ?s = _ => apply (zind (fun n => n <= p -> for_ 0 n F s =
    Ok (zsum 0 n (fun j => f j - m)%R, run_hi n (fun j => f j - m)%R, run_lo n (fun j => f j - m)%R, zsum 0 n (fun j => (f j - m) * (f j - m))%R)) 0 p Hp); [| |lia] end.
  - intros _. rewrite for_nil by lia. unfold run_hi, run_lo. rewrite !zsum_nil, !trec_nil by lia. cbn. rewrite Ropp_0. reflexivity.
  - intros n Hn IH Hle. rewrite for_snoc by lia. rewrite IH by lia. cbn [bind]. rewrite G by lia. cbn [bind].
    unfold run_hi, run_lo. rewrite !trec_snoc by lia. fold (run_hi n (fun j => f j - m)%R). fold (run_lo n (fun j => f j - m)%R).
    rewrite !zsum_snoc by lia. rewrite fpow_2_R. reflexivity.
Qed.
Lemma hurst_value_R r p g i : 2 <= p -> @full RA r p g i -> (exists j, 1 <= j < p /\ g (i - j) <> g (i - (j - 1))) ->
  @hurst_value RA (IZR p) p (zsum 0 p (fun j => g (i - j))) r = Ok (hurst_of p (fun j => g (i - j))).
Proof.
  intros Hp F N. unfold hurst_value. cbv zeta.
  pose proof (hurst_loop p (fun j => g (i - j)) (zsum 0 p (fun j => g (i - j)%Z) / IZR p)%R (fun j => @ring_get RA r j) ltac:(lia)) as E.
  match type of E with _ -> for_ 0 p ?F' ?s = ?v => match goal with |- (let* _ := for_ 0 p ?G ?t in _) = _ => replace (for_ 0 p G t) with v by (symmetry; apply E; intros; apply (@full_get RA r p g i); [exact F|lia]) end end.
  cbn [bind]. clear E. pose proof (range_pos p (fun j => g (i - j)) ltac:(lia) N) as L. unfold dev in L.
  match goal with |- Ok (if @truth RA ?a then _ else _) = _ => replace (@truth RA a) with true by (symmetry; apply truth_R; toR; lra) end. reflexivity.
Qed.
Lemma hurst_fun size (x : list R) p : zlen x = size -> 0 <= size <= INT_MAX -> 2 <= p <= INT_MAX -> (forall i, 0 <= i < size -> zr x i <> 0%R) ->
  (forall i, p <= i < size -> exists j, 1 <= j < p /\ ret_at x (i - j) <> ret_at x (i - (j - 1))) ->
  let F := fun k => hurst_of p (fun j => ret_at x (k + p - j)) in
  @ti_hurst RA size [x] [IZR p] = Ok (OKAY, [tab 0 (size - p) F; tab 0 (size - p) (fun k => 2 - F k)%R]).
Proof.
  intros Hx Hs Hp Nz Nf F. unfold ti_hurst. replace (@flt RA (IZR p) (@of_Z RA 2)) with false by (symmetry; cbn; destruct (Rltb_spec (IZR p) 2) as [C|]; [apply lt_IZR in C; lia|reflexivity]).
  replace (@fsub RA (IZR p) (@of_Z RA 1)) with (IZR (p - 1)) by (cbn; rewrite minus_IZR; reflexivity).
  rewrite !cast_IZR by zl. cbn [bind]. destruct (@ring_new_ok RA p ltac:(lia)) as (r0 & -> & Hr0). cbn [bind]. rewrite !ceilto_IZR by zl. cbn [bind].
  set (g := ret_at x). set (lo := fun i => Z.max 1 (i - p + 1)).
  etransitivity; [apply (@batch_tab RA _ (fun i s => fst s = zsum (lo i) (Z.max 1 i) g /\ @hist RA (snd s) p g (Z.max 1 i)) [F; (fun k => 2 - F k)%R] p); [lia|lia| |]|reflexivity].
  - cbn [fst snd]. split; [rewrite zsum_nil by (unfold lo; lia); reflexivity|]. apply hist_fresh; [exact Hr0|]. intros j Hj. unfold g, ret_at. replace (j <? 1) with true by lia. reflexivity.
  - intros i [sum r] Hi [E1 E2]. cbn [fst snd] in E1, E2. disp.
    assert (EG : 1 <= i -> @hurst_ret RA (zr x i) (zr x (i - 1)) = g i).
    { intros Hi1. unfold hurst_ret, g, ret_at. replace (i <? 1) with false by lia. rewrite !(proj2 (truth_R _)) by (apply Nz; lia). reflexivity. }
    destruct (i <? 1) eqn:C1; [|destruct (i <? p) eqn:C2].
    + cbn [skip wp fst snd map]. replace (i <? p) with true by lia. split; [reflexivity|]. replace (lo (i + 1)) with (lo i) by (unfold lo; lia). replace (Z.max 1 (i + 1)) with (Z.max 1 i) by lia. auto.
    + replace (Z.max 1 i) with i in * by lia. rewrite !rdr by lia. cbn [bind]. rewrite EG by lia. destruct (hist_set r p g i (g i) E2 eq_refl) as (r' & Er & Fr). rewrite Er. cbn [bind]. rewrite (full_cur _ _ _ _ Fr). cbn [bind wp fst snd map].
      split; [reflexivity|]. replace (lo (i + 1)) with (lo i) by (unfold lo; lia). replace (Z.max 1 (i + 1)) with (i + 1) by lia. split; [|apply hist_step, Fr].
      rewrite zsum_snoc by (unfold lo; lia). rewrite E1. reflexivity.
    + replace (Z.max 1 i) with i in * by lia. rewrite !rdr by lia. cbn [bind]. rewrite EG by lia. destruct (hist_set r p g i (g i) E2 eq_refl) as (r' & Er & Fr). rewrite Er. cbn [bind]. rewrite (full_cur _ _ _ _ Fr). cbn [bind].
      assert (ES : @fadd RA sum (g i) = zsum 0 p (fun j => g (i - j))).
      { rewrite E1. rewrite (Fun_exact.zsum_rev p) by lia. toR. rewrite <- zsum_snoc by (unfold lo; lia). replace (lo i) with (0 + (i - p + 1)) by (unfold lo; lia). replace (i + 1) with (p + (i - p + 1)) by lia. rewrite zsum_shift. apply zsum_ext. intros j Hj. f_equal. lia. }
      rewrite ES. rewrite (hurst_value_R r' p g i); [|lia|exact Fr|apply Nf; lia]. cbn [bind]. rewrite (full_get _ _ _ _ (p - 1) Fr) by lia. cbn [bind wp fst snd map].
      assert (EF : F (i - p) = hurst_of p (fun j => g (i - j))) by (unfold F; replace (i - p + p) with i by lia; reflexivity).
      split; [cbn; rewrite EF; reflexivity|]. replace (Z.max 1 (i + 1)) with (i + 1) by lia. split; [|apply hist_step, Fr].
      rewrite <- ES, E1. toR. replace (lo (i + 1)) with (lo i + 1) by (unfold lo; lia). rewrite <- zsum_snoc by (unfold lo; lia). rewrite (zsum_cons (lo i)) by (unfold lo; lia). replace (i - (p - 1)) with (lo i) by (unfold lo; lia). ring.
Qed.
Lemma hurst_ref_fun size (x : list R) p : zlen x = size -> 0 <= size <= INT_MAX -> 2 <= p <= INT_MAX ->
  let F := fun k => hurst_of p (fun j => ret_at x (k + p - j)) in
  @ti_hurst_ref RA size [x] [IZR p] = Ok (OKAY, [tab 0 (size - p) F; tab 0 (size - p) (fun k => 2 - F k)%R]).
Proof.
  intros Hx Hs Hp F. unfold ti_hurst_ref. replace (@flt RA (IZR p) (@of_Z RA 2)) with false by (symmetry; cbn; destruct (Rltb_spec (IZR p) 2) as [C|]; [apply lt_IZR in C; lia|reflexivity]).
  rewrite !cast_IZR by zl. cbn [bind]. rewrite !ceilto_IZR by zl. cbn [bind].
  destruct (Z.le_gt_cases size p) as [L|L]; [rewrite for_nil, !tab_nil by lia; reflexivity|].
  match goal with |- (let* _ := for_ p size ?G ?t in _) = _ => assert (E : for_ p size G t = Ok (tab 0 (size - p) F, tab 0 (size - p) (fun k => 2 - F k)%R)); [|rewrite E; reflexivity] end.
  match goal with |- for_ p size ?G ?t = _ => apply (zind (fun n => n <= size -> for_ p n G t = Ok (tab 0 (n - p) F, tab 0 (n - p) (fun k => 2 - F k)%R)) p size ltac:(lia)); [| |lia] end.
  - intros _. rewrite for_nil, !tab_nil by lia. reflexivity.
  - intros i Hi IH Hle. rewrite for_snoc by lia. rewrite IH by lia. cbn [bind]. clear IH. set (f := fun j => ret_at x (i - j)).
    assert (G : forall j, 0 <= j < p -> @hurst_ref_r RA x (i - j) = Ok (f j)).
    { intros j Hj. unfold hurst_ref_r. rewrite !rdr by lia. cbn [bind]. unfold f, ret_at. replace (i - j <? 1) with false by lia. reflexivity. }
    rewrite (for_zsum 0 p _ f); [|lia|intros j s Hj; rewrite G by lia; reflexivity]. cbn [bind]. toR. rewrite Rplus_0_l. set (m := (zsum 0 p f / IZR p)%R).
    match goal with |- (let* _ := for_ 0 p ?K ?t in _) = _ => assert (E : for_ 0 p K t = Ok (zsum 0 p (fun j => f j - m)%R, run_hi p (fun j => f j - m)%R, run_lo p (fun j => f j - m)%R)) end.
    { match goal with |- for_ 0 p ?K ?t = _ => apply (zind (fun n => n <= p -> for_ 0 n K t = Ok (zsum 0 n (fun j => f j - m)%R, run_hi n (fun j => f j - m)%R, run_lo n (fun j => f j - m)%R)) 0 p ltac:(lia)); [| |lia] end.
      - intros _. rewrite for_nil by lia. unfold run_hi, run_lo. rewrite !zsum_nil, !trec_nil by lia. cbn. rewrite Ropp_0. reflexivity.
      - intros n Hn IH Hle'. rewrite for_snoc by lia. rewrite IH by lia. cbn [bind]. rewrite G by lia. cbn [bind]. unfold run_hi, run_lo. rewrite !trec_snoc by lia. rewrite !zsum_snoc by lia. reflexivity. }
    rewrite E. cbn [bind]. clear E. rewrite (for_zsum 0 p _ (fun j => (f j - m) * (f j - m))%R); [|lia|intros j s Hj; rewrite G by lia; cbn [bind]; f_equal; f_equal; apply fpow_2_R].
    cbn [bind]. replace (i + 1 - p) with (i - p + 1) by lia. rewrite !tab_snoc by lia. assert (EF : F (0 + (i - p)) = hurst_of p f) by (unfold F, f; rewrite Z.add_0_l; replace (i - p + p) with i by lia; reflexivity).
    rewrite Z.add_0_l in EF. rewrite ?Z.add_0_l, EF. unfold hurst_of. rewrite Rplus_0_l. reflexivity.
Qed.

(** ** abands *)
Definition ab_width (h l : list R) (i : Z) : R := (4 * (zr h i - zr l i) / (zr h i + zr l i))%R.
Definition ab_up (h l : list R) (i : Z) : R := ((1 + ab_width h l i) * zr h i)%R.
Definition ab_low (h l : list R) (i : Z) : R := ((1 - ab_width h l i) * zr l i)%R.
Definition avg_at (p : Z) (f : Z -> R) (k : Z) : R := (zsum k (k + p) f / IZR p)%R.
Definition abands_outs (size p : Z) (h l c : list R) : list (list R) :=
  [tab 0 (size - p + 1) (avg_at p (ab_low h l)); tab 0 (size - p + 1) (avg_at p (ab_up h l)); tab 0 (size - p + 1) (avg_at p (zr c))].
Lemma abands_mult (h l : list R) i : (0 < zr h i + zr l i)%R -> @abands_MULT RA (zr h i) (zr l i) = ab_width h l i.
Proof. intros H. unfold abands_MULT, ab_width. cbn -[Rltb]. destruct (Rltb_spec 0 (zr h i + zr l i)); [reflexivity|lra]. Qed.
Lemma abands_fun size (h l c : list R) o p : zlen h = size -> zlen l = size -> zlen c = size -> 0 <= size <= INT_MAX -> @to_int RA o = Some p -> 1 <= p <= 268435452 ->
  (forall i, 0 <= i < size -> (0 < zr h i + zr l i)%R) ->
  @ti_abands RA size [h; l; c] [o] = Ok (OKAY, abands_outs size p h l c).
Proof.
  intros Hh Hl Hc Hs Ho Hp Pos. unfold ti_abands, start_p1, cast. rewrite Ho. cbn [bind]. replace (p <? 1) with false by lia. rewrite ck_ok by zl. cbn [bind].
  destruct (size <=? p - 1) eqn:C. { unfold abands_outs. rewrite !tab_nil by lia. reflexivity. }
  destruct (bufR_new p (ab_up h l) 0 ltac:(lia)) as (bh & Eb & Bh). destruct (bufR_new p (ab_low h l) 0 ltac:(lia)) as (bl & Eb' & Bl). assert (bl = bh) as -> by congruence. rewrite ?Eb. cbn [bind]. rewrite ?Eb. cbn [bind].
  match goal with |- (let* _ := for_ 0 p ?F ?s0 in _) = _ => destruct (for_rel (fun i (s : @buffer RA * @buffer RA * R) (_ : unit) =>
    bufR (fst (fst s)) p (ab_up h l) 0 i /\ bufR (snd (fst s)) p (ab_low h l) 0 i /\ snd s = zsum 0 i (zr c)) 0 p F (fun _ u => Ok u) s0 tt) as ([[bh' bl'] cs] & [] & E & _ & (Bh' & Bl' & Ec)) end.
  { lia. }
  { cbn [fst snd]. split; [exact Bh|]. split; [exact Bl|]. rewrite zsum_nil by lia. reflexivity. }
  { intros i [[b1 b2] cs] [] Hi (B1 & B2 & Ecs). cbn [fst snd] in *. rewrite !rdr by lia. cbn [bind]. rewrite abands_mult by (apply Pos; lia).
    destruct (bufR_push _ _ _ _ _ (ab_up h l i) B1 eq_refl) as (b1' & E1 & B1' & _). destruct (bufR_push _ _ _ _ _ (ab_low h l i) B2 eq_refl) as (b2' & E2 & B2' & _).
    change (@fmul RA (@fadd RA (@of_Z RA 1) (ab_width h l i)) (zr h i)) with (ab_up h l i). rewrite E1. cbn [bind].
    change (@fmul RA (@fsub RA (@of_Z RA 1) (ab_width h l i)) (zr l i)) with (ab_low h l i). rewrite E2. cbn [bind].
    cbn [wp fst snd]. split; [exact B1'|]. split; [exact B2'|]. rewrite zsum_snoc by lia. rewrite Ecs. reflexivity. }
  match goal with |- (let* _ := ?t in _) = _ => replace t with (Ok (bh', bl', cs)) by (symmetry; exact E) end. cbn [bind]. clear E. cbn [fst snd] in *.
  assert (S : forall b f n, bufR b p f 0 n -> p <= n -> @fmul RA (bsum b) (@fdiv RA (@of_Z RA 1) (@of_Z RA p)) = avg_at p f (n - p)).
  { intros b f n (_ & _ & _ & ->) Hn. replace (Z.max 0 (n - p)) with (n - p) by lia. unfold avg_at. replace (n - p + p) with n by lia. toR. unfold Rdiv. ring. }
  match goal with |- (let* _ := for_ p size ?F ?s0 in _) = _ => destruct (for_rel (fun i (s : @buffer RA * @buffer RA * R * list R * list R * list R) (_ : unit) =>
    let '(b1, b2, cs, lo, up, mi) := s in
    bufR b1 p (ab_up h l) 0 i /\ bufR b2 p (ab_low h l) 0 i /\ cs = zsum (i - p) i (zr c) /\ lo = tab 0 (i - p + 1) (avg_at p (ab_low h l)) /\
    up = tab 0 (i - p + 1) (avg_at p (ab_up h l)) /\ mi = tab 0 (i - p + 1) (avg_at p (zr c))) p size F (fun _ u => Ok u) s0 tt) as ([[[[[b1 b2] cs'] lo] up] mi] & [] & E & _ & (_ & _ & _ & El & Eu & Em)) end.
  { lia. }
  { replace (p - p + 1) with (0 + 1) by lia. rewrite !(tab_snoc 0 0), !tab_nil by lia. cbn [app]. rewrite !(S _ _ _ Bh') by lia. rewrite !(S _ _ _ Bl') by lia. replace (p - p) with 0 by lia. repeat (split; [assumption || reflexivity|]). rewrite Ec. unfold avg_at. rewrite Z.add_0_l. toR. f_equal. unfold Rdiv. ring. }
  { intros i [[[[[b1 b2] cs1] lo] up] mi] [] Hi (B1 & B2 & Ecs & -> & -> & ->). rewrite !rdr by lia. cbn [bind]. rewrite abands_mult by (apply Pos; lia).
    destruct (bufR_push _ _ _ _ _ (ab_up h l i) B1 eq_refl) as (b1' & E1 & B1' & _). destruct (bufR_push _ _ _ _ _ (ab_low h l i) B2 eq_refl) as (b2' & E2 & B2' & _).
    change (@fmul RA (@fadd RA (@of_Z RA 1) (ab_width h l i)) (zr h i)) with (ab_up h l i). rewrite E1. cbn [bind].
    change (@fmul RA (@fsub RA (@of_Z RA 1) (ab_width h l i)) (zr l i)) with (ab_low h l i). rewrite E2. cbn [bind].
    cbn [wp]. split; [exact B1'|]. split; [exact B2'|].
    assert (E3 : @fadd RA cs1 (@fsub RA (zr c i) (zr c (i - p))) = zsum (i + 1 - p) (i + 1) (zr c)) by (rewrite zsum_roll by lia; rewrite Ecs; toR; ring).
    split; [exact E3|]. rewrite E3. replace (i + 1 - p + 1) with (i - p + 1 + 1) by lia. rewrite !(tab_snoc 0 (i - p + 1)) by lia.
    rewrite (S _ _ _ B1') by lia. rewrite (S _ _ _ B2') by lia. replace (i + 1 - p) with (i - p + 1) by lia. split; [reflexivity|]. split; [reflexivity|]. f_equal. f_equal. unfold avg_at. replace (i - p + 1 + p) with (i + 1) by lia. toR. unfold Rdiv. ring. }
  match goal with |- (let* _ := ?t in _) = _ => replace t with (Ok (b1, b2, cs', lo, up, mi)) by (symmetry; exact E) end. cbn [bind]. rewrite El, Eu, Em. change (@T RA) with R. rewrite zlen_tab. replace (Z.max 0 (size - p + 1 - 0) =? size - (p - 1)) with true by lia. reflexivity.
Qed.
Lemma abands_ref_fun size (h l c : list R) o p : zlen h = size -> zlen l = size -> zlen c = size -> 0 <= size <= INT_MAX -> @to_int RA o = Some p -> 1 <= p <= size + 1 ->
  (forall i, 0 <= i < size -> (0 < zr h i + zr l i)%R) ->
  @ti_abands_ref RA size [h; l; c] [o] = Ok (OKAY, abands_outs size p h l c).
Proof.
  intros Hh Hl Hc Hs Ho Hp Pos. pose proof (@to_int_range RA RA_laws o p Ho) as Hr. unfold ti_abands_ref, start_p1, cast. rewrite Ho. cbn [bind]. replace (p <? 1) with false by lia.
  match goal with |- (let* _ := for_ (p - 1) size ?F ?s in _) = _ => assert (E : for_ (p - 1) size F s = Ok (tab 0 (size - p + 1) (avg_at p (ab_low h l)), tab 0 (size - p + 1) (avg_at p (ab_up h l)), tab 0 (size - p + 1) (avg_at p (zr c)))) end.
  { match goal with |- for_ (p - 1) size ?F ?s = _ => apply (zind (fun n => n <= size -> for_ (p - 1) n F s = Ok (tab 0 (n - p + 1) (avg_at p (ab_low h l)), tab 0 (n - p + 1) (avg_at p (ab_up h l)), tab 0 (n - p + 1) (avg_at p (zr c)))) (p - 1) size ltac:(lia)); [| |lia] end.
    - intros _. rewrite for_nil, !tab_nil by lia. reflexivity.
    - intros i Hi IH Hle. rewrite for_snoc by lia. rewrite IH by lia. cbn [bind]. clear IH.
      match goal with |- (let* _ := for_ (i - p + 1) (i + 1) ?F ?s in _) = _ => assert (E : for_ (i - p + 1) (i + 1) F s = Ok (avg_at p (ab_up h l) (i - p + 1), avg_at p (zr c) (i - p + 1), avg_at p (ab_low h l) (i - p + 1))) end.
      { unfold avg_at. replace (i - p + 1 + p) with (i + 1) by lia.
        match goal with |- for_ (i - p + 1) (i + 1) ?F ?s = _ => apply (zind (fun n => n <= i + 1 -> for_ (i - p + 1) n F s = Ok (zsum (i - p + 1) n (ab_up h l) / IZR p, zsum (i - p + 1) n (zr c) / IZR p, zsum (i - p + 1) n (ab_low h l) / IZR p)%R) (i - p + 1) (i + 1) ltac:(lia)); [| |lia] end.
        - intros _. rewrite for_nil, !zsum_nil by lia. cbn. replace (0 / IZR p)%R with 0%R by (unfold Rdiv; ring). reflexivity.
        - intros j Hj IH Hlj. rewrite for_snoc by lia. rewrite IH by lia. cbn [bind]. rewrite !rdr by lia. cbn [bind]. pose proof (Pos j ltac:(lia)) as Pj. rewrite !zsum_snoc by lia. unfold ab_up, ab_low, ab_width. toR. change (10 ^ 3)%Z with 1000%Z.
          assert (Np : IZR p <> 0%R) by (apply IZR_neq; lia). f_equal. f_equal; [f_equal|]; field; repeat split; lra. }
      rewrite E. cbn [bind]. replace (i + 1 - p + 1) with (i - p + 1 + 1) by lia. rewrite !(tab_snoc 0 (i - p + 1)) by lia. reflexivity. }
  rewrite E. cbn [bind]. rewrite ck_ok by zl. cbn [bind]. change (@T RA) with R. rewrite zlen_tab. replace (Z.max 0 (size - p + 1 - 0) =? size - (p - 1)) with true by lia. reflexivity.
Qed.

(** ** kst *)
Definition roc_list (p : Z) (x : list R) : list R := tab 0 (zlen x - p) (fun k => (zr x (k + p) - zr x k) / zr x k)%R.
(** The smoothed rate of change at bar [i] *)
Definition roc_ema (p m : Z) (x : list R) (i : Z) : R := emaR m (roc_list p x) (i - p).
Definition kst_at (r1 r2 r3 r4 m1 m2 m3 m4 : Z) (x : list R) (i : Z) : R :=
  ((roc_ema r1 m1 x i * 1 + roc_ema r2 m2 x i * 2 + roc_ema r3 m3 x i * 3 + roc_ema r4 m4 x i * 4) / 10)%R.
Definition kst_list (r1 r2 r3 r4 m1 m2 m3 m4 : Z) (x : list R) : list R := tab 0 (zlen x - r4) (fun k => kst_at r1 r2 r3 r4 m1 m2 m3 m4 x (k + r4)).
Lemma kst_ROC_R (x : list R) i p : 0 <= p -> p <= i < zlen x -> @kst_ROC RA x i p = Ok (zr (roc_list p x) (i - p)).
Proof. intros Hp Hi. unfold kst_ROC. rewrite !rdr by lia. cbn [bind]. unfold roc_list. rewrite zr_tab by lia. replace (i - p + p) with i by lia. reflexivity. Qed.
Lemma roc_ema_0 p m x : roc_ema p m x p = zr (roc_list p x) (p - p).
Proof. unfold roc_ema. replace (p - p) with 0 by lia. apply emaR_0. Qed.
Lemma roc_ema_S p m x i : p < i -> @fadd RA (@fmul RA (@fsub RA (zr (roc_list p x) (i - p)) (roc_ema p m x (i - 1))) (@fdiv RA (@of_Z RA 2) (@of_Z RA (m + 1)))) (roc_ema p m x (i - 1)) = roc_ema p m x i.
Proof.
  intros Hi. unfold roc_ema. rewrite (emaR_S' m _ (i - p)) by lia. replace (i - 1 - p) with (i - p - 1) by lia. toR. rewrite plus_IZR. reflexivity.
Qed.
Lemma kst_warm_R (x : list R) size p r4 m : zlen x = size -> 0 <= p <= r4 -> r4 < size ->
  @kst_warm RA size x p r4 (@fdiv RA (@of_Z RA 2) (@of_Z RA (m + 1))) (zr (roc_list p x) (p - p)) = Ok (roc_ema p m x r4).
Proof.
  intros Hx Hp Hr. unfold kst_warm. replace (Z.min (r4 + 1) size) with (r4 + 1) by lia. rewrite <- (roc_ema_0 p m x).
  match goal with |- for_ _ _ ?F ?s = _ => assert (G : forall n, p + 1 <= n -> n <= r4 + 1 -> for_ (p + 1) n F s = Ok (roc_ema p m x (n - 1))) end.
  { intros n Hn. match goal with |- _ -> for_ _ _ ?F ?s = _ => apply (zind (fun n => n <= r4 + 1 -> for_ (p + 1) n F s = Ok (roc_ema p m x (n - 1))) (p + 1) n Hn) end.
    - intros _. rewrite for_nil by lia. f_equal. f_equal. lia.
    - intros i Hi IH Hle. rewrite for_snoc by lia. rewrite IH by lia. cbn [bind]. rewrite kst_ROC_R by lia. cbn [bind]. rewrite roc_ema_S by lia. f_equal. f_equal. lia. }
  rewrite G by lia. f_equal. f_equal. lia.
Qed.
Lemma kst_fun size (x : list R) r1 r2 r3 r4 m1 m2 m3 m4 : zlen x = size -> 0 <= size <= INT_MAX -> 1 <= r1 < r2 -> r2 < r3 < r4 -> r4 < size ->
  1 <= m1 < INT_MAX -> 1 <= m2 < INT_MAX -> 1 <= m3 < INT_MAX -> 1 <= m4 < INT_MAX ->
  @ti_kst RA size [x] [IZR r1; IZR r2; IZR r3; IZR r4; IZR m1; IZR m2; IZR m3; IZR m4] = Ok (OKAY, [kst_list r1 r2 r3 r4 m1 m2 m3 m4 x; ema_list 9 (kst_list r1 r2 r3 r4 m1 m2 m3 m4 x)]).
Proof.
  intros Hx Hs H12 H34 H4 M1 M2 M3 M4. unfold ti_kst, ti_kst_start. rewrite !cast_IZR by zl. cbn [bind]. replace (negb _) with false by lia. cbn [existsb]. rewrite !flt_IZR_1 by lia. cbn [orb].
  rewrite !ck_ok by zl. cbn [bind]. rewrite !kst_ROC_R by lia. cbn [bind]. rewrite ?ck_ok by zl. cbn [bind]. rewrite !kst_warm_R by lia. cbn [bind].
  set (K := kst_at r1 r2 r3 r4 m1 m2 m3 m4 x). set (kl := kst_list r1 r2 r3 r4 m1 m2 m3 m4 x). assert (Lk : zlen kl = size - r4) by (unfold kl, kst_list; rewrite zlen_tab; lia).
  assert (Zk : forall i, r4 <= i < size -> K i = zr kl (i - r4)) by (intros i Hi; unfold kl, kst_list; rewrite zr_tab by lia; replace (i - r4 + r4) with i by lia; reflexivity).
  match goal with |- (let* _ := for_ (r4 + 1) size ?F ?s in _) = _ => assert (E : for_ (r4 + 1) size F s = Ok (roc_ema r1 m1 x (size - 1), roc_ema r2 m2 x (size - 1), roc_ema r3 m3 x (size - 1), roc_ema r4 m4 x (size - 1),
     emaR 9 kl (size - 1 - r4), tab 0 (size - r4) (fun k => K (k + r4)), tab 0 (size - r4) (fun k => emaR 9 kl k))) end.
  { match goal with |- for_ (r4 + 1) size ?F ?s = _ => apply (zind (fun n => n <= size -> for_ (r4 + 1) n F s = Ok (roc_ema r1 m1 x (n - 1), roc_ema r2 m2 x (n - 1), roc_ema r3 m3 x (n - 1), roc_ema r4 m4 x (n - 1),
     emaR 9 kl (n - 1 - r4), tab 0 (n - r4) (fun k => K (k + r4)), tab 0 (n - r4) (fun k => emaR 9 kl k))) (r4 + 1) size ltac:(lia)); [| |lia] end.
    - intros _. rewrite for_nil by lia. replace (r4 + 1 - 1) with r4 by lia. replace (r4 + 1 - r4) with (0 + 1) by lia. replace (r4 - r4) with 0 by lia. rewrite !(tab_snoc 0 0), !tab_nil by lia. cbn [app]. rewrite emaR_0. rewrite Z.add_0_l. assert (EK : zr kl 0 = K r4) by (rewrite Zk by lia; f_equal; lia). rewrite EK. reflexivity.
    - intros i Hi IH Hle. rewrite for_snoc by lia. rewrite IH by lia. cbn [bind]. clear IH. rewrite !kst_ROC_R by lia. cbn [bind]. rewrite !roc_ema_S by lia. cbv zeta. replace (i + 1 - 1) with i by lia. replace (i + 1 - r4) with (i - r4 + 1) by lia. rewrite !(tab_snoc 0 (i - r4)) by lia.
      replace (i - r4 + r4) with i by lia. rewrite (emaR_S' 9 kl (i - r4)) by lia. rewrite <- Zk by lia. replace (i - 1 - r4) with (i - r4 - 1) by lia.
      change (@fdiv RA (@fadd RA (@fadd RA (@fadd RA (@fmul RA (roc_ema r1 m1 x i) (@of_Z RA 1)) (@fmul RA (roc_ema r2 m2 x i) (@of_Z RA 2))) (@fmul RA (roc_ema r3 m3 x i) (@of_Z RA 3))) (@fmul RA (roc_ema r4 m4 x i) (@of_Z RA 4))) (@of_Z RA 10)) with (K i). reflexivity. }
  match goal with |- (let* _ := ?t in _) = Ok ?v => match type of E with _ = ?w => replace t with w by (symmetry; exact E) end end. cbn [bind]. change (@T RA) with R. rewrite zlen_tab. replace (Z.max 0 (size - r4 - 0) =? size - r4) with true by lia. cbn [check bind].
  do 2 f_equal. f_equal; [unfold kl, kst_list; rewrite Hx; reflexivity|]. unfold ema_list. rewrite Lk. reflexivity.
Qed.
Lemma kst_branch_R size (x : list R) r m : zlen x = size -> 0 <= size <= INT_MAX -> 1 <= r <= size -> 1 <= m <= INT_MAX -> (forall i, 0 <= i < size -> zr x i <> 0%R) ->
  @kst_ref_branch RA size x (IZR r) (IZR m) = Ok (size - r, ema_list m (roc_list r x)).
Proof.
  intros Hx Hs Hr Hm Nz. unfold kst_ref_branch, start_p. rewrite cast_IZR by zl. cbn [bind]. rewrite ck_ok by zl. cbn [bind].
  rewrite (@roc_fun RA RA_laws size x _ r) by (assumption || lia || (apply (@to_int_of_Z RA RA_laws); zl)). cbn [bind one_out].
  match goal with |- (let* _ := @ti_ema RA _ [?t] _ in _) = _ => replace t with (roc_list r x) end.
  2: { unfold roc_list. rewrite Hx. apply tab_ext. intros k Hk. change (@zf RA x k) with (zr x k). rewrite (proj2 (truth_R _)) by (apply Nz; lia). reflexivity. }
  rewrite (ema_list_fun (size - r) (roc_list r x) _ m); [reflexivity|unfold roc_list; rewrite zlen_tab; lia|lia|apply (@to_int_of_Z RA RA_laws); zl|lia].
Qed.
Lemma kst_ref_fun size (x : list R) r1 r2 r3 r4 m1 m2 m3 m4 : zlen x = size -> 0 <= size <= INT_MAX -> 1 <= r1 < r2 -> r2 < r3 < r4 -> r4 < size ->
  1 <= m1 < INT_MAX -> 1 <= m2 < INT_MAX -> 1 <= m3 < INT_MAX -> 1 <= m4 < INT_MAX -> (forall i, 0 <= i < size -> zr x i <> 0%R) ->
  @ti_kst_ref RA size [x] [IZR r1; IZR r2; IZR r3; IZR r4; IZR m1; IZR m2; IZR m3; IZR m4] = Ok (OKAY, [kst_list r1 r2 r3 r4 m1 m2 m3 m4 x; ema_list 9 (kst_list r1 r2 r3 r4 m1 m2 m3 m4 x)]).
Proof.
  intros Hx Hs H12 H34 H4 M1 M2 M3 M4 Nz. unfold ti_kst_ref, ti_kst_start. assert (LT : forall a b, a < b -> @flt RA (IZR a) (IZR b) = true) by (intros a b Hab; cbn; destruct (Rltb_spec (IZR a) (IZR b)) as [|C]; [reflexivity|exfalso; apply C, IZR_lt, Hab]).
  rewrite !LT by lia. cbn [andb negb existsb]. rewrite !flt_IZR_1 by lia. cbn [orb]. rewrite !kst_branch_R by (assumption || lia). cbn [bind].
  replace (Z.min (Z.min (Z.min (size - r1) (size - r2)) (size - r3)) (size - r4)) with (size - r4) by lia.
  assert (Ll : forall r m, r <= size -> zlen (ema_list m (roc_list r x)) = size - r) by (intros r m Hr; rewrite ema_list_len; unfold roc_list; rewrite zlen_tab; lia).
  assert (Lr : forall r, r <= size -> zlen (roc_list r x) = size - r) by (intros r Hr; unfold roc_list; rewrite zlen_tab; lia).
  rewrite (@for_tab RA 0 (size - r4) _ (fun k => kst_at r1 r2 r3 r4 m1 m2 m3 m4 x (k + r4))).
  2: { intros i o Hi. rewrite !rdr by (rewrite Ll by lia; lia). cbn [bind]. rewrite !zr_ema by (rewrite Lr by lia; lia). rewrite Z.sub_0_r. do 3 f_equal. unfold kst_at, roc_ema. toR. replace (i + (size - r1 - (size - r4))) with (i + r4 - r1) by lia. replace (i + (size - r2 - (size - r4))) with (i + r4 - r2) by lia. replace (i + (size - r3 - (size - r4))) with (i + r4 - r3) by lia. replace (i + (size - r4 - (size - r4))) with (i + r4 - r4) by lia. reflexivity. }
  cbn [bind]. rewrite Z.sub_0_r. match goal with |- (let* _ := @ti_ema RA _ [?t] _ in _) = _ => replace t with (kst_list r1 r2 r3 r4 m1 m2 m3 m4 x) by (unfold kst_list; rewrite Hx; reflexivity) end.
  assert (Lk : zlen (kst_list r1 r2 r3 r4 m1 m2 m3 m4 x) = size - r4) by (unfold kst_list; rewrite zlen_tab; lia).
  rewrite (ema_list_fun (size - r4) _ _ 9); [|exact Lk|lia|apply (@to_int_of_Z RA RA_laws 9); zl|lia]. cbn [bind one_out]. rewrite cast_IZR by zl. cbn [bind]. change (@T RA) with R. rewrite Lk. rewrite Z.eqb_refl. reflexivity.
Qed.
End R.

(** Ranges in binary64: rmi, willr, bop, tr, atr, ema. *)
From Verif Require Import F64Laws StreamOut M_basic M_osc M_stream3 M_stream4 M_window Spec Fun_any Fun_range Fun_tr Fun_window Tactics.
From Coq Require Import Floats.SpecFloat ZifyBool Reals Lra.
From Flocq Require Import Core.Core Relative Plus_error IEEE754.BinarySingleNaN.
From Verif Require Import F64Range Fun_64.
Open Scope Z_scope.
#[local] Existing Instance Hprec.
#[local] Existing Instance Hmax.

(** ** One step of an exponential average lies between the old value and the input *)
Notation fmt := (generic_format radix2 fexp64).
Lemma rnd_err t : exists e n, (Rabs e <= bpow radix2 (-53))%R /\ (Rabs n <= bpow radix2 (-1075))%R /\ rnd t = (t * (1 + e) + n)%R.
Proof.
  destruct (error_N_FLT radix2 (-1074) 53 ltac:(lia) (fun x => negb (Z.even x)) t) as (e & n & He & Hn & _ & E). exists e, n.
  split; [|split; [|exact E]].
  - eapply Rle_trans; [exact He|]. change (bpow radix2 (- (53) + 1)) with (bpow radix2 (-53 + 1)). rewrite bpow_plus. change (bpow radix2 1) with 2%R. lra.
  - eapply Rle_trans; [exact Hn|]. change (-1074) with (-1075 + 1). rewrite bpow_plus. change (bpow radix2 1) with 2%R. lra.
Qed.
Lemma rnd_fmt x : fmt x -> rnd x = x. Proof. intros H. apply round_generic; [exact _|exact H]. Qed.
Lemma rnd_0 : rnd 0 = 0%R. Proof. apply round_0. exact _. Qed.
Lemma rnd_le_fmt b t : fmt b -> (t <= b)%R -> (rnd t <= b)%R.
Proof. intros Fb H. rewrite <- (rnd_fmt b Fb). apply rnd_mono, H. Qed.
Lemma step_up v x k : fmt v -> fmt x -> (0 < k <= 3 / 4)%R -> (rnd (rnd (rnd (x - v) * k) + v) <= Rmax x v)%R.
Proof.
  intros Fv Fx Hk. destruct (Rle_lt_dec x v) as [L|L].
  - assert (D : (rnd (x - v) <= 0)%R) by (rewrite <- rnd_0; apply rnd_mono; lra).
    assert (M : (rnd (rnd (x - v) * k) <= 0)%R) by (apply rnd_le_fmt; [apply generic_format_0|nra]).
    apply Rle_trans with v; [|apply Rmax_r]. apply rnd_le_fmt; [exact Fv|lra].
  - apply Rle_trans with x; [|apply Rmax_l].
    assert (M : (rnd (rnd (x - v) * k) <= x - v)%R); [|apply rnd_le_fmt; [exact Fx|lra]].
    destruct (Rle_lt_dec (x - v) (bpow radix2 (53 + -1074))) as [S|S].
    + assert (Ft : fmt (x - v)).
      { apply (FLT_format_plus_small radix2 (-1074) 53 x (- v)); [exact Fx|apply generic_format_opp, Fv|]. rewrite Rabs_pos_eq by lra. exact S. }
      rewrite (rnd_fmt (x - v) Ft). apply rnd_le_fmt; [exact Ft|nra].
    + set (t := (x - v)%R) in *. assert (Ht : (0 < t)%R) by (unfold t; lra).
      destruct (rnd_err t) as (e1 & n1 & He1 & Hn1 & E1). destruct (rnd_err (rnd t * k)) as (e2 & n2 & He2 & Hn2 & E2).
      assert (B : (bpow radix2 (-1075) <= t * (1 / 1024))%R).
      { change (-1075) with (53 + -1074 + -54). rewrite (bpow_plus radix2 (53 + -1074)). apply Rmult_le_compat; try apply bpow_ge_0; [lra|].
        apply Rle_trans with (bpow radix2 (-10)); [apply bpow_le; lia|]. change (bpow radix2 (-10)) with (/ 1024)%R. lra. }
      assert (Q : (bpow radix2 (-53) <= 1 / 1024)%R).
      { apply Rle_trans with (bpow radix2 (-10)); [apply bpow_le; lia|]. change (bpow radix2 (-10)) with (/ 1024)%R. lra. }
      apply Rabs_le_inv in He1, Hn1, He2, Hn2.
      assert (D0 : (0 <= rnd t)%R) by (rewrite <- rnd_0; apply rnd_mono; lra).
      assert (D : (rnd t <= t * (1 + 1 / 512))%R) by (rewrite E1; nra).
      assert (DK : (0 <= rnd t * k <= t * (1 + 1 / 512) * (3 / 4))%R) by (split; [nra|apply Rmult_le_compat; lra]).
      rewrite E2. nra.
Qed.
Lemma step_down v x k : fmt v -> fmt x -> (0 < k <= 3 / 4)%R -> (Rmin x v <= rnd (rnd (rnd (x - v) * k) + v))%R.
Proof.
  intros Fv Fx Hk. pose proof (step_up (- v) (- x) k (generic_format_opp _ _ _ Fv) (generic_format_opp _ _ _ Fx) Hk) as H.
  replace (- x - - v)%R with (- (x - v))%R in H by lra. rewrite rnd_opp in H.
  replace (- rnd (x - v) * k)%R with (- (rnd (x - v) * k))%R in H by lra. rewrite rnd_opp in H.
  replace (- rnd (rnd (x - v) * k) + - v)%R with (- (rnd (rnd (x - v) * k) + v))%R in H by lra. rewrite rnd_opp in H.
  unfold Rmax, Rmin in *. repeat destruct Rle_dec; lra.
Qed.

Lemma rounds_rnd z r : rounds z r -> (- Bnd < rnd r < Bnd)%R -> fin z /\ ev z = rnd r.
Proof.
  intros [N E] H. assert (E2 : ev z = rnd r) by (rewrite E; unfold rd64; apply clamp_id; lra). split; [|exact E2]. apply lt_fin; [exact N|lra].
Qed.
(** 2^1022, about 4.49e307 *)
Definition top64 : spec_float := S754_finite false 4503599627370496 970.
Lemma top_ev : fin top64 /\ ev top64 = bpow radix2 1022.
Proof.
  split; [split; [reflexivity|exact I]|]. unfold top64, ev, SF2R, F2R. cbn [Fnum Fexp cond_Zopp].
  change (IZR (Z.pos 4503599627370496)) with (bpow radix2 52). rewrite <- bpow_plus. reflexivity.
Qed.
Lemma ntop_ev : fin (SFopp top64) /\ ev (SFopp top64) = (- bpow radix2 1022)%R.
Proof.
  split; [split; [reflexivity|exact I]|]. unfold top64, SFopp, ev, SF2R, F2R. cbn [Fnum Fexp cond_Zopp negb].
  change (IZR (- Z.pos 4503599627370496)) with (- (bpow radix2 52))%R. rewrite Ropp_mult_distr_l_reverse, <- bpow_plus. reflexivity.
Qed.
Lemma bpow_S e : bpow radix2 (e + 1) = (2 * bpow radix2 e)%R.
Proof. rewrite bpow_plus. change (bpow radix2 1) with 2%R. lra. Qed.
Lemma rnd_abs_le t e : -1000 <= e <= 1023 -> (- bpow radix2 e <= t <= bpow radix2 e)%R -> (- bpow radix2 e <= rnd t <= bpow radix2 e)%R.
Proof.
  intros He H. assert (Fe : fmt (bpow radix2 e)) by (apply generic_format_bpow; unfold SpecFloat.fexp, SpecFloat.emin, prec64, emax64; lia).
  split; [|apply rnd_le_fmt; [exact Fe|lra]]. apply Ropp_le_cancel. rewrite Ropp_involutive, <- rnd_opp. apply rnd_le_fmt; [exact Fe|lra].
Qed.
Lemma ema_step_64 v x k : fin v -> fin x -> fin k -> (0 < ev k <= 3 / 4)%R ->
  (- bpow radix2 1022 <= ev v <= bpow radix2 1022)%R -> (- bpow radix2 1022 <= ev x <= bpow radix2 1022)%R ->
  let w := SFadd prec64 emax64 (SFmul prec64 emax64 (SFsub prec64 emax64 x v) k) v in
  fin w /\ (Rmin (ev x) (ev v) <= ev w <= Rmax (ev x) (ev v))%R.
Proof.
  intros Fv Fx Fk Hk Bv Bx. cbv zeta.
  assert (T : bpow radix2 1023 = (2 * bpow radix2 1022)%R) by apply (bpow_S 1022).
  pose proof (bpow_gt_0 radix2 1022) as P. pose proof (bpow_Bnd 1023 ltac:(lia)) as L.
  pose proof (rnd_abs_le (ev x - ev v) 1023 ltac:(lia) ltac:(lra)) as R1.
  destruct (rounds_rnd _ _ (sub_rounds x v Fx Fv) ltac:(lra)) as [Fd Ed].
  set (d := SFsub _ _ x v) in *.
  pose proof (rnd_abs_le (ev d * ev k) 1023 ltac:(lia) ltac:(nra)) as R2.
  destruct (rounds_rnd _ _ (mul_rounds d k Fd Fk) ltac:(lra)) as [Fm Em].
  set (m := SFmul _ _ d k) in *. rewrite Ed in Em.
  pose proof (step_up (ev v) (ev x) (ev k) (fin_format v Fv) (fin_format x Fx) Hk) as U.
  pose proof (step_down (ev v) (ev x) (ev k) (fin_format v Fv) (fin_format x Fx) Hk) as D.
  rewrite <- Em in U, D.
  destruct (rounds_rnd _ _ (add_rounds m v Fm Fv)) as [Fw Ew]; [unfold Rmax, Rmin in *; repeat destruct Rle_dec; lra|].
  split; [exact Fw|]. rewrite Ew. split; assumption.
Qed.
Lemma x34 : let q := S754_finite false 6755399441055744 (-53) in fin q /\ ev q = (3 / 4)%R.
Proof.
  split; [split; [reflexivity|exact I]|]. unfold ev, SF2R, F2R. cbn [Fnum Fexp cond_Zopp]. change (bpow radix2 (-53)) with (/ 9007199254740992)%R. lra.
Qed.
(** 2/(period + 1) for periods from 2 up *)
Lemma per_ema_64 p : 2 <= p <= INT_MAX ->
  let k := SFdiv prec64 emax64 (f64_of_Z 2) (SFadd prec64 emax64 (f64_of_Z p) (f64_of_Z 1)) in fin k /\ (0 < ev k <= 3 / 4)%R.
Proof.
  intros Hp. cbv zeta. rewrite f64_add by (unfold BIG, INT_MAX in *; lia).
  destruct (fin_of_Z 2 ltac:(unfold BIG; lia)) as [F2' E2]. destruct (fin_of_Z (p + 1) ltac:(unfold BIG, INT_MAX in *; lia)) as [Fq Eq].
  assert (Q : (3 <= IZR (p + 1) <= bpow radix2 31)%R) by (change (bpow radix2 31) with (IZR 2147483648); split; apply IZR_le; unfold INT_MAX in *; lia).
  destruct (div_rounds _ _ F2' Fq ltac:(lra)) as [N E]. rewrite E2, Eq in E. set (k := SFdiv _ _ _ _) in *. destruct x34 as [F34 E34]. cbv zeta in F34, E34.
  assert (I1 : (/ bpow radix2 31 <= / IZR (p + 1))%R) by (apply Rinv_le; lra). assert (I2 : (/ IZR (p + 1) <= / 3)%R) by (apply Rinv_le; lra).
  assert (K : (0 < ev k <= 3 / 4)%R).
  { rewrite E. split.
    - apply Rlt_le_trans with (bpow radix2 (-31)); [apply bpow_gt_0|]. rewrite <- (rd64_bpow (-31)) by lia. apply rd64_mono.
      change (-31) with (Z.opp 31). rewrite bpow_opp. unfold Rdiv. pose proof (bpow_gt_0 radix2 (- (31))) as P. rewrite bpow_opp in P. lra.
    - rewrite <- E34. apply rd64_le; [exact F34|]. rewrite E34. lra. }
  split; [|exact K]. apply lt_fin; [exact N|]. pose proof Bnd_pos. pose proof big_Bnd. assert (1 <= IZR BIG)%R by (apply (IZR_le 1); unfold BIG; lia). lra.
Qed.

Section F.
Variable lm : libm1 -> spec_float -> spec_float.
Variable pw : spec_float -> spec_float -> spec_float.
Notation F := (F64 lm pw).
#[local] Existing Instance F64_laws.

Lemma Forall_tab {B} (P : B -> Prop) lo hi f : (forall i, lo <= i < hi -> P (f i)) -> Forall P (tab lo hi f).
Proof.
  intros H. apply Forall_forall. intros v Hv. unfold tab in Hv. apply in_map_iff in Hv.
  destruct Hv as (j & <- & Hj). apply in_seq in Hj. apply H. lia.
Qed.
Lemma zf_at (x : list spec_float) i (P : spec_float -> Prop) : Forall P x -> 0 <= i < zlen x -> P (@zf F x i).
Proof.
  intros H Hi. pose proof (@rd_zf F x i Hi) as E. exact (pp_rdP P x i H _ E).
Qed.
Lemma ema_64 size x o p lo hi : zlen x = size -> 0 <= size <= INT_MAX -> @to_int F o = Some p -> 2 <= p ->
  Forall is_double x -> is_double lo -> is_double hi -> SFleb (SFopp top64) lo = true -> SFleb hi top64 = true ->
  Forall (fun v => SFleb lo v = true /\ SFleb v hi = true) x ->
  exists out, @ti_ema F size [x] [o] = Ok (OKAY, [out]) /\ zlen out = size /\ Forall (fun v => SFleb lo v = true /\ SFleb v hi = true) out.
Proof.
  intros Hl Hs Ho Hp Dx Dl Dh Bl Bh Hx. pose proof (@to_int_range F _ _ _ Ho) as Hr.
  eexists. split; [apply (@ema_fun F _ size x o p); try assumption; lia|]. rewrite zlen_tab. split; [lia|].
  destruct (ntop_ev) as [Fnt Ent], top_ev as [Ft Et].
  apply (le_num (SFopp top64) lo (proj1 Fnt) Dl) in Bl as (_ & Nl & Bl). apply (le_num hi top64 Dh (proj1 Ft)) in Bh as (Nh & _ & Bh). rewrite Ent in Bl. rewrite Et in Bh.
  pose proof (bpow_Bnd 1022 ltac:(lia)) as LB. pose proof (bpow_gt_0 radix2 1022) as PB.
  assert (G : forall i, 0 <= i < size -> fin (@zf F x i) /\ (ev lo <= ev (@zf F x i) <= ev hi)%R).
  { intros i Hi. pose proof (zf_at x i _ Dx ltac:(lia)) as D. destruct (zf_at x i _ Hx ltac:(lia)) as [A B]. cbv beta in A, B.
    apply (le_num _ _ Dl D) in A as (_ & N & A). apply (le_num _ _ D Dh) in B as (_ & _ & B). split; [apply lt_fin; [exact N|lra]|lra]. }
  destruct (per_ema_64 p ltac:(lia)) as [Fk Hk].
  apply Forall_tab. intros k Hk2.
  match goal with |- context[trec ?st 1 (k + 1) _] => assert (K : fin (trec st 1 (k + 1) (@zf F x 0)) /\ (ev lo <= ev (trec st 1 (k + 1) (@zf F x 0)) <= ev hi)%R) end.
  { apply trec_inv; [apply G; lia|]. intros i v Hi [Fv Bv]. destruct (G i ltac:(lia)) as [Fx Bx].
    destruct (ema_step_64 v (@zf F x i) _ Fv Fx Fk Hk ltac:(lra) ltac:(lra)) as [Fw Bw]. split; [exact Fw|].
    change (@fadd F (@fmul F (@fsub F (@zf F x i) v) _) v) with (SFadd prec64 emax64 (SFmul prec64 emax64 (SFsub prec64 emax64 (@zf F x i) v) (SFdiv prec64 emax64 (f64_of_Z 2) (SFadd prec64 emax64 (f64_of_Z p) (f64_of_Z 1)))) v).
    unfold Rmin, Rmax in Bw. repeat destruct Rle_dec; lra. }
  destruct K as [Fw Bw]. split; apply le_ev; try assumption; try (apply fin_num; exact Fw); apply Bw.
Qed.

(** bop *)
Lemma bop_64 size o h l c : zlen o = size -> zlen h = size -> zlen l = size -> zlen c = size -> 0 <= size <= INT_MAX ->
  Forall is_double o -> Forall is_double h -> Forall is_double l -> Forall is_double c ->
  (forall j, 0 <= j < size -> SFleb (@zf F l j) (@zf F o j) = true /\ SFleb (@zf F o j) (@zf F h j) = true /\ SFleb (@zf F l j) (@zf F c j) = true /\ SFleb (@zf F c j) (@zf F h j) = true) ->
  exists out, @ti_bop F size [o; h; l; c] [] = Ok (OKAY, [out]) /\ zlen out = size /\ Forall (in64 (-1) 1) out.
Proof.
  intros Ho Hh Hl Hc Hs Do Dh Dl Dc HB. eexists. split; [apply (@bop_fun F size o h l c); assumption|]. rewrite zlen_tab. split; [lia|].
  apply Forall_tab. intros i Hi. destruct (HB i ltac:(lia)) as (A & B & C & D).
  pose proof (zf_at o i _ Do ltac:(lia)) as Zo. pose proof (zf_at h i _ Dh ltac:(lia)) as Zh. pose proof (zf_at l i _ Dl ltac:(lia)) as Zl. pose proof (zf_at c i _ Dc ltac:(lia)) as Zc.
  apply (le_num _ _ Zl Zo) in A as (Nl & No & A). apply (le_num _ _ Zo Zh) in B as (_ & Nh & B). apply (le_num _ _ Zl Zc) in C as (_ & Nc & C). apply (le_num _ _ Zc Zh) in D as (_ & _ & D).
  destruct (_ .<= _); [apply zero_in64; unfold BIG; lia|]. apply body_in64; try assumption; lra.
Qed.

(** tr, atr *)
Lemma abs_nn x : is_double x -> nn (SFabs x).
Proof.
  intros D. destruct (double_cases x D) as [->|N]; [apply nn_nan|]. destruct (abs_ev x N) as [N2 E]. apply nn_num; [exact N2|]. rewrite E. apply Rabs_pos.
Qed.
Lemma tr_nn h l c : is_double h -> is_double l -> is_double c -> SFleb l h = true -> nn (@atr_tr F h l c).
Proof.
  intros Dh Dl Dc H. apply (le_num l h Dl Dh) in H as (Nl & Nh & H). pose proof (sub_nn h l Nh Nl H) as V.
  pose proof (abs_nn _ (sub_double h c Dh Dc)) as A. pose proof (abs_nn _ (sub_double l c Dl Dc)) as B.
  unfold atr_tr. cbv zeta. repeat match goal with |- context[if ?t then _ else _] => destruct t end; assumption.
Qed.
Lemma tr_at_nn size h l c i : zlen h = size -> zlen l = size -> zlen c = size -> Forall is_double h -> Forall is_double l -> Forall is_double c ->
  (forall j, 0 <= j < size -> SFleb (@zf F l j) (@zf F h j) = true) -> 0 <= i < size -> nn (@tr_at F h l c i).
Proof.
  intros Hh Hl Hc Dh Dl Dc HB Hi. unfold tr_at. pose proof (HB i Hi) as B. pose proof (HB 0 ltac:(lia)) as B0.
  destruct (i =? 0) eqn:E.
  - assert (i = 0) by lia. subst i. pose proof (zf_at h 0 _ Dh ltac:(lia)) as Zh. pose proof (zf_at l 0 _ Dl ltac:(lia)) as Zl.
    apply (le_num _ _ Zl Zh) in B0 as (Nl & Nh & B0). apply sub_nn; assumption.
  - apply tr_nn; [apply (zf_at h i _ Dh)|apply (zf_at l i _ Dl)|apply (zf_at c (i - 1) _ Dc)|exact B]; lia.
Qed.
Lemma atr_64 size h l c o p : zlen h = size -> zlen l = size -> zlen c = size -> 0 <= size <= INT_MAX ->
  @to_int F o = Some p -> 1 <= p -> Forall is_double h -> Forall is_double l -> Forall is_double c ->
  (forall j, 0 <= j < size -> SFleb (@zf F l j) (@zf F h j) = true) ->
  exists out, @ti_atr F size [h; l; c] [o] = Ok (OKAY, [out]) /\ zlen out = Z.max 0 (size - p + 1) /\ Forall nn out.
Proof.
  intros Hh Hl Hc Hs Ho Hp Dh Dl Dc HB. pose proof (@to_int_range F _ _ _ Ho) as Hr.
  eexists. split; [apply (@atr_fun F _ size h l c o p); assumption|]. rewrite zlen_tab. split; [lia|].
  apply Forall_tab. intros k Hk. destruct (inv_fin p ltac:(lia)) as [Fk Bk].
  assert (G : forall i, 0 <= i < size -> nn (@tr_at F h l c i)) by (intros; apply (tr_at_nn size); assumption).
  unfold wild. apply trec_inv.
  - apply (div_nn _ p ltac:(lia)). apply trec_inv; [apply nn_0|]. intros i s Hi Hs1. apply add_nn; [exact Hs1|]. apply G. lia.
  - intros i v Hi Hv. apply (step_nn _ _ _ (G i ltac:(lia)) Hv Fk Bk).
Qed.
Lemma tr_64 size h l c : zlen h = size -> zlen l = size -> zlen c = size -> 0 <= size <= INT_MAX ->
  Forall is_double h -> Forall is_double l -> Forall is_double c ->
  (forall j, 0 <= j < size -> SFleb (@zf F l j) (@zf F h j) = true) ->
  exists out, @ti_tr F size [h; l; c] [] = Ok (OKAY, [out]) /\ zlen out = size /\ Forall nn out.
Proof.
  intros Hh Hl Hc Hs Dh Dl Dc HB. eexists. split; [apply (@tr_fun F size h l c); assumption|]. rewrite zlen_tab. split; [lia|].
  apply Forall_tab. intros i Hi. exact (tr_at_nn size h l c i Hh Hl Hc Dh Dl Dc HB ltac:(lia)).
Qed.
End F.

(** C52: which of the documented ranges survive binary64 rounding, overflow and NaN.

    Reading guide.  [F64 lm pw] is the model in the doubles of IEEE 754 (F64.v), for any math library [lm], [pw].
    [is_double v] says [v] is one of the 2^64 doubles up to NaN payloads, [in64 lo hi v] that it is a double that
    is either NaN or between the integers [lo] and [hi] (F64Range.v).  [SFleb] is the comparison <= on doubles,
    false on NaN.  The theorems about rsi, stochrsi, rmi, dx, dm and adx put no condition on the series: infinities, NaN,
    subnormals and overflowing differences are all allowed. *)
From Coq Require Import Floats.SpecFloat.
From Verif Require Import F64Laws M_basic M_osc M_window M_stream1 M_stream2 M_stream4 Spec Tactics.
From Verif Require Import F64Range Fun_64 Fun_64b Fun_64c.
Open Scope Z_scope.

(** NaN or not below zero *)
Definition nonneg64 (v : spec_float) : Prop := is_double v /\ (v = S754_nan \/ SFleb (f64_of_Z 0) v = true).
Definition between64 (lo hi v : spec_float) : Prop := SFleb lo v = true /\ SFleb v hi = true.
Lemma nn_all l : Forall nn l -> Forall nonneg64 l. Proof. apply Forall_impl. intros v. apply nn_in64. Qed.
Lemma nn_all2 l : Forall (Forall nn) l -> Forall (Forall nonneg64) l. Proof. apply Forall_impl. intros v. apply nn_all. Qed.

(** ** Oscillators over any series of doubles *)
Theorem C52_rsi : forall lm pw size (x : list spec_float) o c outs, Forall is_double x ->
  @ti_rsi (F64 lm pw) size [x] [o] = Ok (c, outs) -> Forall (Forall (in64 0 100)) outs.
Proof. intros lm pw size x o c outs Hx E. exact (rsi_64 lm pw size x o Hx _ E). Qed.
Print Assumptions C52_rsi.
Theorem C52_stochrsi : forall lm pw size (x : list spec_float) o c outs, Forall is_double x ->
  @ti_stochrsi (F64 lm pw) size [x] [o] = Ok (c, outs) -> Forall (Forall (in64 0 1)) outs.
Proof. intros lm pw size x o c outs Hx E. exact (stochrsi_64 lm pw size x o Hx _ E). Qed.
Print Assumptions C52_stochrsi.
Theorem C52_rmi : forall lm pw size (x : list spec_float) p o c outs, Forall is_double x -> is_double p -> 0 <= size ->
  @ti_rmi (F64 lm pw) size [x] [p; o] = Ok (c, outs) -> Forall (Forall (in64 0 100)) outs.
Proof. intros lm pw size x p o c outs Hx Hp Hs E. exact (rmi_64 lm pw size x p o Hx Hp Hs _ E). Qed.
Print Assumptions C52_rmi.
Theorem C52_dx : forall lm pw size (h l : list spec_float) o c outs, Forall is_double h -> Forall is_double l ->
  @ti_dx (F64 lm pw) size [h; l] [o] = Ok (c, outs) -> Forall (Forall (in64 0 100)) outs.
Proof. intros lm pw size h l o c outs Hh Hl E. exact (dx_64 lm pw size h l o Hh Hl _ E). Qed.
Print Assumptions C52_dx.
Theorem C52_dm : forall lm pw size (h l : list spec_float) o c outs, Forall is_double h -> Forall is_double l ->
  @ti_dm (F64 lm pw) size [h; l] [o] = Ok (c, outs) -> Forall (Forall nonneg64) outs.
Proof. intros lm pw size h l o c outs Hh Hl E. apply nn_all2. exact (dm_64 lm pw size h l o Hh Hl _ E). Qed.
Print Assumptions C52_dm.
(** adx is not negative; the upper limit 100 does not survive rounding (C52_adx_refuted). *)
Theorem C52_adx_nonneg : forall lm pw size (h l : list spec_float) o c outs, Forall is_double h -> Forall is_double l ->
  @ti_adx (F64 lm pw) size [h; l] [o] = Ok (c, outs) -> Forall (Forall nonneg64) outs.
Proof. intros lm pw size h l o c outs Hh Hl E. apply nn_all2. exact (adx_64 lm pw size h l o Hh Hl _ E). Qed.
Print Assumptions C52_adx_nonneg.

(** ** Indicators of ordered bars *)
Theorem C52_willr : forall lm pw size (h l c : list spec_float) o p, let A := F64 lm pw in
  zlen h = size -> zlen l = size -> zlen c = size -> 0 <= size <= INT_MAX -> @to_int A o = Some p -> 1 <= p ->
  Forall is_double h -> Forall is_double l -> Forall is_double c ->
  (forall j, 0 <= j < size -> between64 (@zf A l j) (@zf A h j) (@zf A c j)) ->
  exists out, @ti_willr A size [h; l; c] [o] = Ok (OKAY, [out]) /\ zlen out = Z.max 0 (size - p + 1) /\ Forall (in64 (-100) 0) out.
Proof. intros lm pw size h l c o p A. apply (willr_64 lm pw). Qed.
Print Assumptions C52_willr.
Theorem C52_bop : forall lm pw size (o h l c : list spec_float), let A := F64 lm pw in
  zlen o = size -> zlen h = size -> zlen l = size -> zlen c = size -> 0 <= size <= INT_MAX ->
  Forall is_double o -> Forall is_double h -> Forall is_double l -> Forall is_double c ->
  (forall j, 0 <= j < size -> between64 (@zf A l j) (@zf A h j) (@zf A o j) /\ between64 (@zf A l j) (@zf A h j) (@zf A c j)) ->
  exists out, @ti_bop A size [o; h; l; c] [] = Ok (OKAY, [out]) /\ zlen out = size /\ Forall (in64 (-1) 1) out.
Proof. intros lm pw size o h l c A Ho Hh Hl Hc Hs Do Dh Dl Dc H. apply (bop_64 lm pw); try assumption. intros j Hj. destruct (H j Hj) as [[] []]. auto. Qed.
Print Assumptions C52_bop.
Theorem C52_tr : forall lm pw size (h l c : list spec_float), let A := F64 lm pw in
  zlen h = size -> zlen l = size -> zlen c = size -> 0 <= size <= INT_MAX ->
  Forall is_double h -> Forall is_double l -> Forall is_double c ->
  (forall j, 0 <= j < size -> SFleb (@zf A l j) (@zf A h j) = true) ->
  exists out, @ti_tr A size [h; l; c] [] = Ok (OKAY, [out]) /\ zlen out = size /\ Forall nonneg64 out.
Proof. intros lm pw size h l c A Hh Hl Hc Hs Dh Dl Dc H. destruct (tr_64 lm pw size h l c) as (out & E & Z & G); try assumption. exists out. split; [exact E|split; [exact Z|apply nn_all, G]]. Qed.
Print Assumptions C52_tr.
Theorem C52_atr : forall lm pw size (h l c : list spec_float) o p, let A := F64 lm pw in
  zlen h = size -> zlen l = size -> zlen c = size -> 0 <= size <= INT_MAX -> @to_int A o = Some p -> 1 <= p ->
  Forall is_double h -> Forall is_double l -> Forall is_double c ->
  (forall j, 0 <= j < size -> SFleb (@zf A l j) (@zf A h j) = true) ->
  exists out, @ti_atr A size [h; l; c] [o] = Ok (OKAY, [out]) /\ zlen out = Z.max 0 (size - p + 1) /\ Forall nonneg64 out.
Proof. intros lm pw size h l c o p A Hh Hl Hc Hs Ho Hp Dh Dl Dc H. destruct (atr_64 lm pw size h l c o p) as (out & E & Z & G); try assumption. exists out. split; [exact E|split; [exact Z|apply nn_all, G]]. Qed.
Print Assumptions C52_atr.

(** ** Averages within their data.  [top64] is 2^1022, a quarter of the overflow threshold. *)
Theorem C52_ema : forall lm pw size (x : list spec_float) o p lo hi, let A := F64 lm pw in
  zlen x = size -> 0 <= size <= INT_MAX -> @to_int A o = Some p -> 2 <= p ->
  Forall is_double x -> is_double lo -> is_double hi -> SFleb (SFopp top64) lo = true -> SFleb hi top64 = true ->
  Forall (between64 lo hi) x -> exists out, @ti_ema A size [x] [o] = Ok (OKAY, [out]) /\ zlen out = size /\ Forall (between64 lo hi) out.
Proof. intros lm pw size x o p lo hi A. apply (ema_64 lm pw). Qed.
Print Assumptions C52_ema.
Theorem C52_medprice : forall lm pw size (h l : list spec_float), let A := F64 lm pw in
  zlen h = size -> zlen l = size -> 0 <= size <= INT_MAX -> Forall is_double h -> Forall is_double l ->
  (forall j, 0 <= j < size -> SFleb (SFopp top64) (@zf A l j) = true /\ SFleb (@zf A l j) (@zf A h j) = true /\ SFleb (@zf A h j) top64 = true) ->
  exists out, @ti_medprice A size [h; l] [] = Ok (OKAY, [out]) /\ zlen out = size /\
    forall j, 0 <= j < size -> between64 (@zf A l j) (@zf A h j) (@zf A out j).
Proof. intros lm pw size h l A. apply (medprice_64 lm pw). Qed.
Print Assumptions C52_medprice.

(** ** Cases *)
Definition w1 : list (@T F64c) := [dbl 1 1; dbl 7 1; dbl 3 1; dbl 2 1; dbl 9 1; dbl 9 1].
Lemma w1_double : Forall is_double w1. Proof. vm_compute. repeat constructor. Qed.
(** the outputs are neither empty nor constant *)
Example C52_rsi_case : exists a b c, @ti_rsi F64c 5 [firstn 5 w1] [dbl 2 0] = Ok (OKAY, [[a; b; c]]) /\ Forall (in64 0 100) [a; b; c] /\
  SFltb a (dbl 70 0) = true /\ SFltb b a = true /\ SFltb a c = true.
Proof.
  do 3 eexists. split; [vm_compute; reflexivity|]. split; [|vm_compute; repeat split].
  match goal with |- Forall _ ?l => assert (E : @ti_rsi F64c 5 [firstn 5 w1] [dbl 2 0] = Ok (OKAY, [l])) by (vm_compute; reflexivity) end.
  assert (D : Forall is_double (firstn 5 w1)) by (vm_compute; repeat constructor).
  pose proof (C52_rsi _ _ _ _ _ _ _ D E) as H. inversion H; assumption.
Qed.
(** overflow and infinities: the gains are infinite, rsi answers NaN and stays in the claimed set *)
Example C52_rsi_case2 : let x := [f64_of_Z 0; S754_infinity false; S754_infinity true; f64_of_Z 1] in
  Forall is_double x /\ exists outs, @ti_rsi F64c 4 [x] [dbl 2 0] = Ok (OKAY, outs) /\ Forall (Forall (in64 0 100)) outs /\ outs <> [[]].
Proof.
  assert (D : Forall is_double [f64_of_Z 0; S754_infinity false; S754_infinity true; f64_of_Z 1]) by (vm_compute; repeat constructor).
  split; [exact D|]. eexists. split; [vm_compute; reflexivity|]. split; [|discriminate].
  refine (C52_rsi _ _ 4 _ (dbl 2 0) OKAY _ D _). vm_compute. reflexivity.
Qed.
Example C52_stochrsi_case : exists a b c, @ti_stochrsi F64c 6 [w1] [dbl 2 0] = Ok (OKAY, [[a; b; c]]) /\ Forall (Forall (in64 0 1)) [[a; b; c]] /\ SFltb (dbl 1 1) b = true.
Proof.
  do 3 eexists. split; [vm_compute; reflexivity|]. split; [|vm_compute; reflexivity]. refine (C52_stochrsi _ _ 6 w1 (dbl 2 0) OKAY _ w1_double _). vm_compute. reflexivity.
Qed.
Example C52_rmi_case : exists outs, @ti_rmi F64c 6 [w1] [dbl 25 1; dbl 1 0] = Ok (OKAY, [outs]) /\ Forall (Forall (in64 0 100)) [outs] /\ zlen outs = 5 /\ SFltb (zn (dbl 0 0) outs 3) (zn (dbl 0 0) outs 0) = true.
Proof.
  eexists. split; [vm_compute; reflexivity|]. split; [|vm_compute; split; reflexivity].
  refine (C52_rmi _ _ 6 w1 (dbl 25 1) (dbl 1 0) OKAY _ w1_double _ _ _); [vm_compute; reflexivity|lia|vm_compute; reflexivity].
Qed.
Definition hi1 : list (@T F64c) := [dbl 11 1; dbl 13 1; dbl 12 1; dbl 15 1; dbl 14 1; dbl 19 1].
Definition lo1 : list (@T F64c) := [dbl 9 1; dbl 11 1; dbl 8 1; dbl 13 1; dbl 11 1; dbl 12 1].
Definition cl1 : list (@T F64c) := [dbl 10 1; dbl 12 1; dbl 8 1; dbl 15 1; dbl 12 1; dbl 13 1].
Lemma hi1_double : Forall is_double hi1. Proof. vm_compute. repeat constructor. Qed.
Lemma lo1_double : Forall is_double lo1. Proof. vm_compute. repeat constructor. Qed.
Lemma cl1_double : Forall is_double cl1. Proof. vm_compute. repeat constructor. Qed.
Ltac six j := let E := fresh in assert (E : j = 0 \/ j = 1 \/ j = 2 \/ j = 3 \/ j = 4 \/ j = 5) by lia; destruct E as [->|[->|[->|[->|[->| ->]]]]].
Example C52_direction_case : exists d u v a, @ti_dx F64c 6 [hi1; lo1] [dbl 2 0] = Ok (OKAY, [d]) /\ Forall (Forall (in64 0 100)) [d] /\ zlen d = 5 /\
  @ti_dm F64c 6 [hi1; lo1] [dbl 2 0] = Ok (OKAY, [u; v]) /\ Forall (Forall nonneg64) [u; v] /\
  @ti_adx F64c 6 [hi1; lo1] [dbl 2 0] = Ok (OKAY, [a]) /\ Forall (Forall nonneg64) [a] /\ zlen a = 4.
Proof.
  do 4 eexists. split; [vm_compute; reflexivity|]. split; [refine (C52_dx _ _ 6 hi1 lo1 (dbl 2 0) OKAY _ hi1_double lo1_double _); vm_compute; reflexivity|].
  split; [vm_compute; reflexivity|]. split; [vm_compute; reflexivity|]. split; [refine (C52_dm _ _ 6 hi1 lo1 (dbl 2 0) OKAY _ hi1_double lo1_double _); vm_compute; reflexivity|].
  split; [vm_compute; reflexivity|]. split; [refine (C52_adx_nonneg _ _ 6 hi1 lo1 (dbl 2 0) OKAY _ hi1_double lo1_double _); vm_compute; reflexivity|]. vm_compute. reflexivity.
Qed.
Example C52_bars_case : (forall j, 0 <= j < 6 -> between64 (@zf F64c lo1 j) (@zf F64c hi1 j) (@zf F64c cl1 j)) /\
  exists out, @ti_willr F64c 6 [hi1; lo1; cl1] [dbl 2 0] = Ok (OKAY, [out]) /\ zlen out = 5 /\ Forall (in64 (-100) 0) out.
Proof.
  assert (H : forall j, 0 <= j < 6 -> between64 (@zf F64c lo1 j) (@zf F64c hi1 j) (@zf F64c cl1 j)) by (intros j Hj; six j; vm_compute; split; reflexivity).
  split; [exact H|]. destruct (C52_willr (fun _ _ => S754_nan) (fun _ _ => S754_nan) 6 hi1 lo1 cl1 (dbl 2 0) 2) as (out & E & Z & G);
    [reflexivity..|unfold INT_MAX; lia|vm_compute; reflexivity|lia|exact hi1_double|exact lo1_double|exact cl1_double|exact H|].
  exists out. split; [exact E|split; [exact Z|exact G]].
Qed.
(** the bars of C52_bop, C52_tr, C52_atr and C52_medprice *)
Example C52_bars_case2 : (forall j, 0 <= j < 6 -> between64 (@zf F64c lo1 j) (@zf F64c hi1 j) (@zf F64c hi1 j) /\ between64 (@zf F64c lo1 j) (@zf F64c hi1 j) (@zf F64c cl1 j)) /\
  (forall j, 0 <= j < 6 -> SFleb (SFopp top64) (@zf F64c lo1 j) = true /\ SFleb (@zf F64c lo1 j) (@zf F64c hi1 j) = true /\ SFleb (@zf F64c hi1 j) top64 = true) /\
  exists b t a m, @ti_bop F64c 6 [hi1; hi1; lo1; cl1] [] = Ok (OKAY, [b]) /\ @ti_tr F64c 6 [hi1; lo1; cl1] [] = Ok (OKAY, [t]) /\
    @ti_atr F64c 6 [hi1; lo1; cl1] [dbl 2 0] = Ok (OKAY, [a]) /\ @ti_medprice F64c 6 [hi1; lo1] [] = Ok (OKAY, [m]) /\ @zf F64c m 0 = dbl 1 0.
Proof.
  split; [intros j Hj; six j; vm_compute; repeat split|]. split; [intros j Hj; six j; vm_compute; repeat split|].
  do 4 eexists. repeat (split; [vm_compute; reflexivity|]). vm_compute. reflexivity.
Qed.
Example C52_ema_case : Forall (between64 (dbl 1 1) (dbl 9 1)) w1 /\ exists out, @ti_ema F64c 6 [w1] [dbl 2 0] = Ok (OKAY, [out]) /\ Forall (between64 (dbl 1 1) (dbl 9 1)) out.
Proof.
  assert (B : Forall (between64 (dbl 1 1) (dbl 9 1)) w1) by (repeat constructor; vm_compute; reflexivity). split; [exact B|].
  destruct (C52_ema (fun _ _ => S754_nan) (fun _ _ => S754_nan) 6 w1 (dbl 2 0) 2 (dbl 1 1) (dbl 9 1)) as (out & E & Z & G);
    [reflexivity|unfold INT_MAX; lia|vm_compute; reflexivity|lia|exact w1_double|vm_compute; reflexivity..|exact B|].
  exists out. split; [exact E|exact G].
Qed.

(** ** Ranges of the exact arithmetic that rounding breaks *)
(** period 1: the output 0 lies below both values, 1 and 10^-17 *)
Theorem C52_ema_one_refuted : exists x : list (@T F64c), x = [dbl 1 0; dbl 1 17] /\ Forall (between64 (dbl 1 17) (dbl 1 0)) x /\
  @ti_ema F64c 2 [x] [dbl 1 0] = Ok (OKAY, [[dbl 1 0; dbl 0 0]]) /\ SFltb (dbl 0 0) (dbl 1 17) = true.
Proof. eexists. split; [reflexivity|]. split; [repeat constructor; vm_compute; reflexivity|]. vm_compute. split; reflexivity. Qed.
Print Assumptions C52_ema_one_refuted.
(** the mean of three equal values is not that value *)
Theorem C52_sma_refuted : exists v w : @T F64c, v = dbl 3 1 /\ @ti_sma F64c 3 [[v; v; v]] [dbl 3 0] = Ok (OKAY, [[w]]) /\ SFltb w v = true.
Proof. do 2 eexists. split; [reflexivity|]. split; [vm_compute; reflexivity|]. vm_compute. reflexivity. Qed.
Print Assumptions C52_sma_refuted.
Theorem C52_typprice_refuted : exists v w : @T F64c, v = dbl 3 1 /\ @ti_typprice F64c 1 [[v]; [v]; [v]] [] = Ok (OKAY, [[w]]) /\ SFltb w v = true.
Proof. do 2 eexists. split; [reflexivity|]. split; [vm_compute; reflexivity|]. vm_compute. reflexivity. Qed.
Print Assumptions C52_typprice_refuted.
(** the variance of three equal values is negative *)
Theorem C52_var_refuted : exists v w : @T F64c, v = dbl 13 1 /\ @ti_var F64c 3 [[v; v; v]] [dbl 3 0] = Ok (OKAY, [[w]]) /\ SFltb w (dbl 0 0) = true.
Proof. do 2 eexists. split; [reflexivity|]. split; [vm_compute; reflexivity|]. vm_compute. reflexivity. Qed.
Print Assumptions C52_var_refuted.
(** a falling series: cmo is below -100 and er above 1 *)
Theorem C52_cmo_refuted : exists (x : list (@T F64c)) c e, x = [dbl 100 0; dbl 1 0; dbl 7 1; dbl 1 1] /\
  @ti_cmo F64c 4 [x] [dbl 3 0] = Ok (OKAY, [[c]]) /\ SFltb c (dbl (-100) 0) = true /\
  @ti_er F64c 4 [x] [dbl 3 0] = Ok (OKAY, [[e]]) /\ SFltb (dbl 1 0) e = true.
Proof. do 3 eexists. split; [reflexivity|]. repeat (split; [vm_compute; reflexivity|]). vm_compute. reflexivity. Qed.
Print Assumptions C52_cmo_refuted.
(** a spike that has left the window leaves er with a zero path length: the ratio is infinite *)
Theorem C52_er_infinite_refuted : exists (x : list (@T F64c)) a b, x = [dbl 0 0; f64_of_Z (10 ^ 17); dbl 0 0; dbl 1 0; dbl 1 0] /\
  @ti_er F64c 5 [x] [dbl 2 0] = Ok (OKAY, [[a; b; S754_infinity false]]).
Proof. do 3 eexists. split; [reflexivity|]. vm_compute. reflexivity. Qed.
Print Assumptions C52_er_infinite_refuted.
(** steadily rising bars, period 91: adx is above 100; closes at the high: stoch is above 100 *)
Theorem C52_adx_refuted : exists a b : @T F64c, let bars := map (fun k => f64_of_Z (Z.of_nat k)) (seq 0 182) in
  @ti_adx F64c 182 [bars; bars] [dbl 91 0] = Ok (OKAY, [[a; b]]) /\ SFltb (dbl 100 0) a = true.
Proof. do 2 eexists. cbv zeta. split; [vm_compute; reflexivity|]. vm_compute. reflexivity. Qed.
Print Assumptions C52_adx_refuted.
Theorem C52_stoch_refuted : exists k d : @T F64c, let at_ v := repeat (dbl v 0) 91 in
  @ti_stoch F64c 91 [at_ 1; at_ 0; at_ 1] [dbl 1 0; dbl 91 0; dbl 1 0] = Ok (OKAY, [[k]; [d]]) /\ SFltb (dbl 100 0) k = true /\ SFltb (dbl 100 0) d = true.
Proof. do 2 eexists. cbv zeta. repeat (split; [vm_compute; reflexivity|]). vm_compute. reflexivity. Qed.
Print Assumptions C52_stoch_refuted.

(** C53: for series of ordinary size the oscillators are numbers, never NaN, and adx has an upper limit.

    Reading guide.  [ord64 v] says [v] is a double between -2^900 and 2^900 (2^900 is about 8.45e270, so every price
    there is), [within64 lo hi v] that it is a double between the integers [lo] and [hi], hence not NaN (Fun_64d.v).
    [adx_ok v] says [v] is a double between 0 and [adx_top], the double 100 + 1/512 (Fun_64e.v).
    [next100] is the double after 100, that is 100 + 2^-46; [aroon_ok v] says [v] is a double between 0 and [next100],
    [osc_ok v] one between minus [next100] and [next100] (Fun_64f.v). *)
From Coq Require Import Floats.SpecFloat.
From Verif Require Import F64Laws M_basic M_osc M_window M_stream1 M_stream2 M_stream4 Spec Tactics.
From Verif Require Import F64Range Fun_64 Fun_64b Fun_64c Fun_64d Fun_64e Fun_64f Fun_64g Properties_64.
Open Scope Z_scope.

Theorem C53_rsi : forall lm pw size (x : list spec_float) o c outs, Forall ord64 x ->
  @ti_rsi (F64 lm pw) size [x] [o] = Ok (c, outs) -> Forall (Forall (within64 0 100)) outs.
Proof. intros lm pw size x o c outs Hx E. exact (rsi_ord lm pw size x o Hx _ E). Qed.
Print Assumptions C53_rsi.
Theorem C53_stochrsi : forall lm pw size (x : list spec_float) o c outs, Forall ord64 x ->
  @ti_stochrsi (F64 lm pw) size [x] [o] = Ok (c, outs) -> Forall (Forall (within64 0 1)) outs.
Proof. intros lm pw size x o c outs Hx E. exact (stochrsi_ord lm pw size x o Hx _ E). Qed.
Print Assumptions C53_stochrsi.
Theorem C53_rmi : forall lm pw size (x : list spec_float) p o c outs, Forall ord64 x -> ord64 p -> 0 <= size ->
  @ti_rmi (F64 lm pw) size [x] [p; o] = Ok (c, outs) -> Forall (Forall (within64 0 100)) outs.
Proof. intros lm pw size x p o c outs Hx Hp Hs E. exact (rmi_ord lm pw size x p o Hx Hp Hs _ E). Qed.
Print Assumptions C53_rmi.
Theorem C53_dx : forall lm pw size (h l : list spec_float) o c outs, Forall ord64 h -> Forall ord64 l ->
  @ti_dx (F64 lm pw) size [h; l] [o] = Ok (c, outs) -> Forall (Forall (within64 0 100)) outs.
Proof. intros lm pw size h l o c outs Hh Hl E. exact (dx_ord lm pw size h l o Hh Hl _ E). Qed.
Print Assumptions C53_dx.
(** the excess over 100 found by C52_adx_refuted is at most 1/512, whatever the period and the number of bars *)
Theorem C53_adx : forall lm pw size (h l : list spec_float) o c outs, Forall ord64 h -> Forall ord64 l ->
  @ti_adx (F64 lm pw) size [h; l] [o] = Ok (c, outs) -> Forall (Forall adx_ok) outs.
Proof. intros lm pw size h l o c outs Hh Hl E. exact (adx_ord lm pw size h l o Hh Hl _ E). Qed.
Print Assumptions C53_adx.
Theorem C53_willr : forall lm pw size (h l c : list spec_float) o p, let A := F64 lm pw in
  zlen h = size -> zlen l = size -> zlen c = size -> 0 <= size <= INT_MAX -> @to_int A o = Some p -> 1 <= p ->
  Forall ord64 h -> Forall ord64 l -> Forall ord64 c ->
  (forall j, 0 <= j < size -> between64 (@zf A l j) (@zf A h j) (@zf A c j)) ->
  exists out, @ti_willr A size [h; l; c] [o] = Ok (OKAY, [out]) /\ zlen out = Z.max 0 (size - p + 1) /\ Forall (within64 (-100) 0) out.
Proof. intros lm pw size h l c o p A. apply (willr_ord lm pw). Qed.
Print Assumptions C53_willr.
Theorem C53_bop : forall lm pw size (o h l c : list spec_float), let A := F64 lm pw in
  zlen o = size -> zlen h = size -> zlen l = size -> zlen c = size -> 0 <= size <= INT_MAX ->
  Forall ord64 o -> Forall ord64 h -> Forall ord64 l -> Forall ord64 c ->
  (forall j, 0 <= j < size -> between64 (@zf A l j) (@zf A h j) (@zf A o j) /\ between64 (@zf A l j) (@zf A h j) (@zf A c j)) ->
  exists out, @ti_bop A size [o; h; l; c] [] = Ok (OKAY, [out]) /\ zlen out = size /\ Forall (within64 (-1) 1) out.
Proof. intros lm pw size o h l c A Ho Hh Hl Hc Hs Do Dh Dl Dc H. apply (bop_ord lm pw); try assumption. intros j Hj. destruct (H j Hj) as [[] []]. auto. Qed.
Print Assumptions C53_bop.

(** aroon and aroonosc of any bars without NaN leave [0, 100] and [-100, 100] by at most the last place (C14_range_binary64_refuted shows the last place is reached) *)
Theorem C53_aroon : forall lm pw size (h l : list spec_float) o p, let A := F64 lm pw in
  zlen h = size -> zlen l = size -> 0 <= size <= INT_MAX -> @to_int A o = Some p -> 1 <= p -> Forall not_nan h -> Forall not_nan l ->
  exists down up osc, @ti_aroon A size [h; l] [o] = Ok (OKAY, [down; up]) /\ @ti_aroonosc A size [h; l] [o] = Ok (OKAY, [osc]) /\
    zlen down = Z.max 0 (size - p) /\ zlen up = Z.max 0 (size - p) /\ zlen osc = Z.max 0 (size - p) /\
    Forall aroon_ok down /\ Forall aroon_ok up /\ Forall osc_ok osc.
Proof. intros lm pw size h l o p A. apply (aroon_64 lm pw). Qed.
Print Assumptions C53_aroon.
(** avgprice and wcprice stay between the low and the high of their bar; typprice does not (C52_typprice_refuted) *)
Theorem C53_avgprice : forall lm pw size (o h l c : list spec_float), let A := F64 lm pw in
  zlen o = size -> zlen h = size -> zlen l = size -> zlen c = size -> 0 <= size <= INT_MAX ->
  Forall is_double o -> Forall ord64 h -> Forall ord64 l -> Forall is_double c ->
  (forall j, 0 <= j < size -> between64 (@zf A l j) (@zf A h j) (@zf A o j) /\ between64 (@zf A l j) (@zf A h j) (@zf A c j)) ->
  exists out, @ti_avgprice A size [o; h; l; c] [] = Ok (OKAY, [out]) /\ zlen out = size /\
    forall j, 0 <= j < size -> between64 (@zf A l j) (@zf A h j) (@zf A out j).
Proof. intros lm pw size o h l c A Ho Hh Hl Hc Hs Do Dh Dl Dc H. apply (avgprice_64 lm pw); try assumption. intros j Hj. destruct (H j Hj) as [[] []]. auto. Qed.
Print Assumptions C53_avgprice.
Theorem C53_wcprice : forall lm pw size (h l c : list spec_float), let A := F64 lm pw in
  zlen h = size -> zlen l = size -> zlen c = size -> 0 <= size <= INT_MAX -> Forall ord64 h -> Forall ord64 l -> Forall is_double c ->
  (forall j, 0 <= j < size -> between64 (@zf A l j) (@zf A h j) (@zf A c j)) ->
  exists out, @ti_wcprice A size [h; l; c] [] = Ok (OKAY, [out]) /\ zlen out = size /\
    forall j, 0 <= j < size -> between64 (@zf A l j) (@zf A h j) (@zf A out j).
Proof. intros lm pw size h l c A. apply (wcprice_64 lm pw). Qed.
Print Assumptions C53_wcprice.

(** ** The condition on the size is needed: finite doubles of which rsi makes a NaN *)
Theorem C53_nan_refuted : exists v : @T F64c, v = S754_finite false 9007199254740991 971 /\ is_double v /\
  @ti_rsi F64c 3 [[SFopp v; v; v]] [dbl 2 0] = Ok (OKAY, [[S754_nan]]).
Proof. eexists. split; [reflexivity|]. split; [vm_compute; reflexivity|]. vm_compute. reflexivity. Qed.
Print Assumptions C53_nan_refuted.

(** ** Concrete cases *)
Lemma w1_ord : Forall ord64 w1. Proof. repeat constructor; vm_compute; reflexivity. Qed.
Lemma hi1_ord : Forall ord64 hi1. Proof. repeat constructor; vm_compute; reflexivity. Qed.
Lemma lo1_ord : Forall ord64 lo1. Proof. repeat constructor; vm_compute; reflexivity. Qed.
Lemma cl1_ord : Forall ord64 cl1. Proof. repeat constructor; vm_compute; reflexivity. Qed.
Lemma p2_ord : ord64 (dbl 2 0). Proof. repeat constructor; vm_compute; reflexivity. Qed.
Example C53_case : exists r s m, @ti_rsi F64c 6 [w1] [dbl 2 0] = Ok (OKAY, [r]) /\ Forall (Forall (within64 0 100)) [r] /\ zlen r = 4 /\
  @ti_stochrsi F64c 6 [w1] [dbl 2 0] = Ok (OKAY, [s]) /\ Forall (Forall (within64 0 1)) [s] /\ zlen s = 3 /\
  @ti_rmi F64c 6 [w1] [dbl 2 0; dbl 2 0] = Ok (OKAY, [m]) /\ Forall (Forall (within64 0 100)) [m] /\ zlen m = 4.
Proof.
  do 3 eexists. split; [vm_compute; reflexivity|]. split; [refine (C53_rsi _ _ 6 w1 (dbl 2 0) OKAY _ w1_ord _); vm_compute; reflexivity|]. split; [vm_compute; reflexivity|].
  split; [vm_compute; reflexivity|]. split; [refine (C53_stochrsi _ _ 6 w1 (dbl 2 0) OKAY _ w1_ord _); vm_compute; reflexivity|]. split; [vm_compute; reflexivity|].
  split; [vm_compute; reflexivity|]. split; [refine (C53_rmi _ _ 6 w1 (dbl 2 0) (dbl 2 0) OKAY _ w1_ord p2_ord ltac:(lia) _); vm_compute; reflexivity|]. vm_compute. reflexivity.
Qed.
Example C53_case2 : exists d a, @ti_dx F64c 6 [hi1; lo1] [dbl 2 0] = Ok (OKAY, [d]) /\ Forall (Forall (within64 0 100)) [d] /\ zlen d = 5 /\
  @ti_adx F64c 6 [hi1; lo1] [dbl 2 0] = Ok (OKAY, [a]) /\ Forall (Forall adx_ok) [a] /\ zlen a = 4.
Proof.
  do 2 eexists. split; [vm_compute; reflexivity|]. split; [refine (C53_dx _ _ 6 hi1 lo1 (dbl 2 0) OKAY _ hi1_ord lo1_ord _); vm_compute; reflexivity|]. split; [vm_compute; reflexivity|].
  split; [vm_compute; reflexivity|]. split; [refine (C53_adx _ _ 6 hi1 lo1 (dbl 2 0) OKAY _ hi1_ord lo1_ord _); vm_compute; reflexivity|]. vm_compute. reflexivity.
Qed.
Example C53_case3 : exists w b, @ti_willr F64c 6 [hi1; lo1; cl1] [dbl 2 0] = Ok (OKAY, [w]) /\ zlen w = 5 /\ Forall (within64 (-100) 0) w /\
  @ti_bop F64c 6 [hi1; hi1; lo1; cl1] [] = Ok (OKAY, [b]) /\ zlen b = 6 /\ Forall (within64 (-1) 1) b.
Proof.
  destruct (C53_willr (fun _ _ => S754_nan) (fun _ _ => S754_nan) 6 hi1 lo1 cl1 (dbl 2 0) 2) as (w & E & Z & G);
    [reflexivity..|unfold INT_MAX; lia|vm_compute; reflexivity|lia|exact hi1_ord|exact lo1_ord|exact cl1_ord|exact (proj1 C52_bars_case)|].
  destruct (C53_bop (fun _ _ => S754_nan) (fun _ _ => S754_nan) 6 hi1 hi1 lo1 cl1) as (b & E2 & Z2 & G2);
    [reflexivity..|unfold INT_MAX; lia|exact hi1_ord|exact hi1_ord|exact lo1_ord|exact cl1_ord|exact (proj1 C52_bars_case2)|].
  exists w, b. repeat (split; [assumption|]). assumption.
Qed.
(** the rising bars 0..11 with period 11: aroon reaches [next100] *)
Example C53_aroon_case : let bars := map (fun k => f64_of_Z (Z.of_nat k)) (seq 0 12) in Forall not_nan bars /\
  exists down up osc, @ti_aroon F64c 12 [bars; bars] [dbl 11 0] = Ok (OKAY, [down; up]) /\ Forall aroon_ok up /\ up = [next100] /\
    @ti_aroonosc F64c 12 [bars; bars] [dbl 11 0] = Ok (OKAY, [osc]) /\ Forall osc_ok osc.
Proof.
  cbv zeta. set (bars := map _ _). assert (N : Forall not_nan bars) by (vm_compute; repeat constructor; discriminate). split; [exact N|].
  destruct (C53_aroon (fun _ _ => S754_nan) (fun _ _ => S754_nan) 12 bars bars (dbl 11 0) 11) as (d & u & o & E1 & E2 & _ & _ & _ & _ & G2 & G3);
    [vm_compute; reflexivity..|unfold INT_MAX; lia|vm_compute; reflexivity|lia|exact N|exact N|].
  exists d, u, o. split; [exact E1|]. split; [exact G2|]. split; [|split; [exact E2|exact G3]].
  assert (E : @ti_aroon F64c 12 [bars; bars] [dbl 11 0] = Ok (OKAY, [[dbl 0 0]; [next100]])) by (vm_compute; reflexivity). pose proof (eq_trans (eq_sym E) E1) as X. injection X as <- <-. reflexivity.
Qed.
Example C53_prices_case : exists a w, @ti_avgprice F64c 6 [hi1; hi1; lo1; cl1] [] = Ok (OKAY, [a]) /\ (forall j, 0 <= j < 6 -> between64 (@zf F64c lo1 j) (@zf F64c hi1 j) (@zf F64c a j)) /\
  @ti_wcprice F64c 6 [hi1; lo1; cl1] [] = Ok (OKAY, [w]) /\ (forall j, 0 <= j < 6 -> between64 (@zf F64c lo1 j) (@zf F64c hi1 j) (@zf F64c w j)).
Proof.
  destruct (C53_avgprice (fun _ _ => S754_nan) (fun _ _ => S754_nan) 6 hi1 hi1 lo1 cl1) as (b & E2 & Z2 & G2);
    [reflexivity..|unfold INT_MAX; lia|exact hi1_double|exact hi1_ord|exact lo1_ord|exact cl1_double|exact (proj1 C52_bars_case2)|].
  destruct (C53_wcprice (fun _ _ => S754_nan) (fun _ _ => S754_nan) 6 hi1 lo1 cl1) as (w & E & Z & G);
    [reflexivity..|unfold INT_MAX; lia|exact hi1_ord|exact lo1_ord|exact cl1_double|exact (proj1 C52_bars_case)|].
  exists b, w. repeat (split; [assumption|]). assumption.
Qed.

(** C46: the batch oscillators built on averages and running sums, in exact arithmetic.

    Reading guide: [efrom p f s i] is the exponential average of f at bar i, started at bar s,
    [last_mean p f i] and [last_sd p f i] the mean and the standard deviation of the last p values of
    f at bar i; the rest of the vocabulary is in SpecR2.v.  Division by zero means nothing over the
    reals: a zero divisor is either tested for in the formula or excluded by hypothesis. *)
From Coq Require Import Reals Lra.
From Verif Require Import M_osc Fun_batch1 Fun_batch2 Fun_batch3 Fun_batch4 RSum RArith Properties_basic Properties_value Properties_value2 Properties_batch1 F64.
From Verif Require Export SpecR2.
Open Scope Z_scope.
Ltac tabat := apply okl; repeat first [reflexivity|apply consl]; (apply tab_at; [lia|intros; cbv beta zeta]).

(** ** The vocabulary *)
Theorem C46_average_meaning : forall p f s, efrom p f s s = f s /\
  forall i, s < i -> efrom p f s i = (efrom p f s (i - 1) + 2 / (IZR p + 1) * (f i - efrom p f s (i - 1)))%R.
Proof. intros p f s. split; [apply efrom_0; lia|]. intros i Hi. rewrite (efrom_S p f s i) by lia. ring. Qed.
Print Assumptions C46_average_meaning.
Theorem C46_deviation_meaning : forall p x k, 1 <= p -> 0 <= k -> k + p <= zlen x ->
  last_mean p (zr x) (k + p - 1) = mean (window k p x) /\ last_sd p (zr x) (k + p - 1) = sqrt (popvar (window k p x)).
Proof.
  intros p x k Hp Hk Hx. assert (E : forall f, last_mean p f (k + p - 1) = (zsum k (k + p) f * (1 / IZR p))%R).
  { intros f. rewrite <- roll_mean. do 2 f_equal; lia. }
  split.
  - rewrite E. unfold mean. rewrite Rsum_window, zlen_window by lia. unfold Rdiv. ring.
  - unfold last_sd. rewrite last_var by lia. rewrite popvar_zsum by lia. replace (k + p - 1 - p + 1) with k by lia. replace (k + p - 1 + 1) with (k + p) by lia. reflexivity.
Qed.
Print Assumptions C46_deviation_meaning.

(** ** The indicators *)
(** ad line averaged with a short and a long period. *)
Theorem C46_adosc : forall size h l c v s g, zlen h = size -> zlen l = size -> zlen c = size -> zlen v = size -> 0 <= size <= INT_MAX -> 1 <= s <= g -> g <= INT_MAX ->
  @ti_adosc RA size [h; l; c; v] [IZR s; IZR g] = Ok (OKAY, [tab (g - 1) size (fun i => efrom s (ad_line h l c v) 0 i - efrom g (ad_line h l c v) 0 i)%R]).
Proof. intros. rewrite (adosc_fun size h l c v _ _ s g) by (try apply RA_int; zl). tabat. reflexivity. Qed.
Print Assumptions C46_adosc.
(** The mean of the last 5 median prices less the mean of the last 34. *)
Theorem C46_ao : forall size h l, zlen h = size -> zlen l = size -> 0 <= size <= INT_MAX ->
  @ti_ao RA size [h; l] [] = Ok (OKAY, [tab 33 size (fun i => last_mean 5 (median_price h l) i - last_mean 34 (median_price h l) i)%R]).
Proof. intros. rewrite ao_fun by assumption. tabat. reflexivity. Qed.
Print Assumptions C46_ao.
(** The sum of the last p ratios of the 9-bar average of the range over the average of that average. *)
Theorem C46_mass : forall size h l p, zlen h = size -> zlen l = size -> 0 <= size <= INT_MAX -> 1 <= p <= 268435452 ->
  (forall i, 0 <= i < size -> (zr l i < zr h i)%R) ->
  @ti_mass RA size [h; l] [IZR p] = Ok (OKAY, [tab (p + 15) size (fun i => zsum (i - p + 1) (i + 1) (mass_ratio h l))]).
Proof. intros size h l p **. rewrite (mass_fun size h l _ p) by (try apply RA_int; zl). tabat. f_equal; lia. Qed.
Print Assumptions C46_mass.
(** The change of the averaged range over p bars, in percent. *)
Theorem C46_cvi : forall size h l p, zlen h = size -> zlen l = size -> 0 <= size <= INT_MAX -> 2 <= p <= 268435452 ->
  (forall i, 0 <= i < size -> (zr l i < zr h i)%R) ->
  let e := efrom p (rng h l) 0 in
  @ti_cvi RA size [h; l] [IZR p] = Ok (OKAY, [tab (2 * p - 1) size (fun i => 100 * (e i - e (i - p)%Z) / e (i - p)%Z)%R]).
Proof. intros size h l p **. rewrite (cvi_fun size h l _ p) by (try apply RA_int; zl). tabat. reflexivity. Qed.
Print Assumptions C46_cvi.
(** The volume force averaged with a short and a long period. *)
Theorem C46_kvo : forall size h l c v s g, zlen h = size -> zlen l = size -> zlen c = size -> zlen v = size -> 0 <= size <= INT_MAX -> 1 <= s <= g -> g <= INT_MAX ->
  (forall i, 0 <= i < size -> (zr l i <= zr h i)%R) ->
  @ti_kvo RA size [h; l; c; v] [IZR s; IZR g] = Ok (OKAY, [tab 1 size (fun i => efrom s (kvo_force h l c v) 1 i - efrom g (kvo_force h l c v) 1 i)%R]).
Proof. intros size h l c v s g **. rewrite (kvo_fun size h l c v _ _ s g) by (try apply RA_int; zl). tabat. reflexivity. Qed.
Print Assumptions C46_kvo.
(** The relative change of the triple average, against the new value, in percent. *)
Theorem C46_trix_partial : forall size x p, zlen x = size -> 0 <= size <= INT_MAX -> 2 <= p <= 715827882 ->
  @ti_trix RA size [x] [IZR p] = Ok (OKAY, [tab (3 * p - 2) size (fun i => if Reqb (ema3 p x i) 0 then 0%R else (ema3 p x i - ema3 p x (i - 1)) / ema3 p x i * 100)%R]).
Proof. intros size x p **. rewrite (trix_fun size x _ p) by (try apply RA_int; zl). tabat. reflexivity. Qed.
Print Assumptions C46_trix_partial.
(** The accumulation of the last p bars over their volume. *)
Theorem C46_cmf : forall size h l c v p, zlen h = size -> zlen l = size -> zlen c = size -> zlen v = size -> 0 <= size <= INT_MAX -> 1 <= p <= INT_MAX ->
  @ti_cmf RA size [h; l; c; v] [IZR p] = Ok (OKAY, [tab (p - 1) size (fun i => cmf_at p h l c v i)]).
Proof. intros size h l c v p **. rewrite (cmf_fun size h l c v _ p) by (try apply RA_int; zl). tabat. unfold cmf_at. replace (k + (p - 1) - p + 1) with k by lia. replace (k + (p - 1) + 1) with (k + p) by lia. reflexivity. Qed.
Print Assumptions C46_cmf.
Theorem C46_cci : forall size h l c p, zlen h = size -> zlen l = size -> zlen c = size -> 0 <= size <= INT_MAX -> 1 <= p <= 268435452 ->
  @ti_cci RA size [h; l; c] [IZR p] = Ok (OKAY, [tab (2 * p - 2) size (cci_at p h l c)]).
Proof. intros size h l c p **. rewrite (cci_fun size h l c _ p) by (try apply RA_int; zl). tabat. reflexivity. Qed.
Print Assumptions C46_cci.
(** The rising share of the money flow of the last p bars, in percent. *)
Theorem C46_mfi : forall size h l c v p, zlen h = size -> zlen l = size -> zlen c = size -> zlen v = size -> 0 <= size <= INT_MAX -> 1 <= p <= 268435452 ->
  (forall i, 0 <= i < size -> (0 <= typ h l c i * zr v i)%R) ->
  @ti_mfi RA size [h; l; c; v] [IZR p] = Ok (OKAY, [tab p size (mfi_at p h l c v)]).
Proof. intros size h l c v p **. rewrite (mfi_fun size h l c v _ p) by (try apply RA_int; zl). tabat. reflexivity. Qed.
Print Assumptions C46_mfi.
(** The distance of the short mean volume from the long one, in percent of the long one. *)
Theorem C46_vosc : forall size x s g, zlen x = size -> 0 <= size <= INT_MAX -> 1 <= s <= g -> g <= INT_MAX ->
  (forall i, 0 <= i < size -> (0 < zr x i)%R) ->
  @ti_vosc RA size [x] [IZR s; IZR g] = Ok (OKAY, [tab (g - 1) size (fun i => 100 * (last_mean s (zr x) i - last_mean g (zr x) i) / last_mean g (zr x) i)%R]).
Proof.
  intros size x s g **. rewrite (vosc_fun size x _ _ s g) by (try apply RA_int; zl). tabat. replace (k + g - 1) with (k + (g - 1)) by lia.
  destruct (Reqb_spec (last_mean s (zr x) (k + (g - 1)) - last_mean g (zr x) (k + (g - 1))) 0) as [e|]; [rewrite e; unfold Rdiv; ring|reflexivity].
Qed.
Print Assumptions C46_vosc.
(** The standard deviation of the last p relative changes, times the square root of 252. *)
Theorem C46_volatility : forall size x p, zlen x = size -> 0 <= size <= INT_MAX -> 1 <= p <= INT_MAX ->
  @ti_volatility RA size [x] [IZR p] = Ok (OKAY, [tab p size (fun i => last_sd p (change_at x) i * sqrt 252)%R]).
Proof. intros size x p **. rewrite (volatility_fun size x _ p) by (try apply RA_int; zl). tabat. reflexivity. Qed.
Print Assumptions C46_volatility.

(** ** The divisors the hypotheses exclude are never zero *)
Lemma efrom_pos p f s i : 1 <= p -> s <= i -> (forall j, s <= j <= i -> (0 < f j)%R) -> (0 < efrom p f s i)%R.
Proof.
  intros Hp Hi Hf. assert (P : (1 <= IZR p)%R) by (apply IZR_le; lia).
  apply (zind (fun n => n <= i -> (0 < efrom p f s n)%R) s i Hi); [intros _; rewrite efrom_0 by lia; apply Hf; lia| |lia].
  intros n Hn IH Hle. rewrite (efrom_S p f s (n + 1)) by lia. replace (n + 1 - 1) with n by lia. specialize (IH ltac:(lia)). pose proof (Hf (n + 1) ltac:(lia)) as Q.
  set (k := (2 / (IZR p + 1))%R). assert (K0 : (0 < k)%R) by (apply Rdiv_lt_0_compat; lra).
  assert (K1 : (k <= 1)%R) by (apply (Rmult_le_reg_r (IZR p + 1)); [lra|]; unfold k, Rdiv; rewrite Rmult_assoc, Rinv_l by lra; lra).
  replace ((f (n + 1)%Z - efrom p f s n) * k + efrom p f s n)%R with (f (n + 1)%Z * k + efrom p f s n * (1 - k))%R by ring. nra.
Qed.
Theorem C46_divisors : forall size h l p, (forall i, 0 <= i < size -> (zr l i < zr h i)%R) -> 1 <= p -> forall i, 0 <= i < size ->
  (0 < efrom p (rng h l) 0 i)%R /\ (8 <= i -> (0 < efrom 9 (efrom 9 (rng h l) 0) 8 i)%R) /\
  (forall c, (0 < zsum (kvo_since h l c i) (i + 1) (rng h l))%R \/ i < kvo_since h l c i).
Proof.
  intros size h l p Hb Hp i Hi. assert (Hr : forall j, 0 <= j < size -> (0 < rng h l j)%R) by (intros j Hj; specialize (Hb j Hj); unfold rng; lra).
  split; [apply efrom_pos; try lia; intros; apply Hr; lia|]. split.
  - intros H8. apply efrom_pos; try lia. intros. apply efrom_pos; try lia. intros. apply Hr. lia.
  - intros c. destruct (Z.lt_ge_cases i (kvo_since h l c i)) as [|L]; [right; assumption|left].
    rewrite zsum_snoc by lia. pose proof (Hr i Hi). assert (0 <= zsum (kvo_since h l c i) i (rng h l))%R; [|lra].
    apply zsum_nonneg. intros j Hj. left. apply Hr. pose proof (kvo_since_nonneg h l c i ltac:(lia)). lia.
Qed.
Print Assumptions C46_divisors.

(** ** Ranges *)
Theorem C46_mfi_range : forall size h l c v p i, (forall i, 0 <= i < size -> (0 <= typ h l c i * zr v i)%R) -> 1 <= p <= i -> i < size ->
  (0 <= mfi_at p h l c v i <= 100)%R.
Proof.
  intros size h l c v p i Hf Hp Hi. unfold mfi_at. cbv zeta. set (u := zsum _ _ (flow_up h l c v)). set (d := zsum _ _ (flow_down h l c v)).
  assert (U : (0 <= u)%R) by (apply zsum_nonneg; intros; unfold flow_up; destruct (Rltb _ _); [apply Hf; lia|lra]).
  assert (D : (0 <= d)%R) by (apply zsum_nonneg; intros; unfold flow_down; destruct (Rltb _ _); [apply Hf; lia|lra]).
  destruct (Reqb_spec u 0); [lra|]. assert (0 <= u / (u + d))%R by (apply div_nonneg; lra).
  assert (u / (u + d) <= 1)%R by (apply (Rmult_le_reg_r (u + d)); [lra|]; unfold Rdiv; rewrite Rmult_assoc, Rinv_l by lra; lra). lra.
Qed.
Print Assumptions C46_mfi_range.
Theorem C46_cmf_range : forall size h l c v p i, proper_bars size h l c -> (forall i, 0 <= i < size -> (0 <= zr v i)%R) -> 1 <= p <= i + 1 -> i < size ->
  (-1 <= cmf_at p h l c v i <= 1)%R.
Proof.
  intros size h l c v p i Hb Hv Hp Hi. unfold cmf_at. cbv zeta. set (s := zsum _ _ (zr v)). set (a := zsum _ _ (chaikin h l c v)).
  assert (B : forall j, 0 <= j < size -> (- zr v j <= chaikin h l c v j <= zr v j)%R).
  { intros j Hj. unfold chaikin. specialize (Hb j Hj). specialize (Hv j Hj). destruct (Reqb_spec (zr h j - zr l j) 0); [lra|].
    set (q := ((2 * zr c j - zr l j - zr h j) / (zr h j - zr l j))%R). assert (Q : (q * (zr h j - zr l j) = 2 * zr c j - zr l j - zr h j)%R) by (unfold q; field; assumption).
    assert (-1 <= q <= 1)%R by (split; apply (Rmult_le_reg_r (zr h j - zr l j)); lra). nra. }
  assert (A1 : (a <= s)%R) by (apply zsum_le; intros; apply B; lia).
  assert (A0 : (-1 * s <= a)%R) by (unfold s; rewrite <- zsum_scal; apply zsum_le; intros j Hj; pose proof (B j ltac:(lia)); lra).
  assert (S : (0 <= s)%R) by (apply zsum_nonneg; intros; apply Hv; lia). destruct (Reqb_spec s 0); [lra|].
  assert (Q : (a / s * s = a)%R) by (field; assumption). split; apply (Rmult_le_reg_r s); lra.
Qed.
Print Assumptions C46_cmf_range.

(** ** trix with period 1 *)
(** The triple average of period 1 is the price, so the formula asks for the relative change of the
    price; the first output is 100 instead. *)
Theorem C46_trix_period1 : forall size x, zlen x = size -> 0 <= size <= INT_MAX -> (forall i, 0 <= i < size -> zr x i <> 0%R) ->
  @ti_trix RA size [x] [1%R] = Ok (OKAY, [tab 1 size (fun i => if i =? 1 then 100%R else (zr x i - zr x (i - 1)) / zr x i * 100)%R]).
Proof.
  intros size x Hx Hs Hz. etransitivity; [apply (trix1_fun size x 1%R); try assumption; apply (RA_int 1); zl|]. apply okl, consl; [|reflexivity]. apply tab_ext. intros i Hi. cbv zeta.
  pose proof (Hz i ltac:(lia)). destruct (Reqb_spec (zr x i) 0); [lra|]. change (@T RA) with R in *. destruct (i =? 1); [field; assumption|reflexivity].
Qed.
Print Assumptions C46_trix_period1.
Theorem C46_trix_refuted : exists x, zlen x = 3 /\
  @ti_trix RA 3 [x] [1%R] = Ok (OKAY, [[100; 50]%R]) /\
  tab (3 * 1 - 2) 3 (fun i => if Reqb (ema3 1 x i) 0 then 0%R else (ema3 1 x i - ema3 1 x (i - 1)) / ema3 1 x i * 100)%R = [50; 50]%R.
Proof.
  exists [1; 2; 4]%R. split; [reflexivity|]. split.
  - etransitivity; [apply C46_trix_period1; r1; upto4; nums; lra|]. exB.
  - nums. repeat match goal with |- context[Reqb ?a ?b] => destruct (Reqb_spec a b); try lra end; repeat first [reflexivity|apply consl|lra|(field; lra)].
Qed.
Print Assumptions C46_trix_refuted.

(** ** Cases *)
Definition bars (p : Z) (n : Z) : list R := tab 0 n (fun i => IZR (i + p)).
Ltac fin := repeat match goal with |- context[Reqb ?a ?b] => destruct (Reqb_spec a b); try lra end; unabs; unmax; apply okl; repeat first [reflexivity|apply consl|lra|(field; lra)].
Ltac upto6 := let k := fresh "k" in let E := fresh "E" in intros k ?; assert (E : k = 0 \/ k = 1 \/ k = 2 \/ k = 3 \/ k = 4 \/ k = 5) by lia; destruct E as [-> | [-> | [-> | [-> | [-> | ->]]]]]; try (exfalso; lia).
Example C46_adosc_case : @ti_adosc RA 3 [[3; 5; 6]%R; [1; 1; 2]%R; [2; 4; 6]%R; [5; 4; 3]%R] [1%R; 3%R] = Ok (OKAY, [[2]%R]).
Proof. etransitivity; [apply (C46_adosc 3 [3; 5; 6]%R [1; 1; 2]%R [2; 4; 6]%R [5; 4; 3]%R 1 3); r1|]. exB. Qed.
Example C46_cmf_case : @ti_cmf RA 3 [[3; 5; 6]%R; [1; 1; 2]%R; [2; 4; 6]%R; [5; 4; 3]%R] [2%R] = Ok (OKAY, [[2 / 9; 5 / 7]%R]).
Proof. etransitivity; [apply (C46_cmf 3 [3; 5; 6]%R [1; 1; 2]%R [2; 4; 6]%R [5; 4; 3]%R 2); r1|]. exB. Qed.
Example C46_cvi_case : @ti_cvi RA 5 [[3; 5; 6; 8; 9]%R; [1; 1; 2; 1; 5]%R] [2%R] = Ok (OKAY, [[700 / 9; 3500 / 153]%R]).
Proof. etransitivity; [apply (C46_cvi 5 [3; 5; 6; 8; 9]%R [1; 1; 2; 1; 5]%R 2); r1; upto6; nums; lra|]. exB. Qed.
Example C46_kvo_case : @ti_kvo RA 3 [[3; 5; 4]%R; [1; 1; 2]%R; [2; 4; 3]%R; [5; 4; 3]%R] [1%R; 3%R] = Ok (OKAY, [[0; - 350 / 3]%R]).
Proof. etransitivity; [apply (C46_kvo 3 [3; 5; 4]%R [1; 1; 2]%R [2; 4; 3]%R [5; 4; 3]%R 1 3); r1; upto4; nums; lra|]. exB. Qed.
Example C46_trix_case : @ti_trix RA 6 [[1; 3; 2; 6; 5; 4]%R] [2%R] = Ok (OKAY, [[60800 / 3017; 12000 / 3137]%R]).
Proof. etransitivity; [apply (C46_trix_partial 6 [1; 3; 2; 6; 5; 4]%R 2); r1|]. exB. Qed.
Example C46_cci_case : @ti_cci RA 3 [[3; 6; 12]%R; [3; 6; 12]%R; [3; 6; 12]%R] [2%R] = Ok (OKAY, [[200 / 3]%R]).
Proof. etransitivity; [apply (C46_cci 3 [3; 6; 12]%R [3; 6; 12]%R [3; 6; 12]%R 2); r1|]. exB. Qed.
Example C46_mfi_case : @ti_mfi RA 4 [[3; 6; 12; 9]%R; [3; 6; 12; 9]%R; [3; 6; 12; 9]%R; [1; 2; 3; 4]%R] [2%R] = Ok (OKAY, [[100; 50]%R]).
Proof. etransitivity; [apply (C46_mfi 4 [3; 6; 12; 9]%R [3; 6; 12; 9]%R [3; 6; 12; 9]%R [1; 2; 3; 4]%R 2); r1; upto4; nums; lra|]. exB. Qed.
Example C46_vosc_case : @ti_vosc RA 4 [[3; 6; 9; 6]%R] [1%R; 3%R] = Ok (OKAY, [[50; -100 / 7]%R]).
Proof. etransitivity; [apply (C46_vosc 4 [3; 6; 9; 6]%R 1 3); r1; upto4; nums; lra|]. exB. Qed.
Example C46_volatility_case : @ti_volatility RA 3 [[1; 2; 6]%R] [2%R] = Ok (OKAY, [[sqrt (1 / 4) * sqrt 252]%R]).
Proof.
  etransitivity; [apply (C46_volatility 3 [1; 2; 6]%R 2); r1|]. nums. repeat match goal with |- context[Reqb ?a ?b] => destruct (Reqb_spec a b); try lra end.
  apply okl, consl; [|reflexivity]. apply consl; [|reflexivity]. do 2 f_equal. field.
Qed.
(** Rising medians 0, 1, 2, ..: the two means lie 14.5 bars apart. *)
Example C46_ao_case : @ti_ao RA 35 [bars 1 35; bars (-1) 35] [] = Ok (OKAY, [[29 / 2; 29 / 2]%R]).
Proof. etransitivity; [apply C46_ao; r1|]. exB. Qed.
(** A constant range: every ratio is 1. *)
Example C46_mass_case : (forall i, 0 <= i < 19 -> (zr (bars 0 19) i < zr (bars 3 19) i)%R) /\ @ti_mass RA 19 [bars 3 19; bars 0 19] [2%R] = Ok (OKAY, [[2; 2]%R]).
Proof.
  assert (E : forall i, 0 <= i < 19 -> (zr (bars 3 19) i - zr (bars 0 19) i = 3)%R) by (intros i Hi; unfold bars; rewrite !zn_tab by lia; cbn beta; rewrite !plus_IZR; ring).
  assert (H : forall i, 0 <= i < 19 -> (zr (bars 0 19) i < zr (bars 3 19) i)%R) by (intros i Hi; specialize (E i Hi); lra).
  split; [exact H|]. etransitivity; [apply (C46_mass 19 (bars 3 19) (bars 0 19) 2); r1; exact H|].
  assert (C : forall f s i, s <= i < 19 -> 0 <= s -> (forall j, 0 <= j < 19 -> s <= j -> f j = 3%R) -> efrom 9 f s i = 3%R).
  { intros f s i Hi Hs Hf. apply (zind (fun n => n < 19 -> efrom 9 f s n = 3%R) s i ltac:(lia)); [intros; rewrite efrom_0 by lia; apply Hf; lia| |lia].
    intros n Hn IH Hl. rewrite (efrom_S 9 f s (n + 1)) by lia. replace (n + 1 - 1) with n by lia. rewrite IH, Hf by lia. ring. }
  assert (Q : forall i, 16 <= i < 19 -> mass_ratio (bars 3 19) (bars 0 19) i = 1%R).
  { intros i Hi. unfold mass_ratio. assert (C1 : forall j, 0 <= j < 19 -> efrom 9 (rng (bars 3 19) (bars 0 19)) 0 j = 3%R) by (intros; apply C; try lia; intros; apply E; lia).
    rewrite (C (efrom 9 (rng (bars 3 19) (bars 0 19)) 0) 8 i) by (try lia; intros; apply C1; lia). rewrite C1 by lia. field. }
  apply okl, consl; [|reflexivity]. rewrite (tab_ext _ _ _ (fun _ => 2%R)); [reflexivity|]. intros i Hi.
  rewrite (zsum_ext _ _ _ (fun _ => 1%R)) by (intros; apply Q; lia). rewrite zsum_const by lia. replace (i + 1 - (i - 2 + 1)) with 2 by lia. ring.
Qed.

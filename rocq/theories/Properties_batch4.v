(** C47: the parabolic stop, the oscillators over window extremes, the Keltner channel and the sine
    wave, in exact arithmetic.

    Reading guide: the formulas are in SpecR4.v ([path] in SpecR3.v); [C47_extremes] and
    [C47_recurrences] say what the step by step definitions mean. *)
From Coq Require Import Reals Lra.
From Verif Require Import M_osc M_stream2 Fun_any Fun_basic Fun_exact Fun_batch1 Fun_batch6 RSum RArith Properties_basic Properties_value Properties_value2 Properties_batch1 Properties_batch2 Properties_batch3.
From Verif Require Export SpecR4.
Open Scope Z_scope.

(** ** The vocabulary *)
Theorem C47_extremes : forall f s i, s <= i ->
  ((forall j, s <= j <= i -> (f j <= peak f s i)%R) /\ exists j, s <= j <= i /\ peak f s i = f j) /\
  ((forall j, s <= j <= i -> (trough f s i <= f j)%R) /\ exists j, s <= j <= i /\ trough f s i = f j).
Proof. intros. split; [apply peak_spec; assumption|apply trough_spec; assumption]. Qed.
Print Assumptions C47_extremes.
Theorem C47_recurrences :
  (forall f s, new_highs f s s = 0 /\ forall i, s <= i -> new_highs f s (i + 1) = if Rltb (peak f s i) (f (i + 1)) then new_highs f s i + 1 else new_highs f s i) /\
  (forall f s, new_lows f s s = 0 /\ forall i, s <= i -> new_lows f s (i + 1) = if Rltb (f (i + 1)) (trough f s i) then new_lows f s i + 1 else new_lows f s i) /\
  (forall st tp h l, psar_at st tp h l 0 = psar_first h l /\ forall i, 1 <= i -> psar_at st tp h l i = psar_next st tp h l i (psar_at st tp h l (i - 1))) /\
  (forall p f, wilder_from p f p = (zsum 1 (p + 1) f / IZR p)%R /\ forall i, p < i -> wilder_from p f i = (wilder_from p f (i - 1) + (f i - wilder_from p f (i - 1)) / IZR p)%R) /\
  (forall p h l, fisher_val p h l (p - 2) = 0%R /\ forall i, p - 1 <= i -> fisher_val p h l i = cut (66 / 100 * fisher_place p h l i + 67 / 100 * fisher_val p h l (i - 1))) /\
  (forall p h l, fisher_at p h l (p - 2) = 0%R /\ forall i, p - 1 <= i -> fisher_at p h l i = ((ln ((1 + fisher_val p h l i) / (1 - fisher_val p h l i)) + fisher_at p h l (i - 1)) / 2)%R) /\
  (forall p f, ema_run p f 0 = f 0 /\ forall i, 1 <= i -> ema_run p f i = (ema_run p f (i - 1) + 2 / (p + 1) * (f i - ema_run p f (i - 1)))%R).
Proof.
  repeat split; intros.
  - apply new_highs_0; reflexivity.
  - apply new_highs_S; assumption.
  - apply new_lows_0; reflexivity.
  - apply new_lows_S; assumption.
  - apply psar_at_S; assumption.
  - unfold wilder_from. rewrite trec_nil by lia. reflexivity.
  - apply wilder_S; assumption.
  - unfold fisher_val. rewrite trec_nil by lia. reflexivity.
  - apply fisher_val_S; assumption.
  - unfold fisher_at. rewrite trec_nil by lia. reflexivity.
  - apply fisher_at_S; assumption.
  - apply ema_run_S; assumption.
Qed.
Print Assumptions C47_recurrences.

(** ** The indicators *)
Theorem C47_psar : forall size h l step top, zlen h = size -> zlen l = size -> 0 <= size <= INT_MAX -> (0 < step < top)%R ->
  @ti_psar RA size [h; l] [step; top] = Ok (OKAY, [tab 1 size (fun i => stop (psar_at step top h l i))]).
Proof. intros. apply psar_fun; assumption. Qed.
Print Assumptions C47_psar.
(** Equal second and third periods read past the ring buffer: [C26_ultosc_refuted]. *)
Theorem C47_ultosc_partial : forall size h l c s m g, zlen h = size -> zlen l = size -> zlen c = size -> 0 <= size <= INT_MAX ->
  1 <= s <= m -> m < g <= 268435452 ->
  @ti_ultosc RA size [h; l; c] [IZR s; IZR m; IZR g] = Ok (OKAY, [tab g size (ultosc_at s m g h l c)]).
Proof. intros size h l c s m g **. rewrite (ultosc_fun size h l c _ _ _ s m g) by first [assumption|apply RA_int; zl|zl]. tabat. reflexivity. Qed.
Print Assumptions C47_ultosc_partial.
Theorem C47_stochrsi : forall size x p, zlen x = size -> 0 <= size <= INT_MAX -> 2 <= p <= 268435452 ->
  @ti_stochrsi RA size [x] [IZR p] = Ok (OKAY, [tab (2 * p - 1) size (stochrsi_at p x)]).
Proof. intros size x p **. rewrite (stochrsi_fun size x _ p) by first [assumption|apply RA_int; zl|zl]. tabat. reflexivity. Qed.
Print Assumptions C47_stochrsi.
Theorem C47_vhf : forall size x p, zlen x = size -> 0 <= size <= INT_MAX -> 1 <= p <= INT_MAX ->
  @ti_vhf RA size [x] [IZR p] = Ok (OKAY, [tab p size (vhf_at p x)]).
Proof. intros size x p **. rewrite (vhf_fun size x _ p) by first [assumption|apply RA_int; zl|zl]. tabat. reflexivity. Qed.
Print Assumptions C47_vhf.
(** The second output is the first one bar late. *)
Theorem C47_fisher : forall size h l p, zlen h = size -> zlen l = size -> 0 <= size <= INT_MAX -> 1 <= p <= INT_MAX ->
  @ti_fisher RA size [h; l] [IZR p] = Ok (OKAY, [tab (p - 1) size (fisher_at p h l); tab (p - 1) size (fun i => fisher_at p h l (i - 1))]).
Proof. intros size h l p **. rewrite (fisher_fun size h l _ p) by first [assumption|apply RA_int; zl|zl]. tabat; reflexivity. Qed.
Print Assumptions C47_fisher.
Theorem C47_kc : forall size h l c p k, zlen h = size -> zlen l = size -> zlen c = size -> 0 <= size <= INT_MAX -> (1 <= p)%R -> (0 <= k)%R ->
  @ti_kc RA size [h; l; c] [p; k] = Ok (OKAY,
    [tab 0 size (fun i => ema_run p (zr c) i - k * ema_run p (bar_range h l c) i)%R; tab 0 size (ema_run p (zr c));
     tab 0 size (fun i => ema_run p (zr c) i + k * ema_run p (bar_range h l c) i)%R]).
Proof. intros. apply kc_fun; assumption. Qed.
Print Assumptions C47_kc.
Theorem C47_msw : forall size x p, zlen x = size -> 0 <= size <= INT_MAX -> 1 <= p <= INT_MAX ->
  @ti_msw RA size [x] [IZR p] = Ok (OKAY, [tab p size (fun i => sin (msw_phase p x i)); tab p size (fun i => sin (msw_phase p x i + pi7 / 4))]).
Proof. intros size x p **. rewrite (msw_fun size x _ p) by first [assumption|apply RA_int; zl|zl]. tabat; reflexivity. Qed.
Print Assumptions C47_msw.

(** ** Facts about the formulas *)
(** psar: the stop lies outside the bar on the side of the trend; while a trend lasts it never moves
    away from the prices, and each bar moves it by at most the share [top] of the distance. *)
Theorem C47_psar_side : forall step top h l i, (forall j, 0 <= j <= i -> (zr l j <= zr h j)%R) -> 0 <= i ->
  let t := psar_at step top h l i in if up t then (stop t <= zr l i)%R else (zr h i <= stop t)%R.
Proof.
  intros st tp h l i Hb Hi. cbv zeta. destruct (Z.eq_dec i 0) as [->|Hn].
  { unfold psar_at. rewrite trec_nil by lia. unfold psar_first. destruct (Rleb _ _); cbn; lra. }
  rewrite psar_at_S by lia. pose proof (psar_since st tp h l (i - 1) ltac:(lia)) as Hs. set (t := psar_at st tp h l (i - 1)) in *. clearbody t.
  unfold psar_next. cbv zeta. destruct (up t).
  - match goal with |- context[Rltb (zr l i) ?s] => set (v := s); destruct (Rltb_spec (zr l i) v); cbn [up stop]; [|lra] end. apply (proj1 (peak_spec (zr h) (since t) i ltac:(lia))). lia.
  - match goal with |- context[Rltb ?s (zr h i)] => set (v := s); destruct (Rltb_spec v (zr h i)); cbn [up stop]; [|lra] end. apply (proj1 (trough_spec (zr l) (since t) i ltac:(lia))). lia.
Qed.
Print Assumptions C47_psar_side.
Lemma accel_range st tp n : (0 < st < tp)%R -> 0 <= n -> (st <= accel_of st tp n <= tp)%R.
Proof.
  intros H Hn. unfold accel_of. assert (st <= st * IZR (n + 1))%R. { assert (1 <= IZR (n + 1))%R by (apply IZR_le; lia). nra. }
  unfold Rmin. destruct (Rle_dec tp (st * IZR (n + 1))); lra.
Qed.
Lemma new_highs_pos f s i : s <= i -> 0 <= new_highs f s i.
Proof. intros H. apply (zind (fun i => 0 <= new_highs f s i) s i H); [rewrite new_highs_0 by reflexivity; lia|]. intros j Hj IH. rewrite new_highs_S by lia. destruct (Rltb _ _); lia. Qed.
Lemma new_lows_pos f s i : s <= i -> 0 <= new_lows f s i.
Proof. intros H. apply (zind (fun i => 0 <= new_lows f s i) s i H); [rewrite new_lows_0 by reflexivity; lia|]. intros j Hj IH. rewrite new_lows_S by lia. destruct (Rltb _ _); lia. Qed.
(** The stop is also outside the bar before. *)
Lemma psar_side2 st tp h l i : 1 <= i -> let t := psar_at st tp h l i in
  if up t then (stop t <= zr l (i - 1))%R else (zr h (i - 1) <= stop t)%R.
Proof.
  intros Hi. cbv zeta. rewrite psar_at_S by lia. pose proof (psar_since st tp h l (i - 1) ltac:(lia)) as Hs. set (t := psar_at st tp h l (i - 1)) in *. clearbody t.
  unfold psar_next. cbv zeta. destruct (up t).
  - match goal with |- context[Rltb (zr l i) ?s] => set (v := s); assert (Hv : (v <= zr l (i - 1))%R) by (apply Rmin_r); clearbody v; destruct (Rltb_spec (zr l i) v); cbn [up stop]; [|lra] end. apply (proj1 (peak_spec (zr h) (since t) i ltac:(lia))). lia.
  - match goal with |- context[Rltb ?s (zr h i)] => set (v := s); assert (Hv : (zr h (i - 1) <= v)%R) by (apply Rmax_r); clearbody v; destruct (Rltb_spec v (zr h i)); cbn [up stop]; [|lra] end. apply (proj1 (trough_spec (zr l) (since t) i ltac:(lia))). lia.
Qed.
Theorem C47_psar_ratchet : forall step top h l i, (0 < step < top)%R -> (forall j, 0 <= j <= i -> (zr l j <= zr h j)%R) -> 1 <= i ->
  let t := psar_at step top h l (i - 1) in let t' := psar_at step top h l i in
  since t' = since t ->
  up t' = up t /\
  (if up t then (stop t <= stop t')%R /\ (top <= 1 -> stop t' <= stop t + top * (peak (zr h) (since t) (i - 1) - stop t))%R
   else (stop t' <= stop t)%R /\ (top <= 1 -> stop t - top * (stop t - trough (zr l) (since t) (i - 1)) <= stop t')%R).
Proof.
  intros st tp h l i Ha Hb Hi t t'. unfold t'. rewrite psar_at_S by lia. fold t. pose proof (psar_since st tp h l (i - 1) ltac:(lia)) as Hs. fold t in Hs.
  pose proof (C47_psar_side st tp h l (i - 1) ltac:(intros; apply Hb; lia) ltac:(lia)) as S1. cbv zeta in S1. fold t in S1.
  assert (S2 : 2 <= i -> if up t then (stop t <= zr l (i - 2))%R else (zr h (i - 2) <= stop t)%R).
  { intros H2. pose proof (psar_side2 st tp h l (i - 1) ltac:(lia)) as Q. cbv zeta in Q. fold t in Q. replace (i - 1 - 1) with (i - 2) in Q by lia. exact Q. }
  pose proof (Hb (i - 1) ltac:(lia)) as B. clearbody t. clear t'. unfold psar_next. cbv zeta. destruct (up t).
  - pose proof (accel_range st tp _ Ha (new_highs_pos (zr h) (since t) (i - 1) ltac:(lia))) as A. set (a := accel_of st tp _) in *. clearbody a.
    pose proof (proj1 (peak_spec (zr h) (since t) (i - 1) ltac:(lia)) (i - 1) ltac:(lia)) as P. set (pk := peak (zr h) (since t) (i - 1)) in *. clearbody pk.
    destruct (Rltb _ _); cbn [since up stop]; [intros; lia|]. intros _. split; [reflexivity|]. unfold hold_below. split.
    + apply Rmin_glb; [|exact S1]. assert (stop t <= stop t + a * (pk - stop t))%R by nra. destruct (i <? 2) eqn:E2; [assumption|]. apply Rmin_glb; [assumption|apply S2; lia].
    + intros T1. eapply Rle_trans; [apply Rmin_l|]. assert (stop t + a * (pk - stop t) <= stop t + tp * (pk - stop t))%R by nra. destruct (i <? 2); [assumption|]. eapply Rle_trans; [apply Rmin_l|assumption].
  - pose proof (accel_range st tp _ Ha (new_lows_pos (zr l) (since t) (i - 1) ltac:(lia))) as A. set (a := accel_of st tp _) in *. clearbody a.
    pose proof (proj1 (trough_spec (zr l) (since t) (i - 1) ltac:(lia)) (i - 1) ltac:(lia)) as P. set (pk := trough (zr l) (since t) (i - 1)) in *. clearbody pk.
    destruct (Rltb _ _); cbn [since up stop]; [intros; lia|]. intros _. split; [reflexivity|]. unfold hold_above. split.
    + apply Rmax_lub; [|exact S1]. assert (stop t + a * (pk - stop t) <= stop t)%R by nra. destruct (i <? 2) eqn:E2; [assumption|]. apply Rmax_lub; [assumption|apply S2; lia].
    + intros T1. eapply Rle_trans; [|apply Rmax_l]. assert (stop t - tp * (stop t - pk) <= stop t + a * (pk - stop t))%R by nra. destruct (i <? 2); [assumption|]. eapply Rle_trans; [|apply Rmax_l]. assumption.
Qed.
Print Assumptions C47_psar_ratchet.
(** ultosc lies between 0 and 100 when every close lies inside its bar. *)
Lemma share_range a b : (0 <= a <= b)%R -> (0 <= share a b <= 1)%R.
Proof.
  intros H. unfold share. destruct (Reqb_spec a 0); [lra|]. split; [apply div_nonneg; lra|]. apply (Rmult_le_reg_r b); [lra|]. unfold Rdiv. rewrite Rmult_assoc, Rinv_l by lra. lra.
Qed.
Lemma pressure_range h l c j : (zr l j <= zr c j <= zr h j)%R -> (0 <= pressure l c j <= full_range h l c j)%R.
Proof. intros H. unfold pressure, full_range, true_low, true_high. pose proof (Rmin_l (zr l j) (zr c (j - 1))). pose proof (Rmax_l (zr h j) (zr c (j - 1))). lra. Qed.
Theorem C47_ultosc_range : forall size s m g h l c i, proper_bars size h l c -> 1 <= s -> 1 <= m -> 1 <= g -> Z.max s (Z.max m g) <= i < size ->
  (0 <= ultosc_at s m g h l c i <= 100)%R.
Proof.
  intros size s m g h l c i Hb Hs Hm Hg Hi.
  assert (K : forall p, 1 <= p <= i -> (0 <= pressure_share p h l c i <= 1)%R).
  { intros p Hp. apply share_range. unfold lastsum. split; [apply zsum_nonneg; intros; apply (pressure_range h); apply Hb; lia|]. apply zsum_le. intros. apply pressure_range. apply Hb. lia. }
  pose proof (K s ltac:(lia)). pose proof (K m ltac:(lia)). pose proof (K g ltac:(lia)). unfold ultosc_at. lra.
Qed.
Print Assumptions C47_ultosc_range.
(** stochrsi lies between 0 and 1; the index it ranks lies between 0 and 100. *)
Lemma wilder_nonneg p f i : 1 <= p -> p <= i -> (forall j, (0 <= f j)%R) -> (0 <= wilder_from p f i)%R.
Proof.
  intros Hp Hi Hf. assert (P : (1 <= IZR p)%R) by (apply IZR_le; lia). apply (zind (fun i => 0 <= wilder_from p f i)%R p i Hi).
  - unfold wilder_from. rewrite trec_nil by lia. apply div_nonneg; [apply zsum_nonneg; auto|lra].
  - intros n Hn IH. rewrite wilder_S by lia. rewrite Z.add_simpl_r. set (w := wilder_from p f n) in *. pose proof (Hf (n + 1)).
    replace (w + (f (n + 1)%Z - w) / IZR p)%R with (w * (1 - / IZR p) + f (n + 1)%Z * / IZR p)%R by (field; lra).
    assert (0 < / IZR p <= 1)%R. { split; [apply Rinv_0_lt_compat; lra|]. rewrite <- Rinv_1. apply Rinv_le_contravar; lra. } nra.
Qed.
Theorem C47_stochrsi_range : forall p x i, 1 <= p <= i -> (0 <= rsi_at p x i <= 100)%R /\ (0 <= stochrsi_at p x i <= 1)%R.
Proof.
  intros p x i Hp. split.
  - unfold rsi_at. cbv zeta. pose proof (wilder_nonneg p (gain x) i ltac:(lia) ltac:(lia) ltac:(intros; apply Rmax_l)) as U. pose proof (wilder_nonneg p (loss x) i ltac:(lia) ltac:(lia) ltac:(intros; apply Rmax_l)) as D.
    set (u := wilder_from p (gain x) i) in *. set (d := wilder_from p (loss x) i) in *. clearbody u d. destruct (Reqb_spec u 0); [lra|].
    assert (0 <= u / (u + d) <= 1)%R; [|lra]. split; [apply div_nonneg; lra|]. apply (Rmult_le_reg_r (u + d)); [lra|]. unfold Rdiv. rewrite Rmult_assoc, Rinv_l by lra. lra.
  - unfold stochrsi_at. cbv zeta. pose proof (proj1 (peak_spec (rsi_at p x) (i - p + 1) i ltac:(lia)) i ltac:(lia)) as P. pose proof (proj1 (trough_spec (rsi_at p x) (i - p + 1) i ltac:(lia)) i ltac:(lia)) as Q.
    set (a := peak _ _ _) in *. set (b := trough _ _ _) in *. set (v := rsi_at p x i) in *. clearbody a b v. destruct (Reqb_spec (a - b) 0); [lra|].
    split; [apply div_nonneg; lra|]. apply (Rmult_le_reg_r (a - b)); [lra|]. unfold Rdiv. rewrite Rmult_assoc, Rinv_l by lra. lra.
Qed.
Print Assumptions C47_stochrsi_range.
(** vhf lies between 0 and 1: no path is shorter than the height it covers. *)
Lemma path_between p x i a b : i - p + 1 <= a <= b -> b <= i -> (Rabs (zr x b - zr x a) <= path p x i)%R.
Proof.
  intros Ha Hb. pose proof (path_net (b - a) x b) as N. destruct (Z.eq_dec a b) as [->|]. { unfold Rminus. rewrite Rplus_opp_r, Rabs_R0. apply path_nonneg. }
  specialize (N ltac:(lia)). replace (b - (b - a)) with a in N by lia. eapply Rle_trans; [exact N|]. unfold path.
  replace (b - (b - a) + 1) with (a + 1) by lia. rewrite (zsum_split (i - p + 1) (a + 1) (i + 1)) by lia. rewrite (zsum_split (a + 1) (b + 1) (i + 1)) by lia.
  assert (forall u v, (0 <= zsum u v (fun j => Rabs (zr x j - zr x (j - 1))))%R) as Z0 by (intros; apply zsum_nonneg; intros; apply Rabs_pos).
  pose proof (Z0 (i - p + 1) (a + 1)). pose proof (Z0 (b + 1) (i + 1)). lra.
Qed.
Theorem C47_vhf_range : forall p x i, 1 <= p -> (0 <= vhf_at p x i <= 1)%R.
Proof.
  intros p x i Hp. apply share_range. destruct (peak_spec (zr x) (i - p + 1) i ltac:(lia)) as (_ & a & Ha & ->). destruct (trough_spec (zr x) (i - p + 1) i ltac:(lia)) as (Hl & b & Hb & Eb).
  pose proof (Hl a ltac:(lia)). rewrite Eb in *. split; [lra|]. destruct (Z.le_gt_cases a b).
  - pose proof (path_between p x i a b ltac:(lia) ltac:(lia)) as Q. rewrite Rabs_minus_sym in Q. pose proof (Rle_abs (zr x a - zr x b)). lra.
  - pose proof (path_between p x i b a ltac:(lia) ltac:(lia)) as Q. pose proof (Rle_abs (zr x a - zr x b)). lra.
Qed.
Print Assumptions C47_vhf_range.
(** fisher: the logarithm is always taken of a positive number, so no output is lost. *)
Theorem C47_fisher_domain : forall p h l i, 1 <= p -> p - 2 <= i ->
  (- (1 / 2) <= fisher_place p h l (i + 1) <= 1 / 2)%R /\ (Rabs (fisher_val p h l i) <= 999 / 1000)%R /\
  (0 < (1 + fisher_val p h l i) / (1 - fisher_val p h l i))%R.
Proof.
  intros p h l i Hp Hi. split; [|assert (V : (Rabs (fisher_val p h l i) <= 999 / 1000)%R)].
  - unfold fisher_place. cbv zeta. set (m := median_price h l). pose proof (proj1 (peak_spec m (i + 1 - p + 1) (i + 1) ltac:(lia)) (i + 1) ltac:(lia)) as P. pose proof (proj1 (trough_spec m (i + 1 - p + 1) (i + 1) ltac:(lia)) (i + 1) ltac:(lia)) as Q.
    set (a := peak _ _ _) in *. set (b := trough _ _ _) in *. set (v := m (i + 1)) in *. clearbody a b v. destruct (Reqb_spec (a - b) 0).
    + replace (v - b)%R with 0%R by lra. unfold Rdiv. rewrite Rmult_0_l. lra.
    + assert (0 <= (v - b) / (a - b) <= 1)%R; [|lra]. split; [apply div_nonneg; lra|]. apply (Rmult_le_reg_r (a - b)); [lra|]. unfold Rdiv. rewrite Rmult_assoc, Rinv_l by lra. lra.
  - destruct (Z.eq_dec i (p - 2)) as [->|]. { unfold fisher_val. rewrite trec_nil by lia. rewrite Rabs_R0. lra. }
    rewrite fisher_val_S by lia. set (w := (_ + _)%R). clearbody w. unfold cut. apply Rabs_le. destruct (Rltb_spec (99 / 100) w), (Rltb_spec w (- (99 / 100))); lra.
  - split; [exact V|]. pose proof (Rle_abs (fisher_val p h l i)). pose proof (Rle_abs (- fisher_val p h l i)) as W. rewrite Rabs_Ropp in W. apply Rmult_lt_0_compat; [lra|apply Rinv_0_lt_compat; lra].
Qed.
Print Assumptions C47_fisher_domain.
(** The outputs of msw lie between -1 and 1; the middle of the channel lies between its sides. *)
Theorem C47_msw_range : forall p x i, (-1 <= sin (msw_phase p x i) <= 1)%R /\ (-1 <= sin (msw_phase p x i + pi7 / 4) <= 1)%R.
Proof. intros. split; apply SIN_bound. Qed.
Print Assumptions C47_msw_range.
Theorem C47_kc_order : forall h l c p k i, (forall j, 0 <= j <= i -> (zr l j <= zr h j)%R) -> 0 <= i -> (1 <= p)%R -> (0 <= k)%R ->
  (ema_run p (zr c) i - k * ema_run p (bar_range h l c) i <= ema_run p (zr c) i <= ema_run p (zr c) i + k * ema_run p (bar_range h l c) i)%R.
Proof.
  intros h l c p k i Hb Hi Hp Hk. assert (N : (0 <= ema_run p (bar_range h l c) i)%R); [|nra].
  assert (W : (0 < 2 / (p + 1) <= 1)%R). { split; [apply Rmult_lt_0_compat; [lra|apply Rinv_0_lt_compat; lra]|]. apply (Rmult_le_reg_r (p + 1)); [lra|]. unfold Rdiv. rewrite Rmult_assoc, Rinv_l by lra. lra. }
  assert (B : forall j, 0 <= j <= i -> (0 <= bar_range h l c j)%R).
  { intros j Hj. pose proof (Hb j Hj). unfold bar_range. destruct (Z.eqb_spec j 0) as [->|]; [lra|]. pose proof (Rmax_l (zr h j) (zr c (j - 1))). pose proof (Rmin_l (zr l j) (zr c (j - 1))). lra. }
  apply (zind (fun n => n <= i -> (0 <= ema_run p (bar_range h l c) n)%R) 0 i Hi); [| |lia].
  - intros _. unfold ema_run. rewrite trec_nil by lia. apply B. lia.
  - intros n Hn IH Hl. rewrite ema_run_S by lia. rewrite Z.add_simpl_r. pose proof (B (n + 1) ltac:(lia)). specialize (IH ltac:(lia)). set (w := (2 / (p + 1))%R) in *. clearbody w.
    set (e := ema_run _ _ n) in *. clearbody e. set (r := bar_range h l c (n + 1)) in *. clearbody r. nra.
Qed.
Print Assumptions C47_kc_order.

(** ** Cases *)
(** Up from 1 with two new highs, until the fourth bar falls through the stop, 1.8: the new stop is the
    highest high, 5. *)
Lemma trend_eq u s v u' s' v' : u = u' -> s = s' -> v = v' -> Trend u s v = Trend u' s' v'.
Proof. intros -> -> ->. reflexivity. Qed.
Example C47_psar_case : let h := [2; 3; 5; 4]%R in let l := [1; 2; 3; 0]%R in let st := (1 / 10)%R in let tp := (1 / 5)%R in
  (forall j, 0 <= j <= 3 -> (zr l j <= zr h j)%R) /\
  psar_at st tp h l 1 = Trend true 0 1 /\ psar_at st tp h l 2 = Trend true 0 1 /\ psar_at st tp h l 3 = Trend false 3 5 /\
  @ti_psar RA 4 [h; l] [st; tp] = Ok (OKAY, [[1; 1; 5]%R]).
Proof.
  intros h l st tp.
  assert (E0 : psar_at st tp h l 0 = Trend true 0 1) by (nums; unlt; reflexivity).
  assert (E1 : psar_at st tp h l 1 = Trend true 0 1) by (rewrite psar_at_S by lia; cbn [Z.sub Z.add Z.opp Z.pos_sub Pos.pred_double Pos.sub]; rewrite E0; nums; unlt; apply trend_eq; (reflexivity || lra)).
  assert (N1 : new_highs (zr h) 0 1 = 1) by (nums; unlt; reflexivity). assert (N2 : new_highs (zr h) 0 2 = 2) by (nums; unlt; reflexivity).
  assert (E2 : psar_at st tp h l 2 = Trend true 0 1).
  { rewrite psar_at_S by lia. change (2 - 1) with 1. rewrite E1. unfold psar_next. cbn [up since stop]. change (2 - 1) with 1. rewrite N1. nums. unlt. apply trend_eq; (reflexivity || lra). }
  assert (E3 : psar_at st tp h l 3 = Trend false 3 5).
  { rewrite psar_at_S by lia. change (3 - 1) with 2. rewrite E2. unfold psar_next. cbn [up since stop]. change (3 - 1) with 2. rewrite N2. nums. unlt. apply trend_eq; (reflexivity || lra). }
  split; [upto4; nums; lra|]. split; [exact E1|]. split; [exact E2|]. split; [exact E3|].
  etransitivity; [apply (C47_psar 4 h l st tp); r1; unfold st, tp; lra|]. change (tab 1 4 ?f) with [f 1; f 2; f 3]. cbv beta. rewrite E1, E2, E3. reflexivity.
Qed.
Example C47_ultosc_case : proper_bars 4 [3; 5; 6; 6]%R [1; 2; 1; 3]%R [2; 4; 5; 3]%R /\ @ti_ultosc RA 4 [[3; 5; 6; 6]%R; [1; 2; 1; 3]%R; [2; 4; 5; 3]%R] [1%R; 2%R; 3%R] = Ok (OKAY, [[100 / 7 * (2 * (1 / 2) + 6 / 11)]%R]).
Proof.
  assert (H : proper_bars 4 [3; 5; 6; 6]%R [1; 2; 1; 3]%R [2; 4; 5; 3]%R) by (unfold proper_bars; upto4; nums; lra). split; [exact H|].
  etransitivity; [apply (C47_ultosc_partial 4 [3; 5; 6; 6]%R [1; 2; 1; 3]%R [2; 4; 5; 3]%R 1 2 3); r1|]. exB.
Qed.
Example C47_stochrsi_case : @ti_stochrsi RA 5 [[1; 2; 1; 2; 1]%R] [2%R] = Ok (OKAY, [[1; 0]%R]).
Proof.
  etransitivity; [apply (C47_stochrsi 5 [1; 2; 1; 2; 1]%R 2); r1|]. set (x := [1; 2; 1; 2; 1]%R).
  assert (R2 : rsi_at 2 x 2 = 50%R) by (nums; match goal with |- context[Reqb ?a ?b] => destruct (Reqb_spec a b); [lra|] end; field; lra).
  assert (R3 : rsi_at 2 x 3 = 75%R) by (nums; match goal with |- context[Reqb ?a ?b] => destruct (Reqb_spec a b); [lra|] end; field; lra).
  assert (R4 : rsi_at 2 x 4 = (75 / 2)%R) by (nums; match goal with |- context[Reqb ?a ?b] => destruct (Reqb_spec a b); [lra|] end; field; lra).
  change (tab (2 * 2 - 1) 5 ?f) with [f 3; f 4]. unfold stochrsi_at. cbv zeta. change (3 - 2 + 1) with 2. change (4 - 2 + 1) with 3.
  assert (A : forall f i, peak f i (i + 1) = Rmax (f i) (f (i + 1)) /\ trough f i (i + 1) = Rmin (f i) (f (i + 1))) by (intros; rewrite peak_S, trough_S, peak_0, trough_0 by lia; auto).
  destruct (A (rsi_at 2 x) 2) as [A1 A2]. destruct (A (rsi_at 2 x) 3) as [A3 A4]. change (2 + 1) with 3 in *. change (3 + 1) with 4 in *. rewrite A1, A2, A3, A4, R2, R3, R4. unmax.
  repeat match goal with |- context[Reqb ?a ?b] => destruct (Reqb_spec a b); [lra|] end. apply okl. repeat first [reflexivity|apply consl|lra|(field; lra)].
Qed.
Example C47_vhf_case : @ti_vhf RA 5 [[1; 3; 2; 6; 5]%R] [3%R] = Ok (OKAY, [[4 / 7; 2 / 3]%R]).
Proof. etransitivity; [apply (C47_vhf 5 [1; 3; 2; 6; 5]%R 3); r1|]. exB. Qed.
(** A flat price has place -1/2. *)
Example C47_fisher_case : @ti_fisher RA 1 [[3]%R; [1]%R] [1%R] = Ok (OKAY, [[ln (67 / 133) / 2]%R; [0]%R]).
Proof.
  etransitivity; [apply (C47_fisher 1 [3]%R [1]%R 1); r1|].
  assert (P0 : fisher_place 1 [3]%R [1]%R 0 = (- (1 / 2))%R) by (nums; match goal with |- context[Reqb ?a ?b] => destruct (Reqb_spec a b); lra end).
  assert (V0 : fisher_val 1 [3]%R [1]%R 0 = (- (33 / 100))%R).
  { rewrite fisher_val_S by lia. rewrite P0. unfold fisher_val. rewrite trec_nil by lia. unfold cut. unlt. }
  assert (F1 : fisher_at 1 [3]%R [1]%R (-1) = 0%R) by (unfold fisher_at; rewrite trec_nil by lia; reflexivity).
  assert (F0 : fisher_at 1 [3]%R [1]%R 0 = (ln (67 / 133) / 2)%R).
  { rewrite fisher_at_S by lia. change (0 - 1) with (-1). rewrite V0, F1. replace ((1 + - (33 / 100)) / (1 - - (33 / 100)))%R with (67 / 133)%R by field. lra. }
  change (tab (1 - 1) 1 ?f) with [f 0]. cbv beta. change (0 - 1) with (-1). rewrite F0, F1. reflexivity.
Qed.
Example C47_kc_case : @ti_kc RA 3 [[3; 5; 6]%R; [1; 2; 1]%R; [2; 4; 7]%R] [3%R; 2%R] = Ok (OKAY, [[-2; -2; -5 / 2]%R; [2; 3; 5]%R; [6; 8; 25 / 2]%R]).
Proof. etransitivity; [apply (C47_kc 3 [3; 5; 6]%R [1; 2; 1]%R [2; 4; 7]%R 3 2); r1|]. exB. Qed.
(** Period 1: the cycle is the price itself, the phase a quarter turn. *)
Example C47_msw_case : @ti_msw RA 2 [[5; 4]%R] [1%R] = Ok (OKAY, [[sin (pi7 / 2)]%R; [sin (pi7 / 2 + pi7 / 4)]%R]).
Proof.
  etransitivity; [apply (C47_msw 2 [5; 4]%R 1); r1|].
  assert (Re : cycle_re 1 [5; 4]%R 1 = 4%R). { unfold cycle_re. rewrite zsum_cons, zsum_nil by lia. replace (2 * pi7 * 0 / 1)%R with 0%R by field. rewrite cos_0. nums. lra. }
  assert (Im : cycle_im 1 [5; 4]%R 1 = 0%R). { unfold cycle_im. rewrite zsum_cons, zsum_nil by lia. replace (2 * pi7 * 0 / 1)%R with 0%R by field. rewrite sin_0. nums. lra. }
  assert (Ph : msw_phase 1 [5; 4]%R 1 = (pi7 / 2)%R).
  { unfold msw_phase. rewrite Re, Im. unfold cycle_angle. rewrite (Rabs_right 4) by lra. destruct (Rltb_spec (1 / 1000) 4); [|lra]. destruct (Rltb_spec 4 0); [lra|].
    replace (0 / 4)%R with 0%R by field. rewrite atan_0. unfold one_turn, pi7. cbv zeta. destruct (Rltb_spec (0 + 0 + 31415926 / 10000000 / 2) 0); [lra|].
    destruct (Rltb_spec (2 * (31415926 / 10000000)) (0 + 0 + 31415926 / 10000000 / 2)); lra. }
  change (tab 1 2 ?f) with [f 1]. cbv beta. rewrite Ph. reflexivity.
Qed.

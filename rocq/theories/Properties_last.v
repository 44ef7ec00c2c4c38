(** C49: the Henderson, Ahrens and exponential Hull averages, the distance coefficient filter, the
    relative volatility index and the fractal average.  C50: the indicators built on the homodyne
    discriminator (hd, mama, arsi).  Exact arithmetic.

    Reading guide: the formulas are in SpecR6.v.  Where the value of a bar depends on earlier values,
    [..._at x f i] says that the sequence [f] satisfies the equation of bar [i]; [C49_solutions] and
    [C50_solutions] say that there always is such a sequence, the other theorems that the program
    returns it, between which limits it lies and where it tends to. *)
From Coq Require Import Reals Lra.
From Verif Require Import Fun_cycle Settle2 Properties_basic Properties_value Properties_batch1.
From Verif Require Export SpecR6.
Open Scope Z_scope.

(** ** C49: the programs *)
Theorem C49_solutions : forall x y p avg, 1 <= p ->
  (exists f, forall i, 0 <= i -> ahma_at p x f i) /\ (exists f, forall i, 0 <= i -> frama_at p avg x y f i).
Proof. intros x y p avg Hp. split; [apply ahma_exists; exact Hp|apply frama_exists]. Qed.
Print Assumptions C49_solutions.
Theorem C49_hwma : forall size (x : list R) o p, zlen x = size -> 0 <= size <= INT_MAX -> @to_int RA o = Some p -> 7 <= p <= 13 ->
  @ti_hwma RA size [x] [o] = Ok (OKAY, [tab (p - 1) size (hwma_at p (zr x))]).
Proof. exact hwma_fun. Qed.
Print Assumptions C49_hwma.
Theorem C49_ahma : forall size (x : list R) o p f, zlen x = size -> 0 <= size <= INT_MAX -> @to_int RA o = Some p -> 1 <= p ->
  (forall i, 0 <= i < size -> ahma_at p (zr x) f i) -> @ti_ahma RA size [x] [o] = Ok (OKAY, [tab 0 size f]).
Proof. exact ahma_fun. Qed.
Print Assumptions C49_ahma.
Theorem C49_ehma : forall size (x : list R) o p, zlen x = size -> 0 <= size <= INT_MAX -> @to_int RA o = Some p -> 1 <= p ->
  @ti_ehma RA size [x] [o] = Ok (OKAY, [tab 0 size (ehma_at p (zr x))]).
Proof. exact ehma_fun. Qed.
Print Assumptions C49_ehma.
Theorem C49_edcf : forall size (x : list R) p, zlen x = size -> 0 <= size <= INT_MAX -> 1 <= p -> 2 * p <= INT_MAX ->
  @ti_edcf RA size [x] [IZR p] = Ok (OKAY, [tab (2 * p - 1) size (edcf_at p (zr x))]).
Proof. exact edcf_fun. Qed.
Print Assumptions C49_edcf.
(** The bound on the period is the one above which the program's integer product overflows. *)
Theorem C49_rvi : forall size (x : list R) e p, zlen x = size -> 0 <= size <= INT_MAX -> 1 <= e < INT_MAX -> 2 <= p -> p * (p + 1) * (2 * p + 1) <= INT_MAX ->
  @ti_rvi RA size [x] [IZR e; IZR p] = Ok (OKAY, [tab (p - 1) size (rvi_at e p x)]).
Proof. exact rvi_fun. Qed.
Print Assumptions C49_rvi.
Theorem C49_frama : forall size (h l : list R) p avg f, zlen h = size -> zlen l = size -> 0 <= size <= INT_MAX -> 2 <= p <= INT_MAX -> Z.even p = true -> (2 <= avg)%R ->
  (forall i, 0 <= i < size -> frama_at p avg (zr h) (zr l) f i) -> @ti_frama RA size [h; l] [IZR p; avg] = Ok (OKAY, [tab 0 size f]).
Proof. exact frama_fun. Qed.
Print Assumptions C49_frama.

(** ** C49: limits *)
(** The Henderson rows add up to one, so a level is kept; a straight line comes out delayed by the
    same fraction of a bar everywhere: 0.407 bars for period 7, exactly 6 for period 13. *)
Theorem C49_hwma_level : forall p x i c, 7 <= p <= 13 -> (forall j, i - p < j <= i -> x j = c) -> hwma_at p x i = c.
Proof. exact hwma_const. Qed.
Print Assumptions C49_hwma_level.
Theorem C49_hwma_delay : forall a b i,
  map (fun p => hwma_at p (fun j => a + b * IZR j)%R i) [7; 8; 9; 10; 11; 12; 13] =
  map (fun d => a + b * (IZR i - d / 1000))%R [407; 1123; 1997; 2947; 3982; 4993; 6000]%R.
Proof.
  intros a b i. pose proof henderson_lags as H. cbn [map] in *. rewrite !hwma_line by lia. injection H as -> -> -> -> -> -> ->. reflexivity.
Qed.
Print Assumptions C49_hwma_delay.
(** After the price has stopped at [c], ahma tends to [c]; ehma and frama follow any price that converges. *)
Theorem C49_follow : forall x c,
  (levels x c -> forall p f, 1 <= p -> (forall i, 0 <= i -> ahma_at p x f i) -> tends f c) /\
  (tends x c -> forall p, 1 <= p -> tends (ehma_at p x) c) /\
  (forall y p avg f, tends (fun i => (x i + y i) / 2)%R c -> (forall i, 0 <= i -> frama_at p avg x y f i) -> tends f c).
Proof.
  intros x c. split; [|split].
  - intros Hx p f Hp Hf. apply (ahma_tends p x); assumption.
  - intros Hx p Hp. apply ehma_tends; assumption.
  - intros y p avg f Hx Hf. apply (frama_tends p avg x y); assumption.
Qed.
Print Assumptions C49_follow.
(** edcf lies among the last [p] prices whenever some price in its window differs; otherwise it is 0,
    whatever the price, and with period 1 it is always 0. *)
Theorem C49_edcf_range : forall p x i lo hi, zsum 0 p (edcf_weight p x i) <> 0%R ->
  (forall k, 0 <= k < p -> (lo <= x (i - k)%Z <= hi)%R) -> (lo <= edcf_at p x i <= hi)%R.
Proof. exact edcf_range. Qed.
Print Assumptions C49_edcf_range.
Theorem C49_edcf_level_refuted : forall size (x : list R) p c, zlen x = size -> 0 <= size <= INT_MAX -> 1 <= p -> 2 * p <= INT_MAX ->
  (forall i, 0 <= i < size -> zr x i = c) \/ p = 1 -> @ti_edcf RA size [x] [IZR p] = Ok (OKAY, [tab (2 * p - 1) size (fun _ => 0%R)]).
Proof.
  intros size x p c Hx Hs Hp Hq H. rewrite (C49_edcf size x p Hx Hs Hp Hq). do 3 f_equal. apply tab_ext. intros i Hi. destruct H as [H| ->].
  - apply (edcf_flat p (zr x) i c). intros j Hj. apply H. lia.
  - apply edcf_one.
Qed.
Print Assumptions C49_edcf_level_refuted.
Theorem C49_rvi_range : forall e p x i, 1 <= e -> 1 <= p -> (0 <= rvi_at e p x i <= 100)%R.
Proof. exact rvi_range. Qed.
Print Assumptions C49_rvi_range.
(** As long as the price has never been above its line rvi is 50, however far below it went. *)
Theorem C49_rvi_below : forall e p x i, 1 <= p -> (forall j, p - 1 <= j <= i -> (above_line p x j <= 0)%R) -> rvi_at e p x i = 50%R.
Proof.
  intros e p x i Hp H. unfold rvi_at. cbv zeta. assert (E : side_avg true e p x i = 0%R).
  { destruct (Z.lt_ge_cases i (p - 1)) as [L|L]; [apply side_warm; lia|]. revert H.
    apply (zind (fun i => (forall j, p - 1 <= j <= i -> (above_line p x j <= 0)%R) -> side_avg true e p x i = 0%R) (p - 2) i); [lia|intros; apply side_warm; lia|].
    intros m Hm IH H. rewrite side_S by lia. cbv zeta. rewrite Z.add_simpl_r. specialize (H (m + 1) ltac:(lia)) as H1. destruct (Rltb_spec 0 (above_line p x (m + 1))); [lra|].
    cbn [Bool.eqb]. apply IH. intros. apply H. lia. }
  rewrite E. destruct (Reqb_spec 0 0); [reflexivity|contradiction].
Qed.
Print Assumptions C49_rvi_below.
(** frama stays among the median prices; where one of the three spreads is 0 it is the median price. *)
Theorem C49_frama_range : forall p avg h l f lo hi i, (forall j, 0 <= j <= i -> frama_at p avg h l f j) ->
  (forall j, 0 <= j <= i -> (lo <= (h j + l j) / 2 <= hi)%R) -> 1 <= p -> 0 <= i -> (lo <= f i <= hi)%R.
Proof. exact frama_range. Qed.
Print Assumptions C49_frama_range.
Theorem C49_frama_flat : forall p avg h l f i, frama_at p avg h l f i -> (2 <= avg)%R -> frama_dimension p h l i = 0%R -> f i = ((h i + l i) / 2)%R.
Proof.
  intros p avg h l f i Hf Ha Hd. unfold frama_at in Hf. cbv zeta in Hf. rewrite Hf. destruct (i <? p); [reflexivity|].
  replace (frama_alpha p avg h l i) with 1%R; [ring|]. unfold frama_alpha. rewrite Hd. symmetry. apply Rmin_left. eapply Rle_trans; [|apply Rmax_r].
  rewrite <- exp_0 at 1. assert (ln (2 / (1 + avg)) <= 0)%R.
  { rewrite <- ln_1. assert (0 < 2 / (1 + avg) <= 1)%R as [P Q]. { split; [apply Rdiv_lt_0_compat; lra|]. apply Rmult_le_reg_r with (1 + avg)%R; [lra|]. unfold Rdiv. rewrite Rmult_assoc, Rinv_l by lra. lra. }
    destruct Q as [Q| ->]; [left; apply ln_increasing; lra|lra]. }
  destruct (Req_dec (ln (2 / (1 + avg)) * (0 - 1)) 0) as [E|E]; [rewrite E; lra|]. left. apply exp_increasing. lra.
Qed.
Print Assumptions C49_frama_flat.

(** ** C50: the programs *)
Theorem C50_solutions : forall x circle first fast slow, exists c phase m f,
  (forall i, cycle_at circle first x c i) /\ (forall i, mama_at fast slow x c phase m f i).
Proof.
  intros. destruct (cycle_exists circle first x) as [c Hc]. destruct (mama_exists fast slow x c) as (phase & m & f & H). exists c, phase, m, f. split; assumption.
Qed.
Print Assumptions C50_solutions.
Theorem C50_hd : forall size (x : list R) c, zlen x = size -> 0 <= size <= INT_MAX -> (forall i, cycle_at (2 * Rtrigo1.PI) 5 (zr x) c i) ->
  @ti_hd RA size [x] [] = Ok (OKAY, [tab 5 size (c_avg c)]).
Proof. exact hd_fun. Qed.
Print Assumptions C50_hd.
Theorem C50_mama : forall size (x : list R) fast slow c phase m f, zlen x = size -> 0 <= size <= INT_MAX -> (0 <= fast <= 1)%R -> (0 <= slow <= 1)%R ->
  (forall i, cycle_at 360 6 (zr x) c i) -> (forall i, mama_at fast slow (zr x) c phase m f i) ->
  @ti_mama RA size [x] [fast; slow] = Ok (OKAY, [tab 6 size m; tab 6 size f]).
Proof. exact mama_fun. Qed.
Print Assumptions C50_mama.
Theorem C50_arsi : forall size (x : list R) cycpart c, zlen x = size -> 0 <= size <= INT_MAX -> (0 < cycpart)%R -> (cycpart * 50 <= IZR INT_MAX)%R ->
  (forall i, cycle_at (2 * Rtrigo1.PI) 5 (zr x) c i) -> @ti_arsi RA size [x] [cycpart] = Ok (OKAY, [tab 5 size (arsi_at cycpart (zr x) c)]).
Proof. exact arsi_fun. Qed.
Print Assumptions C50_arsi.

(** ** C50: limits *)
(** The measured period: never above 50; the discriminator's own limit of 6 does not hold for the smoothed value. *)
Theorem C50_period_range : forall circle first x c, (forall i, cycle_at circle first x c i) ->
  forall i, first <= i -> (12 / 10 <= c_period c i <= 50 /\ 396 / 1000 <= c_avg c i <= 50)%R.
Proof. exact cycle_range. Qed.
Print Assumptions C50_period_range.
(** The first period is the same for every series. *)
Theorem C50_first_period : forall circle first x c, (forall i, cycle_at circle first x c i) -> c_avg c first = (396 / 1000)%R.
Proof.
  intros circle first x c Hc. pose proof (Hc (first - 1)) as C1. pose proof (Hc (first - 2)) as C2. specialize (Hc first). unfold cycle_at in *.
  replace (first - 1 <? first) with true in C1 by lia. replace (first - 2 <? first) with true in C2 by lia. replace (first <? first) with false in Hc by lia.
  destruct C1 as (_ & _ & _ & _ & I2 & Q2 & Re & Im & P1 & A1). destruct C2 as (_ & _ & _ & _ & _ & _ & _ & _ & P2 & _).
  destruct Hc as (_ & _ & _ & _ & _ & _ & _ & E & Ep & Ea). rewrite I2, Q2, Im in E.
  rewrite Ea, Ep, A1, P1, P2, E. match goal with |- context[Reqb ?a 0] => replace a with 0%R by ring; destruct (Reqb_spec 0 0) as [_|K]; [|contradiction] end. cbn [orb].
  unfold within. rewrite (Rmin_left 0), (Rmax_left 0), (Rmax_right 0), (Rmin_left 6) by lra. field.
Qed.
Print Assumptions C50_first_period.
(** mama takes the arc tangent in radians but divides it into 360: the quotient is always cut off, so
    the measured angle has no influence but for its sign. *)
Theorem C50_mama_angle_refuted : forall c x i, (forall i, cycle_at 360 6 x c i) -> 6 <= i -> c_Im c i <> 0%R -> c_Re c i <> 0%R ->
  let last := c_period c (i - 1)%Z in
  c_period c i = (2 / 10 * (if Rltb 0 (c_Im c i / c_Re c i) then Rmin 50 (Rmax 6 (15 / 10 * last)) else Rmax 6 (67 / 100 * last)) + 8 / 10 * last)%R.
Proof. exact mama_period. Qed.
Print Assumptions C50_mama_angle_refuted.
(** The phase is in radians as well and changes by less than pi, so a slow limit below the fast limit
    over pi is never reached: it can be changed without changing the output. *)
Theorem C50_mama_slow_unused : forall size (x : list R) fast slow slow', zlen x = size -> 0 <= size <= INT_MAX -> (0 <= fast <= 1)%R ->
  (0 <= slow <= fast / Rtrigo1.PI)%R -> (0 <= slow' <= fast / Rtrigo1.PI)%R -> @ti_mama RA size [x] [fast; slow] = @ti_mama RA size [x] [fast; slow'].
Proof.
  intros size x fast slow slow' Hx Hs Hf H1 H2. destruct (C50_solutions (zr x) 360 6 fast slow) as (c & phase & m & f & Hc & Hm).
  assert (fast / Rtrigo1.PI <= 1)%R. { pose proof PI2_1. apply Rmult_le_reg_r with Rtrigo1.PI; [lra|]. unfold Rdiv. rewrite Rmult_assoc, Rinv_l by lra. lra. }
  rewrite (C50_mama size x fast slow c phase m f), (C50_mama size x fast slow' c phase m f); try assumption; try lra; [reflexivity|].
  apply (mama_slow_any fast slow); try assumption; lra.
Qed.
Print Assumptions C50_mama_slow_unused.
(** Both averages start from 0, not from the price: the first outputs are fractions of the price. *)
Theorem C50_mama_first : forall (x : list R) fast slow, zlen x = 7 -> (0 <= fast <= 1)%R -> (0 <= slow <= 1)%R ->
  let a := Rmax slow fast in @ti_mama RA 7 [x] [fast; slow] = Ok (OKAY, [[a * zr x 6%Z]; [a * a / 2 * zr x 6%Z]]%R).
Proof.
  intros x fast slow Hx Hf Hs a. destruct (C50_solutions (zr x) 360 6 fast slow) as (c & phase & m & f & Hc & Hm).
  rewrite (C50_mama 7 x fast slow c phase m f Hx ltac:(zl) Hf Hs Hc Hm). destruct (mama_first fast slow (zr x) c phase m f Hc Hm) as [E1 E2]. fold a in E1, E2.
  rewrite <- E1, <- E2. reflexivity.
Qed.
Print Assumptions C50_mama_first.
(** They stay between 0 and the prices, and follow a price that converges. *)
Theorem C50_mama_range : forall fast slow x c phase m f lo hi, (forall i, mama_at fast slow x c phase m f i) -> (0 <= fast <= 1)%R -> (slow <= 1)%R -> (lo <= 0 <= hi)%R ->
  forall i, (forall j, 6 <= j <= i -> (lo <= x j <= hi)%R) -> (lo <= m i <= hi /\ lo <= f i <= hi)%R.
Proof. exact mama_range. Qed.
Print Assumptions C50_mama_range.
Theorem C50_mama_follow : forall fast slow x c phase m f v, (forall i, mama_at fast slow x c phase m f i) -> (0 < fast <= 1)%R -> (slow <= 1)%R ->
  tends x v -> tends m v /\ tends f v.
Proof. exact mama_tends. Qed.
Print Assumptions C50_mama_follow.
Theorem C50_arsi_range : forall cycpart x c i, (0 <= arsi_at cycpart x c i <= 100)%R.
Proof.
  intros. unfold arsi_at. cbv zeta. set (n := Z.min _ i).
  pose proof (zsum_nonneg 0 n (fun k => Rmax 0 (x (i - k)%Z - x (i - k - 1)%Z))%R ltac:(intros; apply Rmax_l)) as U.
  pose proof (zsum_nonneg 0 n (fun k => Rmax 0 (x (i - k - 1)%Z - x (i - k)%Z))%R ltac:(intros; apply Rmax_l)) as D.
  match goal with H : (0 <= ?a)%R, H' : (0 <= ?b)%R |- _ => set (u := a) in *; set (d := b) in * end.
  destruct (Reqb_spec (u + d) 0); [lra|]. assert (0 < u + d)%R by lra. split.
  - apply Rmult_le_pos; [lra|]. left. apply Rinv_0_lt_compat. lra.
  - apply Rmult_le_reg_r with (u + d)%R; [lra|]. unfold Rdiv. rewrite !Rmult_assoc, Rinv_l by lra. lra.
Qed.
Print Assumptions C50_arsi_range.

Ltac zs := cbv [zsum tab map seq Rsum henderson nth zn Z.to_nat Z.sub Z.add Z.opp Z.of_nat Z.mul Pos.mul Pos.of_succ_nat Pos.succ Pos.to_nat Pos.iter_op Nat.add Z.eqb Pos.eqb Z.ltb Z.compare Pos.compare Pos.compare_cont Z.pos_sub Pos.pred_double Z.succ_double Z.pred_double Z.double Pos.add Pos.add_carry].

(** ** Cases *)
Example C49_hwma_case : @ti_hwma RA 8 [[1000; 0; 0; 0; 0; 0; 0; 0]%R] [7%R] = Ok (OKAY, [[-92; 0]%R]).
Proof.
  etransitivity; [apply (C49_hwma 8 [1000; 0; 0; 0; 0; 0; 0; 0]%R 7%R 7 ltac:(reflexivity) ltac:(zl) ltac:(apply RA_int; zl) ltac:(lia))|]. apply okl. change (tab (7 - 1) 8 ?f) with [f 6; f 7].
  unfold hwma_at. zs. repeat apply consl; try reflexivity; lra.
Qed.
Example C49_ahma_case : @ti_ahma RA 4 [[1; 2; 4; 8]%R] [2%R] = Ok (OKAY, [[1; 2; 13 / 4; 95 / 16]%R]).
Proof.
  etransitivity; [apply (C49_ahma 4 [1; 2; 4; 8]%R 2%R 2 (zr [1; 2; 13 / 4; 95 / 16]%R)); [reflexivity|zl|apply RA_int; zl|lia|]|reflexivity].
  intros i Hi. assert (i = 0 \/ i = 1 \/ i = 2 \/ i = 3) as [->|[->|[->| ->]]] by lia; unfold ahma_at; zs; lra.
Qed.
Example C49_ehma_case : @ti_ehma RA 2 [[3; 6]%R] [1%R] = Ok (OKAY, [[3; 8]%R]).
Proof.
  etransitivity; [apply (C49_ehma 2 [3; 6]%R 1%R 1 ltac:(reflexivity) ltac:(zl) ltac:(apply RA_int; zl) ltac:(lia))|]. apply okl. change (tab 0 2 ?f) with [f 0; f 1].
  unfold ehma_at. rewrite !ema_run_0, (ema_run_step (sqrt 1) _ 1), sqrt_1 by lia. change (1 - 1) with 0. rewrite !ema_run_0, !(ema_run_step _ _ 1) by lia. change (1 - 1) with 0. rewrite !ema_run_0.
  zs. repeat apply consl; try reflexivity; lra.
Qed.
Example C49_edcf_case : @ti_edcf RA 4 [[0; 1; 3; 7]%R] [2%R] = Ok (OKAY, [[62 / 10]%R]).
Proof.
  etransitivity; [apply (C49_edcf 4 [0; 1; 3; 7]%R 2 ltac:(reflexivity) ltac:(zl) ltac:(lia) ltac:(zl))|]. apply okl. change (tab (2 * 2 - 1) 4 ?f) with [f 3].
  unfold edcf_at, edcf_weight. zs. match goal with |- context[Reqb ?a 0] => destruct (Reqb_spec a 0) as [E|_]; [exfalso; lra|] end.
  repeat apply consl; try reflexivity. lra.
Qed.
(** The price of the first case ends below its line, the price of the second above it: 50 and 100. *)
Lemma rvi3 a b c v : above_line 3 [a; b; c]%R 2 = v -> rvi_at 1 3 [a; b; c]%R 2 = if Rltb 0 v then 100%R else 50%R.
Proof.
  intros E. unfold rvi_at. cbv zeta. rewrite (side_S true), (side_S false), !side_warm by lia. cbv zeta. rewrite E. destruct (Rltb_spec 0 v) as [L|L]; cbn [Bool.eqb].
  - match goal with |- context[Reqb ?a 0] => assert (P : (0 < a)%R) end. { assert (0 < v * v)%R by nra. lra. }
    match goal with |- context[Reqb ?a 0] => set (g := a) in *; destruct (Reqb_spec g 0) as [K|_]; [lra|] end. field. lra.
  - destruct (Reqb_spec 0 0) as [_|K]; [reflexivity|contradiction].
Qed.
Example C49_rvi_case : @ti_rvi RA 3 [[0; 1; 0]%R] [1%R; 3%R] = Ok (OKAY, [[50]%R]) /\ @ti_rvi RA 3 [[0; -1; 0]%R] [1%R; 3%R] = Ok (OKAY, [[100]%R]).
Proof.
  split.
  - etransitivity; [apply (C49_rvi 3 [0; 1; 0]%R 1 3 ltac:(reflexivity) ltac:(zl) ltac:(zl) ltac:(lia) ltac:(zl))|]. apply okl. change (tab (3 - 1) 3 ?f) with [f 2]. rewrite (rvi3 _ _ _ (- (1 / 3))%R).
    + destruct (Rltb_spec 0 (- (1 / 3))) as [L|_]; [lra|reflexivity].
    + unfold above_line, lr_icept, lr_slope. zs. field.
  - etransitivity; [apply (C49_rvi 3 [0; -1; 0]%R 1 3 ltac:(reflexivity) ltac:(zl) ltac:(zl) ltac:(lia) ltac:(zl))|]. apply okl. change (tab (3 - 1) 3 ?f) with [f 2]. rewrite (rvi3 _ _ _ (1 / 3)%R).
    + destruct (Rltb_spec 0 (1 / 3)) as [_|L]; [reflexivity|lra].
    + unfold above_line, lr_icept, lr_slope. zs. field.
Qed.
(** Dimension log2 3, step 2/3. *)
Example C49_frama_case : @ti_frama RA 3 [[4; 4; 4]; [0; 0; 2]]%R [2%R; 3%R] = Ok (OKAY, [[2; 2; 8 / 3]%R]).
Proof.
  etransitivity; [apply (C49_frama 3 [4; 4; 4]%R [0; 0; 2]%R 2 3%R (zr [2; 2; 8 / 3]%R)); [reflexivity|reflexivity|zl|zl|reflexivity|lra|]|reflexivity].
  intros i Hi. assert (i = 0 \/ i = 1 \/ i = 2) as [->|[->| ->]] by lia; unfold frama_at; [zs; lra|zs; lra|].
  cbn [Z.ltb Z.compare Pos.compare Pos.compare_cont]. assert (E : frama_alpha 2 3 (zr [4; 4; 4]%R) (zr [0; 0; 2]%R) 2 = (2 / 3)%R).
  { assert (D : frama_dimension 2 (zr [4; 4; 4]%R) (zr [0; 0; 2]%R) 2 = (ln 3 / ln 2)%R).
    { unfold frama_dimension, spread. change (2 / 2) with 1. change (2 - 1 + 1) with 2. change (2 - 2 + 1) with 1. change (2 - 1) with 1.
      rewrite !(peak_last _ 1 2), !(trough_last _ 1 2) by lia. change (2 - 1) with 1. rewrite !peak_0, !trough_0 by reflexivity. zs.
      rewrite Rmax_left, Rmin_left by lra. repeat match goal with |- context[Rltb 0 ?a] => destruct (Rltb_spec 0 a) as [_|K]; [|exfalso; lra] end. cbn [andb].
      replace ((4 - 2) / 1 + (4 - 0) / 1)%R with (3 * 2)%R by field. replace ((4 - 0) / 2)%R with 2%R by field. rewrite ln_mult by lra. pose proof ln_lt_2. field. lra. }
    unfold frama_alpha. rewrite D. replace (2 / (1 + 3))%R with (/ 2)%R by field. rewrite ln_Rinv by lra. pose proof (ln_lt_2) as L2.
    replace (- ln 2 * (ln 3 / ln 2 - 1))%R with (ln 2 + - ln 3)%R by (field; lra). rewrite exp_plus, exp_Ropp, !exp_ln by lra. rewrite (Rmax_right (1 / 100)), Rmin_right by lra. field. }
  cbv zeta. rewrite E. zs. lra.
Qed.
Example C50_hd_case : @ti_hd RA 6 [[1; 2; 3; 5; 4; 6]%R] [] = Ok (OKAY, [[396 / 1000]%R]).
Proof.
  destruct (C50_solutions (zr [1; 2; 3; 5; 4; 6]%R) (2 * Rtrigo1.PI) 5 0 0) as (c & _ & _ & _ & Hc & _).
  etransitivity; [apply (C50_hd 6 [1; 2; 3; 5; 4; 6]%R c ltac:(reflexivity) ltac:(zl) Hc)|]. rewrite <- (C50_first_period _ _ _ _ Hc). reflexivity.
Qed.
(** Over the last three bars the price rose by 4 and fell by 1. *)
Example C50_arsi_case : @ti_arsi RA 6 [[1; 2; 3; 5; 4; 6]%R] [10%R] = Ok (OKAY, [[80]%R]).
Proof.
  destruct (C50_solutions (zr [1; 2; 3; 5; 4; 6]%R) (2 * Rtrigo1.PI) 5 0 0) as (c & _ & _ & _ & Hc & _).
  etransitivity; [apply (C50_arsi 6 [1; 2; 3; 5; 4; 6]%R 10%R c ltac:(reflexivity) ltac:(zl) ltac:(lra) ltac:(unfold INT_MAX; lra) Hc)|]. apply okl. change (tab 5 6 ?f) with [f 5].
  unfold arsi_at. rewrite (C50_first_period _ _ _ _ Hc). replace (Int_part (10 * (396 / 1000))) with 3.
  2: { pose proof (base_Int_part (10 * (396 / 1000))) as [B1 B2]. set (k := Int_part _) in *. assert (IZR 2 < IZR k)%R as K1 by lra. assert (IZR k < IZR 4)%R as K2 by lra. apply lt_IZR in K1, K2. lia. }
  change (Z.min 3 5) with 3. cbv zeta. zs. unfold Rmax. repeat match goal with |- context[Rle_dec ?a ?b] => destruct (Rle_dec a b); try (exfalso; lra) end.
  match goal with |- context[Reqb ?a 0] => destruct (Reqb_spec a 0) as [E|_]; [exfalso; lra|] end. repeat apply consl; try reflexivity. lra.
Qed.
(** A constant price of 100 with the usual limits: 50 and 12.5 come out, for any slow limit up to 0.15. *)
Example C50_mama_case : @ti_mama RA 7 [[100; 100; 100; 100; 100; 100; 100]%R] [(1 / 2)%R; (5 / 100)%R] = Ok (OKAY, [[50]; [25 / 2]]%R) /\
  @ti_mama RA 7 [[100; 100; 100; 100; 100; 100; 100]%R] [(1 / 2)%R; 0%R] = @ti_mama RA 7 [[100; 100; 100; 100; 100; 100; 100]%R] [(1 / 2)%R; (5 / 100)%R].
Proof.
  split.
  - rewrite (C50_mama_first _ (1 / 2)%R (5 / 100)%R) by (reflexivity || lra). rewrite Rmax_right by lra. zs. 
    apply f_equal. apply peq; [reflexivity|]. apply consl; [apply consl; [lra|reflexivity]|]. apply consl; [apply consl; [lra|reflexivity]|reflexivity].
  - assert (5 / 100 <= 1 / 2 / Rtrigo1.PI)%R. { pose proof PI_4. pose proof PI_RGT_0. apply Rmult_le_reg_r with Rtrigo1.PI; [lra|]. unfold Rdiv at 2. rewrite Rmult_assoc, Rinv_l by lra. lra. }
    apply C50_mama_slow_unused; [reflexivity|zl|lra|lra|lra].
Qed.

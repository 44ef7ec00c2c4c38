(** C20 - C22: true range, Bollinger bands, moving-average convergence/divergence. *)
From Coq Require Import SpecFloat.
From Verif Require Import Fun_osc Properties_basic F64Ord F64Laws.

(** ** C21 *)
Theorem C21_bbands : forall size (x : list R) (o sd : R) p,
  zlen x = size -> 0 <= size <= INT_MAX -> @to_int RA o = Some p -> 1 <= p ->
  exists lower middle upper, @ti_bbands RA size [x] [o; sd] = Ok (OKAY, [lower; middle; upper]) /\
    zlen lower = Z.max 0 (size - p + 1) /\ zlen middle = Z.max 0 (size - p + 1) /\ zlen upper = Z.max 0 (size - p + 1) /\
    forall k, 0 <= k < size - p + 1 ->
      zr middle k = mean (window k p x) /\
      (zr upper k - zr middle k = sd * sqrt (popvar (window k p x)) /\
       zr middle k - zr lower k = sd * sqrt (popvar (window k p x)) /\
       (0 <= sd -> zr lower k <= zr middle k <= zr upper k))%R.
Proof.
  intros size x o sd p Hl Hs Ho Hp. do 3 eexists. split; [apply bbands_fun; eauto|]. rewrite !zlen_tab.
  repeat (split; [lia|]). intros k Hk. change (@T RA) with R. rewrite !zn_tab by lia. rewrite !Z.add_0_l.
  split; [reflexivity|]. split; [lra|]. split; [lra|]. intros Hsd. pose proof (sqrt_pos (popvar (window k p x))). split; nra.
Qed.
Print Assumptions C21_bbands.
(** popvar and mean are the textbook definitions. *)
Example C21_example : @ti_bbands F64c 4 [[dbl 1 0; dbl 3 0; dbl 5 0; dbl 5 0]] [dbl 2 0; dbl 2 0] =
  Ok (OKAY, [[dbl 0 0; dbl 2 0; dbl 5 0]; [dbl 2 0; dbl 4 0; dbl 5 0]; [dbl 4 0; dbl 6 0; dbl 5 0]]).
Proof. vm_compute. reflexivity. Qed.

(** ** C22 *)
(** Any arithmetic, periods other than (12, 26): macd is the difference of what ti_ema writes
    for the two periods, and the histogram is macd - signal. *)
Theorem C22_macd : forall {A : Arith} {L : IntLaws A} size x o1 o2 o3 s l g,
  zlen x = size -> 0 <= size <= INT_MAX ->
  to_int o1 = Some s -> to_int o2 = Some l -> to_int o3 = Some g -> 1 <= s -> 2 <= l -> s <= l -> 1 <= g ->
  exists es el macd signal hist,
    ti_ema size [x] [o1] = Ok (OKAY, [es]) /\ ti_ema size [x] [o2] = Ok (OKAY, [el]) /\
    ti_macd size [x] [o1; o2; o3] = Ok (OKAY, [macd; signal; hist]) /\
    zlen macd = Z.max 0 (size - (l - 1)) /\ zlen signal = zlen macd /\ zlen hist = zlen macd /\
    forall k, 0 <= k < zlen macd ->
      ((s, l) <> (12, 26) -> zf macd k = zf es (k + l - 1) .- zf el (k + l - 1)) /\
      zf hist k = zf macd k .- zf signal k.
Proof.
  intros A L size x o1 o2 o3 s l g Hl Hs H1 H2 H3 Ps Pl Psl Pg. do 5 eexists.
  split; [apply ema_fun'; eauto|]. split; [apply ema_fun'; eauto; lia|]. split; [apply macd_fun; eauto|].
  rewrite !zlen_tab. split; [lia|]. split; [lia|]. split; [lia|]. intros k Hk. unfold zf.
  rewrite !zn_tab by lia. rewrite !Z.add_0_l. split; [|reflexivity].
  intros Hne. unfold macd_val, macd_short, macd_long. replace ((s =? 12) && (l =? 26)) with false; [reflexivity|].
  destruct (s =? 12) eqn:E1; destruct (l =? 26) eqn:E2; try reflexivity. exfalso; apply Hne. f_equal; lia.
Qed.
Print Assumptions C22_macd.
(** With periods 12 and 26 the smoothing factors are 0.15 and 0.075. *)
Theorem C22_macd_12_26 : forall {A : Arith} {L : IntLaws A} size x o1 o2 o3 g,
  zlen x = size -> 0 <= size <= INT_MAX -> to_int o1 = Some 12 -> to_int o2 = Some 26 -> to_int o3 = Some g -> 1 <= g ->
  exists macd signal hist,
    ti_macd size [x] [o1; o2; o3] = Ok (OKAY, [macd; signal; hist]) /\
    forall k, 0 <= k < size - 25 -> zf macd k =
       trec (fun i v => (zf x i .- v) .* lit 15 2 .+ v) 1 (k + 26) (zf x 0) .-
       trec (fun i v => (zf x i .- v) .* lit 75 3 .+ v) 1 (k + 26) (zf x 0).
Proof.
  intros A L size x o1 o2 o3 g Hl Hs H1 H2 H3 Pg. do 3 eexists. split; [apply macd_fun; eauto; lia|].
  intros k Hk. unfold zf at 1. rewrite zn_tab by lia. rewrite !Z.add_0_l.
  unfold macd_val, macd_short, macd_long, ema_at, ema_step. cbn [Z.eqb Pos.eqb andb].
  replace (k + 26 - 1 + 1) with (k + 26) by lia. reflexivity.
Qed.
Print Assumptions C22_macd_12_26.
(** Exact arithmetic: the signal line is what ti_ema writes for the macd line. *)
Theorem C22_signal : forall size (x : list R) (o1 o2 o3 : R) s l g,
  zlen x = size -> 0 <= size <= INT_MAX ->
  @to_int RA o1 = Some s -> @to_int RA o2 = Some l -> @to_int RA o3 = Some g -> 1 <= s -> 2 <= l -> s <= l -> 1 <= g ->
  exists macd signal hist,
    @ti_macd RA size [x] [o1; o2; o3] = Ok (OKAY, [macd; signal; hist]) /\
    @ti_ema RA (zlen macd) [macd] [o3] = Ok (OKAY, [signal]).
Proof.
  intros size x o1 o2 o3 s l g Hl Hs H1 H2 H3 Ps Pl Psl Pg. do 3 eexists.
  split; [apply (@macd_fun RA _); eauto|].
  etransitivity; [apply (@ema_fun' RA _ _ _ _ g); eauto; rewrite zlen_tab; change (@T RA) with R; lia|].
  apply okl, consl; [|reflexivity]. rewrite zlen_tab. replace (Z.max 0 (size - l + 1 - 0)) with (Z.max 0 (size - l + 1)) by lia.
  destruct (Z.le_gt_cases (size - l + 1) 0) as [Hn|Hn]; [rewrite !tab_nil by lia; reflexivity|].
  replace (Z.max 0 (size - l + 1)) with (size - l + 1) by lia.
  apply tab_ext. intros k Hk. symmetry. unfold ema_at, macd_sig.
  set (M := tab 0 (size - l + 1) (fun k : Z => @macd_val RA x s l (k + l - 1))).
  assert (HM : forall j, 0 <= j < size - l + 1 -> @zf RA M j = @macd_val RA x s l (j + l - 1)).
  { intros j Hj. unfold zf, M. rewrite zn_tab by lia. rewrite Z.add_0_l. reflexivity. }
  refine (zind (fun j => j < size - l + 1 -> trec _ (l - 1) (j + l - 1 + 1) _ = trec _ 1 (j + 1) _) 0 k _ _ _ _); try lia.
  - intros _. rewrite (trec_snoc _ (l - 1) (0 + l - 1)) by lia. rewrite !trec_nil by lia. rewrite HM by lia.
    replace (0 + l - 1) with (l - 1) by lia. unfold ema_step. toR. ring.
  - intros n Hn0 IH Hlt. replace (n + 1 + l - 1 + 1) with (n + l - 1 + 1 + 1) by lia.
    rewrite (trec_snoc _ (l - 1) (n + l - 1 + 1)), (trec_snoc _ 1 (n + 1)) by lia. rewrite IH by lia. rewrite (HM (n + 1)) by lia.
    replace (n + 1 + l - 1) with (n + l - 1 + 1) by lia. reflexivity.
Qed.
Print Assumptions C22_signal.
(** apo and ppo are computed from the same two averages. *)
Theorem C22_apo_ppo : forall {A : Arith} {L : IntLaws A} size x o1 o2 s l,
  zlen x = size -> 0 <= size <= INT_MAX -> to_int o1 = Some s -> to_int o2 = Some l -> 1 <= s -> 2 <= l -> s <= l ->
  exists es el apo ppo,
    ti_ema size [x] [o1] = Ok (OKAY, [es]) /\ ti_ema size [x] [o2] = Ok (OKAY, [el]) /\
    ti_apo size [x] [o1; o2] = Ok (OKAY, [apo]) /\ ti_ppo size [x] [o1; o2] = Ok (OKAY, [ppo]) /\
    zlen apo = Z.max 0 (size - 1) /\ zlen ppo = Z.max 0 (size - 1) /\
    forall k, 0 <= k < size - 1 ->
      zf apo k = zf es (k + 1) .- zf el (k + 1) /\
    zf ppo k = if truth (zf apo k) then #100 .* zf apo k ./ zf el (k + 1) else #0.
Proof.
  intros A L size x o1 o2 s l Hl Hs H1 H2 Ps Pl Psl. do 4 eexists.
  split; [apply ema_fun'; eauto|]. split; [apply ema_fun'; eauto; lia|]. split; [apply apo_fun; eauto|]. split; [apply ppo_fun; eauto|].
  rewrite !zlen_tab. split; [lia|]. split; [lia|]. intros k Hk. unfold zf.
  rewrite !zn_tab by lia. rewrite !Z.add_0_l, two_emas_eq. cbn [fst snd]. split; reflexivity.
Qed.
Print Assumptions C22_apo_ppo.
Example C22_example : exists m s h,
  @ti_macd F64c 5 [[dbl 1 0; dbl 3 0; dbl 5 0; dbl 4 0; dbl 9 0]] [dbl 1 0; dbl 3 0; dbl 3 0] = Ok (OKAY, [m; s; h]) /\
    @ti_ema F64c 3 [m] [dbl 3 0] = Ok (OKAY, [s]) /\ m = [dbl 15 1; dbl 25 2; dbl 2625 3] /\ zlen h = 3.
Proof. do 3 eexists. split; [vm_compute; reflexivity|]. vm_compute. auto. Qed.

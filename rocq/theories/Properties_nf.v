(** C54: what one bad value, or rounding alone, does to a running computation in double arithmetic.

    Reading guide.  [nonfin v] says that [v] is a NaN or an infinity.  [keeps start f] says: if bar [k] of the series of
    [f] is a NaN or an infinity then so is every output of [f] for bar [k] and for every later bar, however long ago bar [k]
    left the window.  [sticky f] says: once an output of [f] is a NaN or an infinity, every later one is (all in Fun_nf.v). *)
From Coq Require Import Floats.SpecFloat ZifyBool.
From Verif Require Import F64Laws M_basic M_osc Spec C_basic C_osc Tactics.
From Verif Require Import F64Range Fun_64 Fun_64d Fun_nf.
Open Scope Z_scope.
#[local] Existing Instance F64_laws.

(** the indicators which never forget, with their offset function and options for the concrete case below *)
Definition keepers (A : Arith) : list (@startfn A * @batchfn A * list Z) :=
  [(@start_p1 A, @ti_sum A, [3]); (@start_p1 A, @ti_sma A, [3]); (@start_p1 A, @ti_wilders A, [3]); (@start_p1 A, @ti_wma A, [3]); (@start_p1 A, @ti_trima A, [5]);
   (@start_p1 A, @ti_var A, [3]); (@start_p1 A, @ti_stddev A, [3]); (@start_p1 A, @ti_stderr A, [3]); (@start_p1 A, @ti_md A, [3]); (@start_p1 A, @ti_dpo A, [4]);
   (@start0 A, @ti_ema A, [3]); (@ti_dema_start A, @ti_dema A, [3]); (@start_p13 A, @ti_tema A, [3]); (@ti_trix_start A, @ti_trix A, [2]);
   (@ti_bbands_start A, @ti_bbands A, [3; 2]); (@start1 A, @ti_apo A, [2; 5]); (@start1 A, @ti_ppo A, [2; 5]); (@ti_macd_start A, @ti_macd A, [2; 5; 3]);
   (@start_l1 A, @ti_vosc A, [2; 5]); (@start_p1 A, @ti_linreg A, [3]); (@start_p1 A, @ti_linregintercept A, [3]); (@start_p1 A, @ti_linregslope A, [3]); (@start_p1 A, @ti_tsf A, [3])].

Theorem C54_never_forgotten : forall lm pw, Forall (fun r => keeps lm pw (fst (fst r)) (snd (fst r))) (keepers (F64 lm pw)).
Proof.
  intros lm pw. unfold keepers. repeat apply Forall_cons; try apply Forall_nil; cbn [fst snd].
  - apply sum_keeps. - apply sma_keeps. - apply wilders_keeps. - apply wma_keeps. - apply trima_keeps. - apply var_keeps. - apply stddev_keeps. - apply stderr_keeps. - apply md_keeps. - apply dpo_keeps.
  - apply ema_keeps. - apply dema_keeps. - apply tema_keeps. - apply trix_keeps. - apply bbands_keeps. - apply apo_keeps. - apply ppo_keeps. - apply macd_keeps.
  - apply vosc_keeps. - apply linreg_keeps. - apply linregintercept_keeps. - apply linregslope_keeps. - apply tsf_keeps.
Qed.
Print Assumptions C54_never_forgotten.
(** the adaptive averages carry a bad output on for ever *)
Theorem C54_adaptive : forall lm pw, sticky lm pw (@ti_vidya (F64 lm pw)) /\ sticky lm pw (@ti_kama (F64 lm pw)) /\ sticky lm pw (@ti_zlema (F64 lm pw)).
Proof. intros lm pw. split; [apply vidya_sticky|split; [apply kama_sticky|apply zlema_sticky]]. Qed.
Print Assumptions C54_adaptive.

(** ** Rounding alone is enough *)
(** vidya.cc:57-62 guards against a quotient which is NaN but not against one which is infinite: whatever comes after four bars at 0.3,
    every output of vidya with periods 3 and 4 except the first is a NaN or an infinity *)
Theorem C54_vidya_constant : forall lm pw (tail : list spec_float), let A := F64 lm pw in let d : spec_float := dbl 3 1 in 4 + zlen tail <= INT_MAX ->
  exists out, @ti_vidya A (4 + zlen tail) [d :: d :: d :: d :: tail] [dbl 3 0; dbl 4 0; dbl 2 1] = Ok (OKAY, [out]) /\ zlen out = zlen tail + 2 /\
    forall j, 1 <= j < zlen out -> nonfin (@zf A out j).
Proof.
  intros lm pw tail A d Hs. assert (Zt : 0 <= zlen tail) by (unfold zlen; lia). set (x := d :: d :: d :: d :: tail). set (opts := [dbl 3 0; dbl 4 0; dbl 2 1]).
  assert (Zx : zlen x = 4 + zlen tail) by (unfold x; change (@zlen spec_float (d :: d :: d :: d :: tail) = 4 + zlen tail); unfold zlen; cbn [length]; lia).
  assert (W : @wf A 1 (4 + zlen tail) [x]). { split; [reflexivity|]. split; [apply Forall_cons; [exact Zx|apply Forall_nil]|]. split; [apply Z.add_nonneg_nonneg; [discriminate|exact Zt]|exact Hs]. }
  assert (O : @o_vidya A opts (Accept 2)). { exists (dbl 3 0), (dbl 4 0), (dbl 2 1), 3, 4. split; [reflexivity|]. split; [vm_compute; reflexivity|]. split; [vm_compute; reflexivity|]. vm_compute. reflexivity. }
  destruct (@vidya_contract A _ (4 + zlen tail) [x] opts (Accept 2) W O) as [_ C]. destruct (C ltac:(intros X; apply (f_equal (fun z => z - 4)) in X; revert X Zt; clear; generalize (zlen tail); intros; lia)) as (outs & E & L & Z0).
  destruct outs as [|out []]; [discriminate| |discriminate]. exists out. split; [exact E|].
  apply Forall_inv in Z0. assert (Z1 : zlen out = zlen tail + 2) by (etransitivity; [exact Z0|lia]). split; [exact Z1|].
  pose proof (vidya_03 lm pw tail _ E) as N. cbn [snd] in N. apply Forall_inv in N.
  pose proof (vidya_sticky lm pw _ _ _ _ _ E) as S. apply Forall_inv in S. intros j Hj. apply (S 1); [split; [discriminate|apply Hj]|apply Hj|exact N].
Qed.
Print Assumptions C54_vidya_constant.
(** after one value of 10^17 the average of two bars of a series which stays at 1 is written as 0 for ever *)
Theorem C54_sma_spike : forall lm pw n, let A := F64 lm pw in (1 <= n)%nat -> Z.of_nat n + 1 <= INT_MAX ->
  @ti_sma A (Z.of_nat n + 1) [@of_Z A (10 ^ 17) :: repeat (@of_Z A 1) n] [dbl 2 0] = Ok (OKAY, [@of_Z A (5 * 10 ^ 16) :: repeat (@of_Z A 0) (n - 1)]).
Proof.
  intros lm pw n A Hn Hs. set (x := @of_Z A (10 ^ 17) :: repeat (@of_Z A 1) n).
  assert (Zx : zlen x = Z.of_nat n + 1) by (unfold x, zlen; cbn [length]; rewrite repeat_length; lia).
  assert (W : @wf A 1 (Z.of_nat n + 1) [x]). { split; [reflexivity|]. split; [apply Forall_cons; [exact Zx|apply Forall_nil]|lia]. }
  assert (O : @int_opts A 1 (v_period 1 INT_MAX (-1)) [dbl 2 0] (Accept 1)). { exists [2]. split; [reflexivity|]. split; [repeat constructor; vm_compute; reflexivity|]. vm_compute. reflexivity. }
  destruct (@sma_contract A _ _ _ _ _ W O) as (_ & outs & E & _). pose proof (sma_spike lm pw n Hn _ E) as X. unfold x in *. etransitivity; [exact E|]. f_equal. exact X.
Qed.
Print Assumptions C54_sma_spike.
(** the bands of three equal prices: the square root of a variance which rounding made negative is NaN, the middle band is fine *)
Theorem C54_bbands_refuted : exists v : @T F64c, v = dbl 13 1 /\ @ti_bbands F64c 3 [[v; v; v]] [dbl 3 0; dbl 2 0] = Ok (OKAY, [[S754_nan]; [v]; [S754_nan]]).
Proof. eexists. split; [reflexivity|]. vm_compute. reflexivity. Qed.
Print Assumptions C54_bbands_refuted.
(** ** Not every indicator tells: a NaN among the prices which no output of rsi or cmo shows *)
Theorem C54_hidden_refuted : exists x : list (@T F64c), @zf F64c x 2 = S754_nan /\
  (exists out, @ti_rsi F64c 6 [x] [dbl 2 0] = Ok (OKAY, [out]) /\ zlen out = 4 /\ Forall (fun v => ~ nonfin v) out) /\
  exists out, @ti_cmo F64c 6 [x] [dbl 2 0] = Ok (OKAY, [out]) /\ zlen out = 4 /\ Forall (fun v => ~ nonfin v) out.
Proof.
  exists [dbl 1 0; dbl 2 0; S754_nan; dbl 3 0; dbl 2 0; dbl 4 0]. split; [reflexivity|].
  split; (eexists; split; [vm_compute; reflexivity|]; split; [reflexivity|]; repeat constructor; intros H; exact H).
Qed.
Print Assumptions C54_hidden_refuted.

(** ** Concrete cases *)
Definition nonfinb (v : spec_float) : bool := match v with S754_nan | S754_infinity _ => true | _ => false end.
(** twelve bars of which bar 9 is bad: finite outputs before that bar, and no finite output after it *)
Definition row_case (bad : spec_float) (r : @startfn F64c * @batchfn F64c * list Z) : bool :=
  let '(start, f, opts) := r in
  let x := map (fun z => dbl z 0) [3; 5; 4; 8; 6; 7; 9; 5; 8] ++ [bad] ++ map (fun z => dbl z 0) [6; 7] in
  let options := map (fun z => dbl z 0) opts in
  match start options, f 12 [x] options with
  | Ok s, Ok (OKAY, outs) => (s <? 9) && negb (length outs =? 0)%nat && forallb (fun out => (zlen out =? 12 - s) &&
      forallb (fun v => negb (nonfinb v)) (firstn (Z.to_nat (9 - s)) out) && forallb nonfinb (skipn (Z.to_nat (9 - s)) out)) outs
  | _, _ => false
  end.
Example C54_never_forgotten_case : Forall (fun r => row_case S754_nan r = true /\ row_case (S754_infinity false) r = true) (keepers F64c).
Proof. unfold keepers. repeat apply Forall_cons; try apply Forall_nil; vm_compute; split; reflexivity. Qed.
(** a NaN among the prices of zlema and kama, and six bars at 0.3 for vidya *)
Example C54_adaptive_case : @ti_zlema F64c 4 [[dbl 1 0; S754_nan; dbl 2 0; dbl 3 0]] [dbl 3 0] = Ok (OKAY, [[dbl 1 0; S754_nan; S754_nan; S754_nan]]) /\
  @ti_kama F64c 4 [[S754_nan; dbl 1 0; dbl 2 0; dbl 3 0]] [dbl 1 0] = Ok (OKAY, [[S754_nan; S754_nan; S754_nan; S754_nan]]) /\
  @ti_vidya F64c 6 [repeat (dbl 3 1) 6] [dbl 3 0; dbl 4 0; dbl 2 1] = Ok (OKAY, [[dbl 3 1; S754_nan; S754_nan; S754_nan]]).
Proof. split; [vm_compute; reflexivity|]. split; vm_compute; reflexivity. Qed.
Example C54_sma_spike_case : @ti_sma F64c 4 [[dbl (10 ^ 17) 0; dbl 1 0; dbl 1 0; dbl 1 0]] [dbl 2 0] = Ok (OKAY, [[dbl (5 * 10 ^ 16) 0; dbl 0 0; dbl 0 0]]).
Proof. vm_compute. reflexivity. Qed.

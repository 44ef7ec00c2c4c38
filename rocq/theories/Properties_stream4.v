(** C23, C26, C30, C33-C35 for mesastoch, C30 and C26 for arsi, and C40: the ranges of er, rmi, tsi
    and arsi. *)
From Coq Require Import String Floats.SpecFloat.
From Verif Require Import C_stream6 C_stream7R C_stream7 Fun_range2 RArith F64 F64Ord F64Laws Properties_contracts Properties_stream Properties_stream3.
From Coq Require Import Reals Lra.
Open Scope Z_scope.

(** ** mesastoch *)
(** One row for every second option [mcc]; the condition is that the filtered series holds
    neither NaN nor -0 (the extremes of the filtered series are followed). *)
Definition mesastoch_row {A : Arith} (good : T -> Prop) (mcc : Z) : srow :=
  SRow "mesastoch"%string 1 1 (o_mesa mcc) (good_filtered good mcc) _ ti_mesastoch_start ti_mesastoch ti_mesastoch_stream_new ti_mesastoch_stream_run progress.
Lemma mesastoch_row_all {A : Arith} {IL : IntLaws A} good mcc : AntiLaws A good -> InfLaw A good -> row_all (mesastoch_row good mcc).
Proof. intros AL IF. apply row_intro; [repeat constructor|exact (mesastoch_sim good AL mcc IF)|exact mesastoch_online]. Qed.
Theorem C30_mesastoch_partial : forall lm pw mcc, let r := @mesastoch_row (F64 lm pw) plain mcc in
  row_stream r /\ row_progress r /\ row_options r /\ row_causal r /\ row_safe r.
Proof.
  intros lm pw mcc r. destruct (@mesastoch_row_all (F64 lm pw) _ plain mcc (plain_laws lm pw) (plain_inf lm pw)) as (H1 & H2 & H3 & H4 & H5 & _). auto.
Qed.
Print Assumptions C30_mesastoch_partial.
(** A library whose sin, cos and exp are constants of the right size. *)
Definition F64d : Arith := F64 (fun f _ => match f with Lcos => dbl 1 0 | Lsin => dbl 1 1 | Lexp => dbl 6 1 | _ => S754_nan end) (fun _ _ => S754_nan).
Example C30_mesastoch_example :
  let x := [dbl 1 0; dbl 2 0; dbl 4 0; dbl 9 0; dbl 20 0; dbl 40 0; dbl 90 0] in
  @accepted F64d (o_mesa 48) [dbl 3 0; dbl 48 0] /\ @good_filtered F64d plain 48 [x] /\
  exists u v, u <> v /\ @ti_mesastoch F64d 7 [x] [dbl 3 0; dbl 48 0] = Ok (OKAY, [[u; v]]) /\
  @stream_outputs F64d _ ti_mesastoch_stream_new ti_mesastoch_stream_run 1 [dbl 3 0; dbl 48 0] [[firstn 3 x]; [skipn 3 x]] = Some [[u; v]].
Proof.
  cbv zeta. split; [exists 5, (dbl 3 0), (dbl 48 0), 3; split; [reflexivity|]; split; [|split]; vm_compute; reflexivity|].
  split; [vm_compute; repeat constructor; discriminate|].
  do 2 eexists. split; [|split; vm_compute; reflexivity]. vm_compute. discriminate.
Qed.

(** ** C26: the smallest accepted periods *)
(** With period 1 or 2 the two last filtered values do not fit the buffer. *)
Theorem C26_mesastoch_refuted : exists options options' inputs,
  (@unsafe_call F64c 1 ti_mesastoch_start ti_mesastoch 3 inputs options /\ @ti_mesastoch F64c 3 inputs options = Ub Assert) /\
  (@unsafe_call F64c 1 ti_mesastoch_start ti_mesastoch 3 inputs options' /\ @ti_mesastoch F64c 3 inputs options' = Ub Assert).
Proof. exists [dbl 1 0; dbl 48 0], [dbl 2 0; dbl 48 0], [ones 3]. split; unsafe. Qed.
Print Assumptions C26_mesastoch_refuted.
(** A NaN among the first bars leaves the bar of the extreme uninitialised. *)
Theorem C26_mesastoch_nan_refuted : exists inputs options,
  @unsafe_call F64d 1 ti_mesastoch_start ti_mesastoch 6 inputs options /\ @ti_mesastoch F64d 6 inputs options = Ub Uninit /\ @accepted F64d (o_mesa 48) options.
Proof.
  exists [S754_nan :: ones 5], [dbl 3 0; dbl 48 0]. rewrite and_assoc_l. split; [unsafe|].
  exists 5, (dbl 3 0), (dbl 48 0), 3; split; [reflexivity|]; split; [|split]; vm_compute; reflexivity.
Qed.
Print Assumptions C26_mesastoch_nan_refuted.

(** ** arsi *)
(** Its stream keeps (int)(50 cycpart + 1) prices but always reads four: with cycpart = 0.05,
    accepted by both, the first full bar fails where the batch call succeeds. *)
Definition stream_failure {A : Arith} {St} (new : newfn St) (run : runfn St) nout options chunks : option ubkind :=
  match new options with
  | Ok (OKAY, Some st) => match feed run nout st chunks with Ub k => Some k | _ => None end
  | _ => None
  end.
Theorem C30_arsi_refuted : exists options x,
  @ti_arsi F64c 6 [x] options = Ok (OKAY, [[dbl 0 0]]) /\
  @stream_failure F64c _ ti_arsi_stream_new ti_arsi_stream_run 1 options [[x]] = Some Assert.
Proof. exists [dbl 5 2], (ones 6). split; vm_compute; reflexivity. Qed.
Print Assumptions C30_arsi_refuted.
(** A NaN among the prices makes the period NaN, which the next line converts to int. *)
Theorem C23_arsi_refuted : exists inputs options,
  @unsafe_call F64c 1 ti_arsi_start ti_arsi 7 inputs options /\ @ti_arsi F64c 7 inputs options = Ub BadCast.
Proof. exists [S754_nan :: ones 6], [dbl 1 0]. unsafe. Qed.
Print Assumptions C23_arsi_refuted.

(** ** C40: ranges, exact arithmetic *)
Definition stays_in (lo hi : R) (nin : nat) (os : @optspec RA) (f : @batchfn RA) : Prop :=
  forall size inputs options, wf nin size inputs -> accepted os options ->
  exists y, f size inputs options = Ok (OKAY, [y]) /\ Forall (fun v => lo <= v <= hi)%R y.
Lemma stays_intro lo hi os start f :
  contract_on always 1 1 os start f ->
  (forall options st, os options (Accept st) -> forall size x y, 0 <= size -> f size [x] options = Ok (OKAY, [y]) -> Forall (fun v => lo <= v <= hi)%R y) ->
  stays_in lo hi 1 os f.
Proof.
  intros Hc Hr size inputs options Hw [st Ha]. destruct (Hc size inputs options _ Hw Ha I) as (_ & outs & E & Hl & _).
  destruct Hw as (Hn & Hf & Hs). destruct inputs as [|x [|]]; try discriminate. destruct outs as [|y [|]]; try discriminate.
  exists y. split; [exact E|]. eapply Hr; [exact Ha| |exact E]. lia.
Qed.
Theorem C40_ranges :
  stays_in 0 1 1 (int_opts 1 (v_period 1 (INT_MAX - 1) 0)) ti_er /\
  stays_in 0 100 1 o_rmi ti_rmi /\
  stays_in (-100) 100 1 (o_two 1 1 1) ti_tsi /\
  stays_in 0 100 1 o_arsi ti_arsi.
Proof.
  split; [|split; [|split]]; (eapply stays_intro; [eapply sim_contract|]).
  - exact (@er_sim RA _).
  - intros options st (ns & Hl & _) size x y Hs. destruct options as [|o [|]]; try discriminate. apply er_range; assumption.
  - exact rmi_sim.
  - intros options st Ho size x y Hs. destruct options as [|o [|p [|]]]; try (intros H; discriminate H). apply rmi_range; assumption.
  - exact (@tsi_sim RA).
  - intros options st Ho size x y Hs. destruct options as [|o [|p [|]]]; try (intros H; discriminate H). apply tsi_range; assumption.
  - exact arsi_sim.
  - intros options st Ho size x y Hs. destruct options as [|o [|]]; try (intros H; discriminate H). apply arsi_range; assumption.
Qed.
Print Assumptions C40_ranges.
Example C40_example : exists a b, @ti_er F64c 5 [[dbl 1 0; dbl 3 0; dbl 2 0; dbl 2 0; dbl 2 0]] [dbl 2 0] = Ok (OKAY, [[a; b; dbl 0 0]]) /\
  @flt F64c (dbl 0 0) a = true /\ @flt F64c a b = true /\ @fle F64c b (dbl 1 0) = true.
Proof. do 2 eexists. split; [vm_compute; reflexivity|]. split; [|split]; vm_compute; reflexivity. Qed.

(** C26 (pc), C28 (ce, mhlma, smi), C30, C33-C35 for the indicators that follow the extremes of
    a window: pc, ce, mhlma, ichi, smi.

    A batch function and its stream search an expired extreme in different orders.  Both then
    hold an extreme of the window, but when it occurs more than once not necessarily the same
    bar.  The outputs agree bit for bit as soon as equal values are identical, so everywhere in
    binary64 but between +0 and -0. *)
From Coq Require Import String Floats.SpecFloat.
From Verif Require Import C_stream6 RArith F64 F64Ord F64Laws Properties_contracts Properties_stream.
From Coq Require Import Reals Lra.
Open Scope Z_scope.

Lemma and_assoc_l P Q R : P /\ Q /\ R <-> (P /\ Q) /\ R. Proof. tauto. Qed.
Definition stream_table_ordered {A : Arith} (good : T -> Prop) : list srow :=
  [ (* period at least 2, see C26 *)
    SRow "pc"%string 2 2 (int_opts 1 v_pc) (good_inputs good 2) _ ti_pc_start ti_pc ti_pc_stream_new ti_pc_stream_run progress;
    SRow "ichi"%string 2 4 (int_opts 3 v_ichi) (good_inputs good 2) _ ti_ichi_start ti_ichi ti_ichi_stream_new ti_ichi_stream_run progress;
    (* periods at least 2 here, see C28 *)
    SRow "smi"%string 3 1 (o_Z3 v_smi) (good_inputs good 2) _ ti_smi_start ti_smi ti_smi_stream_new ti_smi_stream_run progress;
    SRow "ce"%string 3 2 o_ce (good_inputs good 2) _ ti_ce_start ti_ce ti_ce_stream_new ti_ce_stream_run progress;
    SRow "mhlma"%string 1 2 (int_opts 2 v_mhlma) (good_inputs good 1) _ ti_mhlma_start ti_mhlma ti_mhlma_stream_new ti_mhlma_stream_run progress ].

Lemma stream_table_ordered_all {A : Arith} {IL : IntLaws A} (good : T -> Prop) :
  AntiLaws A good -> InfLaw A good -> Forall row_all (stream_table_ordered good).
Proof.
  intros AL IF. unfold stream_table_ordered. rows.
  all: first [exact (pc_sim good AL IF)|exact pc_online|exact (ichi_sim good AL IF)|exact ichi_online|exact (smi_sim good AL IF)|exact smi_online
    |exact (ce_sim good AL)|exact ce_online|exact (mhlma_sim good AL)|exact mhlma_online].
Qed.

(** ** Binary64: neither NaN nor the negative zero (the infinities are allowed) *)
Definition plain (x : spec_float) : Prop := x <> S754_nan /\ x <> S754_zero true.
Lemma plain_laws lm pw : AntiLaws (F64 lm pw) plain.
Proof.
  constructor.
  - destruct (F64_ord lm pw) as [O1 O2 O3 O4]. constructor.
    + intros x y [Hx _] [Hy _]. apply O1; assumption.
    + intros x [Hx _]. apply O2; assumption.
    + intros x y z [Hx _] [Hy _] [Hz _]. apply O3; assumption.
    + intros x y [Hx _] [Hy _]. apply O4; assumption.
  - intros x y [Hx Zx] [Hy Zy] H1 H2. cbn [F64 fle] in H1, H2. apply SFleb_key in H1; [|assumption|assumption]. apply SFleb_key in H2; [|assumption|assumption].
    unfold key_le, keyc, keye, keym in *.
    destruct x as [[]|[]| |[] mx ex]; try congruence; destruct y as [[]|[]| |[] my ey]; try congruence; try lia.
    + assert (mx = my /\ ex = ey) as [-> ->] by lia. reflexivity.
    + assert (mx = my /\ ex = ey) as [-> ->] by lia. reflexivity.
  - split; discriminate.
Qed.
Lemma plain_inf lm pw : InfLaw (F64 lm pw) plain.
Proof. intros x [Hx _]. destruct x as [[]|[]| |[] mx ex]; try congruence; split; reflexivity. Qed.
Lemma RA_anti : AntiLaws RA (fun _ => True).
Proof.
  constructor; [exact RA_ord| |exact I]. intros x y _ _. cbn. destruct (Rleb_spec x y), (Rleb_spec y x); try discriminate. intros _ _. lra.
Qed.

Theorem C30_extremes_binary64 : forall lm pw, Forall (@row_stream (F64 lm pw)) (@stream_table_ordered (F64 lm pw) plain).
Proof. intros. eapply Forall_impl; [|apply (@stream_table_ordered_all (F64 lm pw) _ plain (plain_laws lm pw) (plain_inf lm pw))]. intros r H. apply H. Qed.
Print Assumptions C30_extremes_binary64.
Theorem C33_extremes_binary64 : forall lm pw, Forall (@row_options (F64 lm pw)) (@stream_table_ordered (F64 lm pw) plain).
Proof. intros. eapply Forall_impl; [|apply (@stream_table_ordered_all (F64 lm pw) _ plain (plain_laws lm pw) (plain_inf lm pw))]. intros r H. apply H. Qed.
Theorem C34_extremes_binary64 : forall lm pw, Forall (@row_progress (F64 lm pw)) (@stream_table_ordered (F64 lm pw) plain).
Proof. intros. eapply Forall_impl; [|apply (@stream_table_ordered_all (F64 lm pw) _ plain (plain_laws lm pw) (plain_inf lm pw))]. intros r H. apply H. Qed.
Theorem C35_extremes_binary64 : forall lm pw, Forall (@row_causal (F64 lm pw)) (@stream_table_ordered (F64 lm pw) plain).
Proof. intros. eapply Forall_impl; [|apply (@stream_table_ordered_all (F64 lm pw) _ plain (plain_laws lm pw) (plain_inf lm pw))]. intros r H. apply H. Qed.
Theorem C23_extremes_binary64 : forall lm pw, Forall (@row_safe (F64 lm pw)) (@stream_table_ordered (F64 lm pw) plain).
Proof. intros. eapply Forall_impl; [|apply (@stream_table_ordered_all (F64 lm pw) _ plain (plain_laws lm pw) (plain_inf lm pw))]. intros r H. apply H. Qed.
Print Assumptions C23_extremes_binary64.
(** Ordinary data meet the conditions; pc over three bars, the extreme leaves the window, the
    series in two chunks. *)
Example C30_extremes_example :
  let h := [dbl 5 0; dbl 3 0; dbl 4 0; dbl 2 0; dbl 2 0] in let l := [dbl 1 0; dbl 2 0; dbl 1 0; dbl 1 0; dbl 0 0] in
  accepted (int_opts 1 v_pc) [dbl 3 0] /\ @good_inputs F64c plain 2 [h; l] /\
  @ti_pc F64c 5 [h; l] [dbl 3 0] = Ok (OKAY, [[dbl 1 0; dbl 1 0; dbl 0 0]; [dbl 5 0; dbl 4 0; dbl 4 0]]) /\
  @stream_outputs F64c _ ti_pc_stream_new ti_pc_stream_run 2 [dbl 3 0] [[firstn 2 h; firstn 2 l]; [skipn 2 h; skipn 2 l]] =
    Some [[dbl 1 0; dbl 1 0; dbl 0 0]; [dbl 5 0; dbl 4 0; dbl 4 0]].
Proof.
  cbv zeta. split; [exists 2, [3]; repeat split; repeat constructor; vm_compute; congruence|].
  split; [repeat constructor; vm_compute; discriminate|]. split; vm_compute; reflexivity.
Qed.
(** Full statement: the same without the condition on the series.  False: highs 5, 0, -0, -1 and
    period 3.  When the 5 leaves the window, the batch function finds the newer zero, the stream
    the older one. *)
Theorem C30_zero_sign_refuted : exists inputs options o1 o2, wf 2 4 inputs /\ accepted (int_opts 1 v_pc) options /\
  @ti_pc F64c 4 inputs options = Ok (OKAY, [o1; [dbl 5 0; S754_zero true]]) /\
  @stream_outputs F64c _ ti_pc_stream_new ti_pc_stream_run 2 options [inputs] = Some [o2; [dbl 5 0; S754_zero false]].
Proof.
  exists [[dbl 5 0; dbl 0 0; S754_zero true; dbl (-1) 0]; ones 4], [dbl 3 0]. do 2 eexists.
  split; [repeat split; try lia; repeat constructor; vm_compute; congruence|].
  split; [exists 2, [3]; repeat split; repeat constructor; vm_compute; congruence|]. split; vm_compute; reflexivity.
Qed.
Print Assumptions C30_zero_sign_refuted.

(** ** Exact arithmetic: ce and mhlma, every series *)
Theorem C31_extremes_exact :
  @stream_is_batch_if RA _ 3 2 (accepted o_ce) (@good_inputs RA (fun _ => True) 2) ti_ce ti_ce_stream_new ti_ce_stream_run /\
  @stream_is_batch_if RA _ 1 2 (accepted (int_opts 2 v_mhlma)) (@good_inputs RA (fun _ => True) 1) ti_mhlma ti_mhlma_stream_new ti_mhlma_stream_run.
Proof.
  split; [exact (sim_stream_if _ _ _ _ _ _ _ _ (@ce_sim RA _ _ RA_anti) ce_online)|exact (sim_stream_if _ _ _ _ _ _ _ _ (@mhlma_sim RA _ _ RA_anti) mhlma_online)].
Qed.
Print Assumptions C31_extremes_exact.

(** ** C26: pc with period 1 *)
(** The first loop does not run, so the indices of the extremes are read uninitialised. *)
Theorem C26_pc_refuted : exists inputs options,
  @unsafe_call F64c 2 ti_pc_start ti_pc 3 inputs options /\ @ti_pc F64c 3 inputs options = Ub Uninit.
Proof. exists [ones 3; ones 3], [dbl 1 0]. unsafe. Qed.
Print Assumptions C26_pc_refuted.
(** The same happens for larger periods when the first bars are NaN. *)
Theorem C26_pc_nan_refuted : exists inputs options,
  @unsafe_call F64c 2 ti_pc_start ti_pc 3 inputs options /\ @ti_pc F64c 3 inputs options = Ub Uninit /\ accepted (int_opts 1 v_pc) options.
Proof.
  exists [S754_nan :: ones 2; ones 3], [dbl 2 0]. rewrite and_assoc_l. split; [unsafe|].
  exists 1, [2]; repeat split; repeat constructor; vm_compute; congruence.
Qed.
Print Assumptions C26_pc_nan_refuted.
(** From period 2 up, without NaN. *)
Theorem C26_pc_partial : forall lm pw, @contract_on (F64 lm pw) (@good_inputs (F64 lm pw) plain 2) 2 2 (int_opts 1 v_pc) ti_pc_start ti_pc.
Proof. intros. exact (sim_contract _ _ _ _ _ _ _ _ (@pc_sim (F64 lm pw) plain _ (plain_laws lm pw) (plain_inf lm pw))). Qed.

(** ** C28: averaging period 1 *)
(** Full statement: the contract also with the averaging period 1, for which the start functions
    return 0.  These are the contracts from 2 up. *)
Theorem C28_partial : forall {A : Arith} {IL : IntLaws A} good, AntiLaws A good ->
  contract_on (good_inputs good 2) 3 2 o_ce ti_ce_start ti_ce /\
  contract_on (good_inputs good 1) 1 2 (int_opts 2 v_mhlma) ti_mhlma_start ti_mhlma /\
  (InfLaw A good -> contract_on (good_inputs good 2) 3 1 (o_Z3 v_smi) ti_smi_start ti_smi).
Proof.
  intros A IL good AL. split; [exact (sim_contract _ _ _ _ _ _ _ _ (ce_sim good AL))|].
  split; [exact (sim_contract _ _ _ _ _ _ _ _ (mhlma_sim good AL))|]. intros IF. exact (sim_contract _ _ _ _ _ _ _ _ (smi_sim good AL IF)).
Qed.
Print Assumptions C28_partial.
(** ce, mhlma: bar 0 is consumed without an output, batch and stream alike. *)
Theorem C28_ce_refuted : exists inputs options v w v' w', wf 3 3 inputs /\ @ti_ce_start F64c options = Ok 0 /\
  @ti_ce F64c 3 inputs options = Ok (OKAY, [[v; w]; [v'; w']]) /\
  @stream_outputs F64c _ ti_ce_stream_new ti_ce_stream_run 2 options [inputs] = Some [[v; w]; [v'; w']].
Proof.
  exists [ones 3; ones 3; ones 3], [dbl 1 0; dbl 3 0]. do 4 eexists. split; [repeat split; try lia; repeat constructor; vm_compute; congruence|].
  split; [vm_compute; reflexivity|]. split; vm_compute; reflexivity.
Qed.
Print Assumptions C28_ce_refuted.
(** mhlma also keeps bar 0 in its sum for ever: the first output of the bars 4, 1, 1 is the
    average 5 of one bar. *)
Theorem C28_mhlma_refuted : exists inputs options v', wf 1 3 inputs /\ @ti_mhlma_start F64c options = Ok 0 /\
  @ti_mhlma F64c 3 inputs options = Ok (OKAY, [[dbl 5 0; dbl 5 0]; v']) /\
  @stream_outputs F64c _ ti_mhlma_stream_new ti_mhlma_stream_run 2 options [inputs] = Some [[dbl 5 0; dbl 5 0]; v'].
Proof.
  exists [[dbl 4 0; dbl 1 0; dbl 1 0]], [dbl 1 0; dbl 1 0]. eexists. split; [repeat split; try lia; repeat constructor; vm_compute; congruence|].
  split; [vm_compute; reflexivity|]. split; vm_compute; reflexivity.
Qed.
Print Assumptions C28_mhlma_refuted.
(** smi: the averages are read before they are set; the stream writes its three values. *)
Theorem C28_smi_refuted : exists inputs options v,
  @unsafe_call F64c 3 ti_smi_start ti_smi 3 inputs options /\ @ti_smi F64c 3 inputs options = Ub Uninit /\
  @stream_outputs F64c _ ti_smi_stream_new ti_smi_stream_run 1 options [inputs] = Some [v] /\ zlen v = 3.
Proof.
  exists [[dbl 2 0; dbl 3 0; dbl 4 0]; ones 3; ones 3], [dbl 1 0; dbl 2 0; dbl 2 0]. eexists. rewrite and_assoc_l. split; [unsafe|].
  split; vm_compute; reflexivity.
Qed.
Print Assumptions C28_smi_refuted.
(** A fractional q_period skips the loop that sets the extremes. *)
Theorem C28_smi_fraction_refuted : exists inputs options,
  @unsafe_call F64c 3 ti_smi_start ti_smi 3 inputs options /\ @ti_smi F64c 3 inputs options = Ub Uninit.
Proof. exists [ones 3; ones 3; ones 3], [dbl 25 1; dbl 2 0; dbl 2 0]. unsafe. Qed.
Print Assumptions C28_smi_fraction_refuted.

(** C24, C30-C35, C37 (gf3): streaming.

    A row of [stream_table] lists an indicator's name, its inputs and outputs, the verdict on
    its options, a condition on the series (almost always none), and the five functions of the
    C interface.  The four theorems below hold for every row; their statements are the
    definitions of Spec.v, which mention only those functions. *)
From Coq Require Import String.
From Verif Require Import C_stream2 C_stream3R C_stream3 C_stream4R C_stream4 C_stream5R C_stream5 C_stream7R C_stream7 C_vi RArith F64 F64Laws Properties_contracts.
From Coq Require Import Reals Lra.
Open Scope Z_scope.

Record srow {A : Arith} := SRow {
  s_name : string; s_nin : nat; s_nout : nat; s_opts : optspec; s_ok : list (list T) -> Prop; s_state : Type;
  s_start : startfn; s_fn : batchfn; s_new : newfn s_state; s_run : runfn s_state; s_progress : s_state -> Z }.
Arguments SRow {A}. Arguments s_name {A}. Arguments s_nin {A}. Arguments s_nout {A}. Arguments s_opts {A}. Arguments s_ok {A}.
Arguments s_state {A}. Arguments s_start {A}. Arguments s_fn {A}. Arguments s_new {A}. Arguments s_run {A}. Arguments s_progress {A}.

Section Rows.
Context {A : Arith}.
(** What a new stream writes for the chunks, and its progress afterwards. *)
Definition stream_outputs {St} (new : newfn St) (run : runfn St) nout options chunks : option (list (list T)) :=
  match new options with
  | Ok (OKAY, Some st) => match feed run nout st chunks with Ok (_, o) => Some o | _ => None end
  | _ => None
  end.
Definition stream_progress {K S} (new : newfn (stream (K * S))) run nout options chunks : option Z :=
  match new options with
  | Ok (OKAY, Some st) => match feed run nout st chunks with Ok (st', _) => Some (progress st') | _ => None end
  | _ => None
  end.
(** Any chunking of the series gives, glued together, what the batch call writes. *)
Definition row_stream (r : srow) : Prop :=
  stream_is_batch_if (s_nin r) (s_nout r) (accepted (s_opts r)) (s_ok r) (s_fn r) (s_new r) (s_run r).
(** Progress counts the bars from -start on, and determines how many values were written. *)
Definition row_progress (r : srow) : Prop :=
  progress_ok_if (s_nin r) (s_nout r) (accepted (s_opts r)) (s_ok r) (s_start r) (s_new r) (s_run r) (s_progress r).
(** Batch call and stream constructor accept the same options. *)
Definition row_options (r : srow) : Prop :=
  same_options (s_nin r) (s_nout r) (s_opts r) (s_ok r) (s_fn r) (s_new r).
(** Later bars do not influence earlier outputs. *)
Definition row_causal (r : srow) : Prop :=
  causal_on (s_nin r) (accepted (s_opts r)) (s_ok r) (s_fn r).
(** The batch call is safe and writes size - start values. *)
Definition row_safe (r : srow) : Prop :=
  contract_on (s_ok r) (s_nin r) (s_nout r) (s_opts r) (s_start r) (s_fn r).

Definition row_nonneg (r : srow) : Prop := forall options st, s_opts r options (Accept st) -> 0 <= st.
Definition row_all (r : srow) : Prop := row_stream r /\ row_progress r /\ row_options r /\ row_causal r /\ row_safe r /\ row_nonneg r.
Lemma row_intro {K S} name nin nout os ok start f (new : newfn (stream (K * S))) ph :
  (1 <= nin)%nat -> sim nin nout os ok start f new ph -> online nin ph ->
  row_all (SRow name nin nout os ok _ start f new (mkrun nout ph) progress).
Proof.
  intros Hn Hs Ho. split; [|split; [|split; [|split; [|split]]]].
  - exact (sim_stream_if _ _ _ _ _ _ _ _ Hs Ho).
  - exact (sim_progress_if _ _ _ _ _ _ _ _ Hs Ho).
  - exact (sim_options _ _ _ _ _ _ _ _ Hs).
  - exact (sim_causal _ _ _ _ _ _ _ _ Hs Ho Hn).
  - exact (sim_contract _ _ _ _ _ _ _ _ Hs).
  - intros options st H. apply (Hs options _ H).
Qed.
Lemma row_intro' {K S} name nin nout os ok start f (new : newfn (stream (K * S))) run ph :
  (1 <= nin)%nat -> sim nin nout os ok start f new ph -> online nin ph ->
  same_feed nin nout (accepted os) new run (mkrun nout ph) ->
  row_all (SRow name nin nout os ok _ start f new run progress).
Proof.
  intros Hn Hs Ho Hf. destruct (row_intro name nin nout os ok start f new ph Hn Hs Ho) as (H1 & H2 & H3 & H4 & H5).
  split; [exact (same_feed_stream _ _ _ _ _ _ _ _ Hf H1)|]. split; [exact (same_feed_progress _ _ _ _ _ _ _ _ _ Hf H2)|]. auto.
Qed.
End Rows.

(** ** Bit for bit: every arithmetic *)
Definition stream_table {A : Arith} : list srow :=
  [ SRow "ssmooth"%string 1 1 o_unit always _ ti_ssmooth_start ti_ssmooth ti_ssmooth_stream_new ti_ssmooth_stream_run progress;
    SRow "roof"%string 1 1 o_unit always _ ti_roof_start ti_roof ti_roof_stream_new ti_roof_stream_run progress;
    SRow "lf"%string 1 1 o_nonneg always _ ti_lf_start ti_lf ti_lf_stream_new ti_lf_stream_run progress;
    SRow "mgdyn"%string 1 1 o_any always _ ti_mgdyn_start ti_mgdyn ti_mgdyn_stream_new ti_mgdyn_stream_run progress;
    SRow "rema"%string 1 1 o_rema always _ ti_rema_start ti_rema ti_rema_stream_new ti_rema_stream_run progress;
    SRow "bf2"%string 1 1 (o_bf 2) always _ ti_bf2_start ti_bf2 ti_bf2_stream_new ti_bf2_stream_run progress;
    SRow "bf3"%string 1 1 (o_bf 3) always _ ti_bf3_start ti_bf3 ti_bf3_stream_new ti_bf3_stream_run progress;
    SRow "gf2"%string 1 1 (int_opts 1 v_even40) always _ ti_gf2_start ti_gf2 ti_gf2_stream_new ti_gf2_stream_run progress;
    SRow "gf3"%string 1 1 (int_opts 1 v_even40) always _ ti_gf3_start ti_gf3 ti_gf3_stream_new ti_gf3_stream_run progress;
    (* at least five bars, see C24 *)
    SRow "gf4"%string 1 1 (int_opts 1 v_even40) five _ ti_gf4_start ti_gf4 ti_gf4_stream_new ti_gf4_stream_run progress;
    SRow "t3"%string 1 1 (o_two 1 0 0) always _ ti_t3_start ti_t3 ti_t3_stream_new ti_t3_stream_run progress;
    SRow "tsi"%string 1 1 (o_two 1 1 1) always _ ti_tsi_start ti_tsi ti_tsi_stream_new ti_tsi_stream_run progress;
    SRow "hd"%string 1 1 (v_none 5) always _ ti_hd_start ti_hd ti_hd_stream_new ti_hd_stream_run progress;
    SRow "kc"%string 3 3 o_kc always _ ti_kc_start ti_kc ti_kc_stream_new ti_kc_stream_run progress;
    SRow "ahma"%string 1 1 (int_opts 1 (v_const 1 (INT_MAX - 1) 0)) always _ ti_ahma_start ti_ahma ti_ahma_stream_new ti_ahma_stream_run progress;
    SRow "er"%string 1 1 (int_opts 1 (v_period 1 (INT_MAX - 1) 0)) always _ ti_er_start ti_er ti_er_stream_new ti_er_stream_run progress;
    SRow "evwma"%string 2 1 o_evwma always _ ti_evwma_start ti_evwma ti_evwma_stream_new ti_evwma_stream_run progress;
    SRow "swma"%string 1 1 (int_opts 1 v_swma) always _ ti_swma_start ti_swma ti_swma_stream_new ti_swma_stream_run progress;
    SRow "idwma"%string 1 1 o_idwma always _ ti_idwma_start ti_idwma ti_idwma_stream_new ti_idwma_stream_run progress;
    SRow "rvi"%string 1 1 o_rvi always _ ti_rvi_start ti_rvi ti_rvi_stream_new ti_rvi_stream_run progress;
    (* no zero volume and no zero value, see C32 *)
    SRow "pvt"%string 2 1 (v_none 1) pvt_ok _ ti_pvt_start ti_pvt ti_pvt_stream_new ti_pvt_stream_run progress;
    (* integer options, see C33 *)
    SRow "dwma"%string 1 1 (o_Z1 v_dwma) always _ ti_dwma_start ti_dwma ti_dwma_stream_new ti_dwma_stream_run progress;
    SRow "copp"%string 1 1 (o_Z3 v_copp) always _ ti_copp_start ti_copp ti_copp_stream_new ti_copp_stream_run progress;
    SRow "pfe"%string 1 1 (o_Z2 v_pfe) always _ ti_pfe_start ti_pfe ti_pfe_stream_new ti_pfe_stream_run progress;
    SRow "posc"%string 3 1 (o_Z2 v_posc) always _ ti_posc_start ti_posc ti_posc_stream_new ti_posc_stream_run progress;
    SRow "pbands"%string 3 2 (o_Z1 v_pbands) always _ ti_pbands_start ti_pbands ti_pbands_stream_new ti_pbands_stream_run progress;
    SRow "edcf"%string 1 1 (o_Z1 v_edcf) always _ ti_edcf_start ti_edcf ti_edcf_stream_new ti_edcf_stream_run progress;
    SRow "hurst"%string 1 2 (o_Z1 v_hurst) always _ ti_hurst_start ti_hurst ti_hurst_stream_new ti_hurst_stream_run progress;
    SRow "shmma"%string 1 1 (o_Z1 v_shmma) always _ ti_shmma_start ti_shmma ti_shmma_stream_new ti_shmma_stream_run progress;
    SRow "mama"%string 1 2 o_mama always _ ti_mama_start ti_mama ti_mama_stream_new ti_mama_stream_run progress;
    (* period at least 2, see C28 *)
    SRow "cmi"%string 3 1 (o_Z1 v_cmi) always _ ti_cmi_start ti_cmi ti_cmi_stream_new ti_cmi_stream_run progress ].

Ltac rows := repeat first [apply Forall_nil | apply Forall_cons; [apply row_intro; [repeat constructor| |]|]].
Lemma stream_table_all {A : Arith} {IL : IntLaws A} : Forall row_all stream_table.
Proof.
  unfold stream_table. rows.
  all: first [exact ssmooth_sim|exact ssmooth_online|exact roof_sim|exact roof_online|exact lf_sim|exact lf_online
    |exact mgdyn_sim|exact mgdyn_online|exact rema_sim|exact rema_online|exact bf2_sim|exact bf2_online|exact bf3_sim|exact bf3_online
    |exact gf2_sim|exact gf2_online|exact gf3_sim|exact gf3_online|exact gf4_sim|exact gf4_online|exact t3_sim|exact t3_online
    |exact tsi_sim|exact tsi_online|exact hd_sim|exact hd_online|exact kc_sim|exact kc_online|exact ahma_sim|exact ahma_online
    |exact er_sim|exact er_online|exact evwma_sim|exact evwma_online|exact swma_sim|exact swma_online|exact idwma_sim|exact idwma_online
    |exact rvi_sim|exact rvi_online|exact pvt_sim|exact pvt_online
    |exact dwma_sim|exact dwma_online|exact copp_sim|exact copp_online|exact pfe_sim|exact pfe_online|exact posc_sim|exact posc_online
    |exact pbands_sim|exact pbands_online|exact edcf_sim|exact edcf_online|exact hurst_sim|exact hurst_online
    |exact mama_sim|exact mama_online|exact shmma_sim|exact shmma_online|exact cmi_sim|exact cmi_online].
Qed.

Print Assumptions stream_table_all. (* C23, C30, C33-C35 below are its parts *)

(** vi, whose batch function also rejects series of at most [n] bars; [n] is the integer part of
    the period. *)
Definition vi_row {A : Arith} (n : Z) : srow :=
  SRow "vi"%string 3 2 (o_vi n) (fun inputs => n < csize inputs) _ ti_vi_start ti_vi ti_vi_stream_new ti_vi_stream_run progress.
Lemma vi_row_all {A : Arith} {IL : IntLaws A} n : row_all (vi_row n).
Proof. apply (row_intro' _ _ _ _ _ _ _ _ _ vi_loops); [repeat constructor|exact (vi_sim n)|exact vi_online|exact (vi_same n)]. Qed.

(** ** In exact arithmetic: streams that order the operations differently *)
Definition stream_table_exact : list (@srow RA) :=
  [ SRow "sma"%string 1 1 (int_opts 1 (v_period 1 INT_MAX (-1))) always _ start_p1 ti_sma ti_sma_stream_new ti_sma_stream_run progress;
    SRow "gf1"%string 1 1 (int_opts 1 v_even40) always _ ti_gf1_start ti_gf1 ti_gf1_stream_new ti_gf1_stream_run progress;
    SRow "fi"%string 2 1 (o_one 1) always _ ti_fi_start ti_fi ti_fi_stream_new ti_fi_stream_run progress;
    SRow "hwma"%string 1 1 (int_opts 1 v_hwma) always _ ti_hwma_start ti_hwma ti_hwma_stream_new ti_hwma_stream_run progress;
    SRow "ehma"%string 1 1 (int_opts 1 (v_const 1 (INT_MAX - 1) 0)) always _ ti_ehma_start ti_ehma ti_ehma_stream_new ti_ehma_stream_run progress;
    SRow "pwma"%string 1 1 o_pwma always _ ti_pwma_start ti_pwma ti_pwma_stream_new ti_pwma_stream_run progress;
    SRow "lma"%string 1 1 (o_Z1 v_lma) always _ ti_lma_start ti_lma ti_lma_stream_new ti_lma_stream_run progress;
    SRow "rmi"%string 1 1 o_rmi always _ ti_rmi_start ti_rmi ti_rmi_stream_new ti_rmi_stream_run progress;
    (* average_period at least 2, see C33 *)
    SRow "frama"%string 2 1 o_frama_stream always _ ti_frama_start ti_frama ti_frama_stream_new ti_frama_stream_run progress;
    SRow "emsd"%string 1 1 (int_opts 2 v_emsd) always _ ti_emsd_start ti_emsd ti_emsd_stream_new ti_emsd_stream_run progress;
    SRow "vwap"%string 4 1 (o_Z1 v_vwap) always _ ti_vwap_start ti_vwap ti_vwap_stream_new ti_vwap_stream_run progress;
    (* cycpart at least 0.06, see C30 *)
    SRow "arsi"%string 1 1 o_arsi always _ ti_arsi_start ti_arsi ti_arsi_stream_new ti_arsi_stream_run progress;
    SRow "atr"%string 3 1 o_atr always _ start_p1 ti_atr ti_atr_stream_new ti_atr_stream_run progress ].
Lemma stream_table_exact_all : Forall row_all stream_table_exact.
Proof.
  unfold stream_table_exact. rows.
  all: try (apply Forall_cons; [|apply Forall_nil];
    apply (row_intro' _ _ _ _ _ _ _ _ _ atr_loops); [repeat constructor|exact atr_sim|exact atr_online|exact atr_same]).
  all: first [exact ehma_sim|exact ehma_online|exact pwma_sim|exact pwma_online|exact lma_sim|exact lma_online|exact sma_sim|exact sma_online|exact gf1_sim|exact gf1_online|exact fi_sim|exact fi_online|exact hwma_sim|exact hwma_online|exact rmi_sim|exact rmi_online|exact frama_sim|exact frama_online
    |exact emsd_sim|exact emsd_online|exact vwap_sim|exact vwap_online|exact arsi_sim|exact arsi_online].
Qed.

(** ** C30: streaming in any chunking equals the batch call, bit for bit *)
Theorem C30_stream_is_batch : forall {A : Arith} {IL : IntLaws A}, Forall row_stream stream_table.
Proof. intros. eapply Forall_impl; [|apply stream_table_all]. intros r H. apply H. Qed.
(** In particular for binary64, whatever the C library's functions return. *)
Theorem C30_stream_is_batch_binary64 : forall lm pw, Forall (@row_stream (F64 lm pw)) stream_table.
Proof. intros. apply C30_stream_is_batch. Qed.
(** er, period 2: five bars in chunks of two, none and three, against one batch call; the
    hypotheses hold, and the values are not trivial. *)
Example C30_example_hyps :
  accepted (int_opts 1 (v_period 1 (INT_MAX - 1) 0)) [dbl 2 0] /\
  Forall (chunk_ok 1) [[[dbl 1 0; dbl 3 0]]; [[]]; [[dbl 2 0; dbl 5 0; dbl 4 0]]].
Proof. split; [exists 2; exists [2]; repeat split; try (repeat constructor; vm_compute; congruence)|]. repeat constructor. Qed.
Example C30_example :
  @stream_outputs F64c _ ti_er_stream_new ti_er_stream_run 1 [dbl 2 0] [[[dbl 1 0; dbl 3 0]]; [[]]; [[dbl 2 0; dbl 5 0; dbl 4 0]]] =
    Some [[dbl 1 0 ./ dbl 3 0; dbl 2 0 ./ dbl 4 0; dbl 2 0 ./ dbl 4 0]] /\
  @ti_er F64c 5 [[dbl 1 0; dbl 3 0; dbl 2 0; dbl 5 0; dbl 4 0]] [dbl 2 0] = Ok (OKAY, [[dbl 1 0 ./ dbl 3 0; dbl 2 0 ./ dbl 4 0; dbl 2 0 ./ dbl 4 0]]).
Proof. split; vm_compute; reflexivity. Qed.
(** pvt's condition is met by ordinary data. *)
Example C30_pvt_example : @pvt_ok F64c [[dbl 1 0; dbl 2 0; dbl 3 0; dbl 2 0]; [dbl 4 0; dbl 5 0; dbl 6 0; dbl 7 0]].
Proof.
  split; intros k Hk; change (zlen _) with 4 in Hk.
  - assert (k = 0 \/ k = 1 \/ k = 2 \/ k = 3) as [->|[->|[->| ->]]] by lia; vm_compute; reflexivity.
  - assert (k = 1 \/ k = 2) as [->| ->] by lia; vm_compute; reflexivity.
Qed.

(** vi: for series longer than the period. *)
Theorem C30_vi_partial : forall {A : Arith} {IL : IntLaws A} n, row_stream (vi_row n) /\ row_progress (vi_row n) /\
  row_options (vi_row n) /\ row_causal (vi_row n) /\ row_safe (vi_row n).
Proof. intros A IL n. destruct (vi_row_all n) as (H1 & H2 & H3 & H4 & H5 & _); auto. Qed.
Print Assumptions C30_vi_partial.
Example C30_vi_example :
  let h := [dbl 3 0; dbl 5 0; dbl 4 0; dbl 7 0] in let l := [dbl 1 0; dbl 2 0; dbl 3 0; dbl 4 0] in let c := [dbl 2 0; dbl 4 0; dbl 3 0; dbl 6 0] in
  accepted (o_vi 2) [dbl 2 0] /\ 2 < csize [h; l; c] /\
  @ti_vi F64c 4 [h; l; c] [dbl 2 0] = Ok (OKAY, [[dbl 6 0 ./ dbl 4 0; dbl 6 0 ./ dbl 5 0]; [dbl 3 0 ./ dbl 4 0; dbl 2 0 ./ dbl 5 0]]) /\
  @stream_outputs F64c _ ti_vi_stream_new ti_vi_stream_run 2 [dbl 2 0] [[firstn 1 h; firstn 1 l; firstn 1 c]; [skipn 1 h; skipn 1 l; skipn 1 c]] =
    Some [[dbl 6 0 ./ dbl 4 0; dbl 6 0 ./ dbl 5 0]; [dbl 3 0 ./ dbl 4 0; dbl 2 0 ./ dbl 5 0]].
Proof. cbv zeta. split; [exists 2; exists (dbl 2 0); repeat split; vm_compute; reflexivity|]. split; [vm_compute; reflexivity|]. split; vm_compute; reflexivity. Qed.
(** With two bars and period 2 the batch function reports an invalid option, the stream accepts
    the option and the bars. *)
Theorem C30_vi_refuted : exists inputs options,
  wf 3 2 inputs /\ @ti_vi F64c 2 inputs options = Ok (INVALID_OPTION, [[]; []]) /\
  @stream_outputs F64c _ ti_vi_stream_new ti_vi_stream_run 2 options [inputs] = Some [[]; []].
Proof. exists [ones 2; ones 2; ones 2], [dbl 2 0]. split; [repeat split; try lia; repeat constructor; vm_compute; congruence|]. split; vm_compute; reflexivity. Qed.
Print Assumptions C30_vi_refuted.

(** ** C31: the sma stream in exact arithmetic (and gf1, fi, hwma) *)
Theorem C31_sma_stream :
  @stream_is_batch_if RA _ 1 1 (accepted (int_opts 1 (v_period 1 INT_MAX (-1)))) always ti_sma ti_sma_stream_new ti_sma_stream_run.
Proof. exact (sim_stream_if _ _ _ _ _ _ _ _ sma_sim sma_online). Qed.
Print Assumptions C31_sma_stream.
Theorem C31_exact_streams : Forall row_stream stream_table_exact.
Proof. eapply Forall_impl; [|apply stream_table_exact_all]. intros r H. apply H. Qed.
Print Assumptions C31_exact_streams.
(** In binary64 the two differ already on the bars 0.1, 0.7, 0.3 with period 2. *)
Theorem C31_binary64_refuted : exists options x o1 o2,
  accepted (int_opts 1 (v_period 1 INT_MAX (-1))) options /\
  @ti_sma F64c 3 [x] options = Ok (OKAY, o1) /\
  @stream_outputs F64c _ ti_sma_stream_new ti_sma_stream_run 1 options [[x]] = Some o2 /\ o1 <> o2.
Proof.
  exists [dbl 2 0], [dbl 1 1; dbl 7 1; dbl 3 1]. do 2 eexists.
  split; [exists 1, [2]; repeat split; repeat constructor; vm_compute; congruence|].
  split; [vm_compute; reflexivity|]. split; [vm_compute; reflexivity|]. discriminate.
Qed.
Print Assumptions C31_binary64_refuted.

(** ** C32: pvt *)
(** Full statement: [stream_is_batch 2 1 (accepted (v_none 1)) ti_pvt ti_pvt_stream_new
    ti_pvt_stream_run].  It holds when no volume and no value written is zero ... *)
Theorem C32_pvt_partial : forall {A : Arith},
  stream_is_batch_if 2 1 (accepted (v_none 1)) pvt_ok ti_pvt ti_pvt_stream_new ti_pvt_stream_run.
Proof. intros. exact (sim_stream_if _ _ _ _ _ _ _ _ pvt_sim pvt_online). Qed.
Print Assumptions C32_pvt_partial.
(** ... and fails otherwise: after a bar without volume the batch function restarts from 0, the
    stream keeps its last value (close 1 2 4 8, volume 1 1 0 1: batch 2 0 0, stream 2 2 3). *)
Theorem C32_pvt_refuted : exists x,
  @ti_pvt F64c 4 x [] = Ok (OKAY, [[dbl 2 0; dbl 0 0; dbl 0 0]]) /\
  @stream_outputs F64c _ ti_pvt_stream_new ti_pvt_stream_run 1 [] [x] = Some [[dbl 2 0; dbl 2 0; dbl 3 0]].
Proof.
  exists [[dbl 1 0; dbl 2 0; dbl 4 0; dbl 8 0]; [dbl 1 0; dbl 1 0; dbl 0 0; dbl 1 0]]. split; vm_compute; reflexivity.
Qed.
Print Assumptions C32_pvt_refuted.

(** ** C33: the same options are accepted *)
Theorem C33_same_options : forall {A : Arith} {IL : IntLaws A}, Forall row_options stream_table.
Proof. intros. eapply Forall_impl; [|apply stream_table_all]. intros r H. apply H. Qed.
Theorem C33_same_options_exact : Forall row_options stream_table_exact.
Proof. eapply Forall_impl; [|apply stream_table_exact_all]. intros r H. apply H. Qed.
Print Assumptions C33_same_options_exact.
(** kc (excluded above for periods in [0,1)): the batch function rejects 0.5, the constructor
    accepts it. *)
Theorem C33_kc_refuted : exists options,
  (forall size inputs, wf 3 size inputs -> @ti_kc F64c size inputs options = Ok (INVALID_OPTION, [[]; []; []])) /\
  @stream_progress F64c _ _ ti_kc_stream_new ti_kc_stream_run 3 options [] = Some 0.
Proof.
  exists [dbl 5 1; dbl 2 0]. split; [|vm_compute; reflexivity].
  intros size inputs (? & ? & ?). lists. reflexivity.
Qed.
Print Assumptions C33_kc_refuted.
(** frama (excluded for average_period below 2): the batch function rejects average_period 1, the
    constructor accepts it. *)
Theorem C33_frama_refuted : exists options,
  (forall size inputs, wf 2 size inputs -> @ti_frama F64c size inputs options = Ok (INVALID_OPTION, [[]])) /\
  @stream_progress F64c _ _ ti_frama_stream_new ti_frama_stream_run 1 options [] = Some 0.
Proof.
  exists [dbl 4 0; dbl 1 0]. split; [|vm_compute; reflexivity].
  intros size inputs (? & ? & ?). lists. reflexivity.
Qed.
Print Assumptions C33_frama_refuted.
(** posc with ema_period 2.5 (the table above covers integer options): both accept it, but the
    batch function smooths with 2/(2+1), the stream with 2/(2.5+1). *)
Theorem C30_posc_fraction_refuted : exists options x o1 o2,
  @ti_posc F64c 5 x options = Ok (OKAY, [o1]) /\
  @stream_outputs F64c _ ti_posc_stream_new ti_posc_stream_run 1 options [x] = Some [o2] /\ zlen o1 = zlen o2 /\ o1 <> o2.
Proof.
  exists [dbl 2 0; dbl 25 1], [[dbl 3 0; dbl 5 0; dbl 4 0; dbl 7 0; dbl 8 0]; [dbl 1 0; dbl 2 0; dbl 3 0; dbl 4 0; dbl 3 0]; [dbl 2 0; dbl 4 0; dbl 3 0; dbl 6 0; dbl 8 0]].
  do 2 eexists. split; [vm_compute; reflexivity|]. split; [vm_compute; reflexivity|]. split; [reflexivity|discriminate].
Qed.
Print Assumptions C30_posc_fraction_refuted.
(** Both verdicts occur: gf2 rejects period 3 and accepts period 4. *)
Example C33_example :
  @ti_gf2_stream_new F64c [dbl 3 0] = Ok (INVALID_OPTION, None) /\ @ti_gf2 F64c 2 [ones 2] [dbl 3 0] = Ok (INVALID_OPTION, [[]]) /\
  @stream_progress F64c _ _ ti_gf2_stream_new ti_gf2_stream_run 1 [dbl 4 0] [] = Some 0.
Proof. split; [|split]; [reflexivity|vm_compute; reflexivity|vm_compute; reflexivity]. Qed.

(** ** C34: progress *)
Theorem C34_progress : forall {A : Arith} {IL : IntLaws A}, Forall row_progress stream_table.
Proof. intros. eapply Forall_impl; [|apply stream_table_all]. intros r H. apply H. Qed.
Theorem C34_progress_exact : Forall row_progress stream_table_exact.
Proof. eapply Forall_impl; [|apply stream_table_exact_all]. intros r H. apply H. Qed.
Print Assumptions C34_progress_exact.
(** evwma, period 3: from -2; after two bars 0 and nothing written, after three more 3 values. *)
Example C34_example :
  let prog := @stream_progress F64c _ _ ti_evwma_stream_new ti_evwma_stream_run 1 [dbl 3 0; dbl 1 0] in
  prog [] = Some (-2) /\ prog [[ones 2; ones 2]] = Some 0 /\ prog [[ones 2; ones 2]; [ones 3; ones 3]] = Some 3 /\
  option_map (map zlen) (@stream_outputs F64c _ ti_evwma_stream_new ti_evwma_stream_run 1 [dbl 3 0; dbl 1 0] [[ones 2; ones 2]; [ones 3; ones 3]]) = Some [3].
Proof. cbv zeta. split; [|split; [|split]]; vm_compute; reflexivity. Qed.

(** ** C35: outputs are causal *)
Theorem C35_causal : forall {A : Arith} {IL : IntLaws A}, Forall row_causal stream_table.
Proof. intros. eapply Forall_impl; [|apply stream_table_all]. intros r H. apply H. Qed.
Theorem C35_causal_exact : Forall row_causal stream_table_exact.
Proof. eapply Forall_impl; [|apply stream_table_exact_all]. intros r H. apply H. Qed.
Print Assumptions C35_causal_exact.
(** t3 on three bars and on the same bars followed by a fourth. *)
Example C35_example : exists a b,
  @ti_t3 F64c 3 [[dbl 1 0; dbl 3 0; dbl 2 0]] [dbl 2 0; dbl 5 1] = Ok (OKAY, [a]) /\
  @ti_t3 F64c 4 [[dbl 1 0; dbl 3 0; dbl 2 0; dbl 7 0]] [dbl 2 0; dbl 5 1] = Ok (OKAY, [a ++ [b]]) /\ zlen a = 3.
Proof. do 2 eexists. split; [vm_compute; reflexivity|]. split; vm_compute; reflexivity. Qed.

(** ** The batch calls of the tables are safe (C23 for streaming indicators) *)
Theorem C23_streaming_contracts : forall {A : Arith} {IL : IntLaws A}, Forall row_safe stream_table.
Proof. intros. eapply Forall_impl; [|apply stream_table_all]. intros r H. apply H. Qed.

(** ** C24: gap filters and short series *)
Theorem C24_gap_filters : forall {A : Arith} {IL : IntLaws A},
  contract 1 1 (int_opts 1 v_even40) ti_gf1_start ti_gf1 /\
  contract 1 1 (int_opts 1 v_even40) ti_gf2_start ti_gf2 /\
  contract 1 1 (int_opts 1 v_even40) ti_gf3_start ti_gf3.
Proof.
  intros. split; [exact gf1_contract|]. split.
  - intros size inputs options v Hw Hv. exact (sim_contract _ _ _ _ _ _ _ _ gf2_sim size inputs options v Hw Hv I).
  - intros size inputs options v Hw Hv. exact (sim_contract _ _ _ _ _ _ _ _ gf3_sim size inputs options v Hw Hv I).
Qed.
Print Assumptions C24_gap_filters.
Example C24_example : @ti_gf3 F64c 0 [[]] [dbl 2 0] = Ok (OKAY, [[]]) /\ exists v, @ti_gf3 F64c 1 [[dbl 1 0]] [dbl 2 0] = Ok (OKAY, [[v]]).
Proof. split; [vm_compute; reflexivity|eexists; vm_compute; reflexivity]. Qed.
(** gf4 needs five bars: its first loop has no test against [size]. *)
Theorem C24_gf4_partial : forall {A : Arith} {IL : IntLaws A},
  contract_on five 1 1 (int_opts 1 v_even40) ti_gf4_start ti_gf4.
Proof. intros. exact (sim_contract _ _ _ _ _ _ _ _ gf4_sim). Qed.
Print Assumptions C24_gf4_partial.
Theorem C24_gf4_refuted : exists inputs options,
  @unsafe_call F64c 1 ti_gf4_start ti_gf4 4 inputs options /\ @ti_gf4 F64c 4 inputs options = Ub OobRead.
Proof. exists [ones 4], [dbl 2 0]. unsafe. Qed.
Print Assumptions C24_gf4_refuted.

(** ** C29: rvi *)
Theorem C29_rvi_partial : forall {A : Arith} {IL : IntLaws A}, contract 1 1 o_rvi ti_rvi_start ti_rvi.
Proof. intros A IL size inputs options v Hw Hv. exact (sim_contract _ _ _ _ _ _ _ _ rvi_sim size inputs options v Hw Hv I). Qed.
Print Assumptions C29_rvi_partial.
Example C29_example : exists v, o_rvi [dbl 3 0; dbl 2 0] v /\ v = Accept 1.
Proof. eexists. split; [|reflexivity]. exists (dbl 3 0), 3, 2. vm_compute. repeat split; congruence. Qed.
Theorem C29_rvi_refuted : exists inputs options,
  @unsafe_call F64c 1 ti_rvi_start ti_rvi 1 inputs options /\ @ti_rvi F64c 1 inputs options = Ub Overflow.
Proof. exists [ones 1], [dbl 3 0; dbl 1024 0]. unsafe. Qed.
Print Assumptions C29_rvi_refuted.

(** pbands, posc: integer periods up to 1023 are safe, 1024 overflows. *)
Theorem C29_pbands_partial : forall {A : Arith} {IL : IntLaws A}, contract 3 2 (o_Z1 v_pbands) ti_pbands_start ti_pbands.
Proof. intros A IL size inputs options v Hw Hv. exact (sim_contract _ _ _ _ _ _ _ _ pbands_sim size inputs options v Hw Hv I). Qed.
Print Assumptions C29_pbands_partial.
Theorem C29_posc_partial : forall {A : Arith} {IL : IntLaws A}, contract 3 1 (o_Z2 v_posc) ti_posc_start ti_posc.
Proof. intros A IL size inputs options v Hw Hv. exact (sim_contract _ _ _ _ _ _ _ _ posc_sim size inputs options v Hw Hv I). Qed.
Print Assumptions C29_posc_partial.
Example C29_pbands_example : v_pbands 1023 = Accept 1022 /\ v_posc 1023 9 = Accept 1022.
Proof. split; reflexivity. Qed.
Theorem C29_pbands_refuted : exists inputs options,
  @unsafe_call F64c 3 ti_pbands_start ti_pbands 1 inputs options /\ @ti_pbands F64c 1 inputs options = Ub Overflow.
Proof. exists [ones 1; ones 1; ones 1], [dbl 1024 0]. unsafe. Qed.
Print Assumptions C29_pbands_refuted.
Theorem C29_posc_refuted : exists inputs options,
  @unsafe_call F64c 3 ti_posc_start ti_posc 1024 inputs options /\ @ti_posc F64c 1024 inputs options = Ub Overflow.
Proof. exists [ones 1024; ones 1024; ones 1024], [dbl 1024 0; dbl 3 0]. unsafe. Qed.
Print Assumptions C29_posc_refuted.

(** ** C27: fractional options *)
(** dwma writes size - start values for integer periods; with period 2.5 it announces start 3
    and writes size - 2 values, one more than announced. *)
Theorem C27_dwma_partial : forall {A : Arith} {IL : IntLaws A}, contract 1 1 (o_Z1 v_dwma) ti_dwma_start ti_dwma.
Proof. intros A IL size inputs options v Hw Hv. exact (sim_contract _ _ _ _ _ _ _ _ dwma_sim size inputs options v Hw Hv I). Qed.
Print Assumptions C27_dwma_partial.
Theorem C27_dwma_refuted : exists inputs options, @unsafe_call F64c 1 ti_dwma_start ti_dwma 4 inputs options /\
  @ti_dwma_start F64c options = Ok 3 /\ exists a b, @ti_dwma F64c 4 inputs options = Ok (OKAY, [[a; b]]).
Proof.
  exists [ones 4], [dbl 25 1]. split.
  - split; [repeat split; try lia; repeat constructor; vm_compute; congruence|]. vm_compute. eexists. split; [reflexivity|]. constructor. reflexivity.
  - split; [vm_compute; reflexivity|]. do 2 eexists. vm_compute. reflexivity.
Qed.
Print Assumptions C27_dwma_refuted.

(** frama writes one value per bar for even integer periods; with period 2.5 its first loop
    handles bars 0 to 2 and the second starts again at bar 2: size + 1 values. *)
Theorem C27_frama_partial : forall {A : Arith} {IL : IntLaws A}, contract 2 1 o_frama ti_frama_start ti_frama.
Proof. intros. exact frama_contract. Qed.
Print Assumptions C27_frama_partial.
Example C27_frama_example : exists v, @o_frama F64c [dbl 4 0; dbl 2 0] v /\ v = Accept 0.
Proof. eexists. split; [|reflexivity]. exists 4, (dbl 2 0). split; [reflexivity|]. split; [vm_compute; split; discriminate|reflexivity]. Qed.
Theorem C27_frama_refuted : exists inputs options, @unsafe_call F64c 2 ti_frama_start ti_frama 4 inputs options /\
  @ti_frama_start F64c options = Ok 0 /\ exists a b c d e, @ti_frama F64c 4 inputs options = Ok (OKAY, [[a; b; c; d; e]]).
Proof.
  exists [ones 4; ones 4], [dbl 25 1; dbl 2 0]. split.
  - split; [repeat split; try lia; repeat constructor; vm_compute; congruence|]. vm_compute. eexists. split; [reflexivity|]. constructor. reflexivity.
  - split; [reflexivity|]. do 5 eexists. vm_compute. reflexivity.
Qed.
Print Assumptions C27_frama_refuted.
(** hurst with period 2.5 reads r[2] of a ring buffer of 2 elements. *)
Theorem C27_hurst_partial : forall {A : Arith} {IL : IntLaws A}, contract 1 2 (o_Z1 v_hurst) ti_hurst_start ti_hurst.
Proof. intros A IL size inputs options v Hw Hv. exact (sim_contract _ _ _ _ _ _ _ _ hurst_sim size inputs options v Hw Hv I). Qed.
Print Assumptions C27_hurst_partial.
Theorem C27_hurst_refuted : exists inputs options, @unsafe_call F64c 1 ti_hurst_start ti_hurst 4 inputs options /\
  @ti_hurst F64c 4 inputs options = Ub Assert.
Proof. exists [ones 4], [dbl 25 1]. unsafe. Qed.
Print Assumptions C27_hurst_refuted.
(** rmi with lookback_period 2.5 and three bars announces one value and writes none. *)
Theorem C27_rmi_partial : forall {A : Arith} {IL : IntLaws A}, contract 1 1 o_rmi ti_rmi_start ti_rmi.
Proof. intros. exact rmi_contract. Qed.
Print Assumptions C27_rmi_partial.
Example C27_rmi_example : exists v, @o_rmi F64c [dbl 25 1; dbl 4 0] v /\ v = Accept 4.
Proof. eexists. split; [|reflexivity]. exists (dbl 25 1), 4. split; [reflexivity|]. split; [vm_compute; split; discriminate|vm_compute; reflexivity]. Qed.
Theorem C27_rmi_refuted : exists inputs options, wf 1 3 inputs /\ @ti_rmi_start F64c options = Ok 2 /\
  @ti_rmi F64c 3 inputs options = Ok (OKAY, [[]]) /\
  exists v, @stream_outputs F64c _ ti_rmi_stream_new ti_rmi_stream_run 1 options [inputs] = Some [[v]].
Proof.
  exists [ones 3], [dbl 3 0; dbl 25 1]. split; [repeat split; try lia; repeat constructor; vm_compute; congruence|].
  split; [vm_compute; reflexivity|]. split; [vm_compute; reflexivity|]. eexists. vm_compute. reflexivity.
Qed.
Print Assumptions C27_rmi_refuted.
(** edcf with length 1.2 reads one element beyond its queue. *)
Theorem C27_edcf_partial : forall {A : Arith} {IL : IntLaws A}, contract 1 1 (o_Z1 v_edcf) ti_edcf_start ti_edcf.
Proof. intros A IL size inputs options v Hw Hv. exact (sim_contract _ _ _ _ _ _ _ _ edcf_sim size inputs options v Hw Hv I). Qed.
Print Assumptions C27_edcf_partial.
Theorem C27_edcf_refuted : exists inputs options, @unsafe_call F64c 1 ti_edcf_start ti_edcf 2 inputs options /\
  @ti_edcf F64c 2 inputs options = Ub OobRead.
Proof. exists [ones 2], [dbl 12 1]. unsafe. Qed.
Print Assumptions C27_edcf_refuted.
Example C27_examples : v_hurst 2 = Accept 2 /\ v_edcf 3 = Accept 5 /\ v_dwma 2 = Accept 2.
Proof. split; [|split]; reflexivity. Qed.

(** ** C37: the period of gf3 *)
Lemma gf3_B0_pos k : 0 <= k < 20 -> zf (@gf3_B0 RA) k <> 0%R.
Proof.
  intros H. assert (G : forall n : nat, (n < 20)%nat -> zf (@gf3_B0 RA) (Z.of_nat n) <> 0%R).
  { intros n Hn. do 20 (destruct n as [|n]; [cbv -[IZR Rdiv]; lra|]). lia. }
  specialize (G (Z.to_nat k) ltac:(lia)). rewrite Z2Nat.id in G by lia. exact G.
Qed.
(** Independence, in exact arithmetic, of the only option. *)
Theorem C37_gf3_refuted : forall size (x : list R) (a b : R) n m, zlen x = size -> 0 <= size <= INT_MAX ->
  @to_int RA a = Some n -> @to_int RA b = Some m -> even40 n = true -> even40 m = true ->
  @ti_gf3 RA size [x] [a] = @ti_gf3 RA size [x] [b].
Proof.
  intros size x a b n m Hx Hs Ha Hb Hn Hm.
  unfold ti_gf3, cast. rewrite Ha, Hb. cbn [bind]. rewrite !gf_reject_ok, Hn, Hm. cbn [negb].
  apply even40_idx in Hn, Hm.
  destruct (ring_new_ok 4 ltac:(lia)) as (r & Er & Hr). rewrite Er. cbn [bind]. unfold gf3_constants.
  rewrite !rd_zf by (unfold gf3_B0, micro; rewrite zlen_map; assumption). cbn [bind].
  match goal with |- batch_loops 1 size ?l1 _ = batch_loops 1 size ?l2 _ =>
    destruct (sim_same (fun _ s => rok s 4) l1 l2 1 0 size r _ eq_refl) as (s' & outs & E1 & E2 & _) end.
  - lia. 
  - lia.
  - eexists; exact Hr.
  - intros i s Hi HI. unfold dispatch. cbn [dispatch' Stream.bounded final]. split; [|wpr; emit; apply rok_step; assumption].
    rewrite !rd_zf by zl. cbn [bind].
    destruct (ring_get s 1) as [f1|]; cbn [bind]; [|reflexivity]. destruct (ring_get s 2) as [f2|]; cbn [bind]; [|reflexivity].
    destruct (ring_get s 3) as [f3|]; cbn [bind]; [|reflexivity].
    match goal with |- (let* f := ring_set s ?u in _) = (let* f := ring_set s ?v in _) => replace u with v; [reflexivity|] end.
    pose proof (gf3_B0_pos _ Hn) as P1. pose proof (gf3_B0_pos _ Hm) as P2.
    set (u := zf gf3_B0 (Z.quot n 2 - 1)) in *. set (v := zf gf3_B0 (Z.quot m 2 - 1)) in *. clearbody u v. clear - P1 P2.
    cbn in *. field. split; lra.
  - unfold batch_loops in *. rewrite E1, E2. reflexivity.
Qed.
Print Assumptions C37_gf3_refuted.
Example C37_example : even40 4 = true /\ even40 40 = true.
Proof. split; reflexivity. Qed.

(** C23, C25, C26: the caller contract of the batch-only indicators.

    Each row of [batch_table] gives an indicator's name, number of inputs and outputs, what the
    documentation promises for its options, its start function and the function itself.
    [contract] (Spec.v) says: for every well-formed call with accepted options the execution is
    defined (every read inside the inputs, no uninitialised slot, no int overflow, no failed
    assertion), returns TI_OKAY and writes exactly max(0, size - start) values to each output;
    for rejected options TI_INVALID_OPTION is returned and nothing is written.
    [Outside] marks option values the theorem does not cover: those whose int products overflow
    in the C code, and those for which the contract is false (below). *)
From Coq Require Import String.
From Verif Require Import Fun_osc SqrtLaw F64 Properties_basic.

Record row {A : Arith} := Row { r_name : string; r_nin : nat; r_nout : nat; r_opts : optspec; r_start : startfn; r_fn : batchfn }.
Arguments Row {A}. Arguments r_name {A}. Arguments r_nin {A}. Arguments r_nout {A}. Arguments r_opts {A}. Arguments r_start {A}. Arguments r_fn {A}.
Definition row_contract {A : Arith} (r : row) : Prop := contract (r_nin r) (r_nout r) (r_opts r) (r_start r) (r_fn r).


Definition batch_table {A : Arith} : list row :=
  [ Row "avgprice"%string 4 1 (v_none 0) start0 ti_avgprice;
    Row "medprice"%string 2 1 (v_none 0) start0 ti_medprice;
    Row "typprice"%string 3 1 (v_none 0) start0 ti_typprice;
    Row "wcprice"%string 3 1 (v_none 0) start0 ti_wcprice;
    Row "bop"%string 4 1 (v_none 0) start0 ti_bop;
    Row "marketfi"%string 3 1 (v_none 0) start0 ti_marketfi;
    Row "ad"%string 4 1 (v_none 0) start0 ti_ad;
    Row "crossany"%string 2 1 (v_none 1) start1 ti_crossany;
    Row "crossover"%string 2 1 (v_none 1) start1 ti_crossover;
    Row "emv"%string 3 1 (v_none 1) start1 ti_emv;
    Row "nvi"%string 2 1 (v_none 0) start0 ti_nvi;
    Row "pvi"%string 2 1 (v_none 0) start0 ti_pvi;
    Row "obv"%string 2 1 (v_none 0) start0 ti_obv;
    Row "wad"%string 3 1 (v_none 1) start1 ti_wad;
    Row "tr"%string 3 1 (v_none 0) start0 ti_tr;
    Row "sma"%string 1 1 (int_opts 1 (v_period 1 INT_MAX (-1))) start_p1 ti_sma;
    Row "sum"%string 1 1 (int_opts 1 (v_period 1 INT_MAX (-1))) start_p1 ti_sum;
    Row "wilders"%string 1 1 (int_opts 1 (v_period 1 INT_MAX (-1))) start_p1 ti_wilders;
    Row "var"%string 1 1 (int_opts 1 (v_period 1 INT_MAX (-1))) start_p1 ti_var;
    Row "stddev"%string 1 1 (int_opts 1 (v_period 1 INT_MAX (-1))) start_p1 ti_stddev;
    Row "stderr"%string 1 1 (int_opts 1 (v_period 1 INT_MAX (-1))) start_p1 ti_stderr;
    Row "wma"%string 1 1 (int_opts 1 (v_period 1 46340 (-1))) start_p1 ti_wma;
    Row "md"%string 1 1 (int_opts 1 (v_period 1 INT_MAX (-1))) start_p1 ti_md;
    Row "lag"%string 1 1 (int_opts 1 (v_period 0 INT_MAX 0)) start_p ti_lag;
    Row "mom"%string 1 1 (int_opts 1 (v_period 1 INT_MAX 0)) start_p ti_mom;
    Row "roc"%string 1 1 (int_opts 1 (v_period 1 INT_MAX 0)) start_p ti_roc;
    Row "rocr"%string 1 1 (int_opts 1 (v_period 1 INT_MAX 0)) start_p ti_rocr;
    Row "qstick"%string 2 1 (int_opts 1 (v_period 1 INT_MAX (-1))) start_p1 ti_qstick;
    Row "vwma"%string 2 1 (int_opts 1 (v_period 1 INT_MAX (-1))) start_p1 ti_vwma;
    Row "cmo"%string 1 1 (int_opts 1 (v_period 1 INT_MAX 0)) start_p ti_cmo;
    Row "rsi"%string 1 1 (int_opts 1 (v_period 1 INT_MAX 0)) start_p ti_rsi;
    Row "ema"%string 1 1 (int_opts 1 (fun ns => match ns with [p] => if p <? 1 then Reject else Accept 0 | _ => Outside end)) start0 ti_ema;
    Row "decay"%string 1 1 (int_opts 1 (fun _ => Accept 0)) start0 ti_decay;
    Row "edecay"%string 1 1 (int_opts 1 (fun _ => Accept 0)) start0 ti_edecay;
    Row "linreg"%string 1 1 (int_opts 1 (v_period 1 46340 (-1))) start_p1 ti_linreg;
    Row "linregintercept"%string 1 1 (int_opts 1 (v_period 1 46340 (-1))) start_p1 ti_linregintercept;
    Row "tsf"%string 1 1 (int_opts 1 (v_period 1 46340 (-1))) start_p1 ti_tsf;
    Row "linregslope"%string 1 1 (int_opts 1 (v_period 1 46340 (-1))) start_p1 ti_linregslope;
    Row "fosc"%string 1 1 (int_opts 1 (v_period 1 46340 0)) start_p ti_fosc;
    Row "zlema"%string 1 1 (int_opts 1 (fun ns => match ns with
    | [p] => if p <? 1 then (if p <=? INT_MIN then Outside else Reject) else if p <? 3 then Outside else Accept ((p - 1) / 2 - 1)
    | _ => Outside end)) ti_zlema_start ti_zlema;
    Row "dpo"%string 1 1 (int_opts 1 (fun ns => match ns with
    | [p] => if p <? 1 then Reject else if p <? 3 then Outside else Accept (p - 1)
    | _ => Outside end)) start_p1 ti_dpo;
    Row "rmta"%string 1 1 (fun opts v => exists x beta p, opts = [x; beta] /\ to_int x = Some p /\
     v = if p <? 1 then Reject else Accept (p - 1)) ti_rmta_start ti_rmta;
    Row "apo"%string 1 1 (int_opts 2 v_short_long) start1 ti_apo;
    Row "ppo"%string 1 1 (int_opts 2 v_short_long) start1 ti_ppo;
    Row "dema"%string 1 1 (int_opts 1 (fun ns => match ns with
    | [p] => if p <? 1 then Reject else if p <=? 1073741824 then Accept ((p - 1) * 2) else Outside
    | _ => Outside end)) ti_dema_start ti_dema;
    Row "tema"%string 1 1 (int_opts 1 (v_mult 1 715827883 3 0)) start_p13 ti_tema;
    Row "trima"%string 1 1 (int_opts 1 (v_period 1 92680 (-1))) start_p1 ti_trima;
    Row "kama"%string 1 1 (int_opts 1 (v_period 1 INT_MAX (-1))) start_p1 ti_kama;
    Row "bbands"%string 1 3 o_bbands ti_bbands_start ti_bbands;
    Row "psar"%string 2 1 o_psar (fun _ => Ok 1) ti_psar;
    Row "adosc"%string 4 1 (int_opts 2 v_sl1) start_l1 ti_adosc;
    Row "vosc"%string 1 1 (int_opts 2 v_sl1) start_l1 ti_vosc;
    Row "kvo"%string 4 1 (int_opts 2 v_kvo) ti_kvo_start ti_kvo;
    Row "abands"%string 3 3 (int_opts 1 (v_period 1 268435452 (-1))) start_p1 ti_abands;
    Row "ao"%string 2 1 (v_none 33) ti_ao_start ti_ao;
    Row "cmf"%string 4 1 (int_opts 1 (v_period 1 INT_MAX (-1))) start_p1 ti_cmf;
    Row "cci"%string 3 1 (int_opts 1 (v_mult 1 268435452 2 0)) start_p12 ti_cci;
    Row "mass"%string 2 1 (int_opts 1 (v_period 1 268435452 15)) ti_mass_start ti_mass;
    Row "mfi"%string 4 1 (int_opts 1 (v_period 1 268435452 0)) start_p ti_mfi;
    Row "macd"%string 1 3 (int_opts 3 v_macd) ti_macd_start ti_macd;
    Row "stochrsi"%string 1 1 (int_opts 1 (v_mult 2 268435452 2 1)) start_2p1 ti_stochrsi;
    Row "trix"%string 1 1 (int_opts 1 (v_mult 1 715827882 3 1)) ti_trix_start ti_trix;
    Row "ultosc"%string 3 1 (int_opts 3 v_ultosc) ti_ultosc_start ti_ultosc;
    Row "dm"%string 2 2 (int_opts 1 (v_period 1 INT_MAX (-1))) start_p1 ti_dm;
    Row "dx"%string 2 1 (int_opts 1 (v_period 1 INT_MAX (-1))) start_p1 ti_dx;
    Row "di"%string 3 2 (int_opts 1 (v_period 1 INT_MAX (-1))) start_p1 ti_di;
    Row "adx"%string 2 1 (int_opts 1 (v_mult 2 1073741824 2 0)) start_p12 ti_adx;
    Row "adxr"%string 2 1 (int_opts 1 (v_mult 2 268435453 3 0)) start_p13 ti_adxr;
    Row "msw"%string 1 2 (int_opts 1 (v_period 1 INT_MAX 0)) start_p ti_msw;
    Row "natr"%string 3 1 (int_opts 1 (v_period 1 INT_MAX (-1))) start_p1 ti_natr;
    Row "volatility"%string 1 1 (int_opts 1 (v_period 1 INT_MAX 0)) start_p ti_volatility;
    Row "cvi"%string 2 1 (int_opts 1 (fun ns => match ns with [p] => if p =? 1 then Outside else v_mult 1 268435452 2 1 ns | _ => Outside end)) start_2p1 ti_cvi;
    Row "max"%string 1 1 (int_opts 1 (v_period 1 INT_MAX (-1))) start_p1 ti_max;
    Row "min"%string 1 1 (int_opts 1 (v_period 1 INT_MAX (-1))) start_p1 ti_min;
    Row "max_ref"%string 1 1 (int_opts 1 (v_period 1 INT_MAX (-1))) start_p1 ti_max_ref;
    Row "min_ref"%string 1 1 (int_opts 1 (v_period 1 INT_MAX (-1))) start_p1 ti_min_ref;
    Row "aroon"%string 2 2 (int_opts 1 (v_period 1 INT_MAX 0)) start_p ti_aroon;
    Row "aroonosc"%string 2 1 (int_opts 1 (v_period 1 INT_MAX 0)) start_p ti_aroonosc;
    Row "willr"%string 3 1 (int_opts 1 (v_period 1 INT_MAX (-1))) start_p1 ti_willr;
    Row "fisher"%string 2 2 (int_opts 1 (v_period 1 INT_MAX (-1))) start_p1 ti_fisher;
    Row "vhf"%string 1 1 (int_opts 1 (v_period 1 INT_MAX 0)) start_p ti_vhf;
    Row "stoch"%string 3 2 (int_opts 3 v_stoch) ti_stoch_start ti_stoch ].

Theorem C23_batch : forall {A : Arith} {L : IntLaws A}, Forall row_contract batch_table.
Proof.
  intros A L. unfold batch_table.
  repeat apply Forall_cons; [..|apply Forall_nil]; unfold row_contract; cbn [r_nin r_nout r_opts r_start r_fn].
  - exact avgprice_contract.
  - exact medprice_contract.
  - exact typprice_contract.
  - exact wcprice_contract.
  - exact bop_contract.
  - exact marketfi_contract.
  - exact ad_contract.
  - exact crossany_contract.
  - exact crossover_contract.
  - exact emv_contract.
  - exact nvi_contract.
  - exact pvi_contract.
  - exact obv_contract.
  - exact wad_contract.
  - exact tr_contract.
  - exact sma_contract.
  - exact sum_contract.
  - exact wilders_contract.
  - exact var_contract.
  - exact stddev_contract.
  - exact stderr_contract.
  - exact wma_contract.
  - exact md_contract.
  - exact lag_contract.
  - exact mom_contract.
  - exact roc_contract.
  - exact rocr_contract.
  - exact qstick_contract.
  - exact vwma_contract.
  - exact cmo_contract.
  - exact rsi_contract.
  - exact ema_contract.
  - exact decay_contract.
  - exact edecay_contract.
  - exact linreg_contract.
  - exact linregintercept_contract.
  - exact tsf_contract.
  - exact linregslope_contract.
  - exact fosc_contract.
  - exact zlema_contract.
  - exact dpo_contract.
  - exact rmta_contract.
  - exact apo_contract.
  - exact ppo_contract.
  - exact dema_contract.
  - exact tema_contract.
  - exact trima_contract.
  - exact kama_contract.
  - exact bbands_contract.
  - exact psar_contract.
  - exact adosc_contract.
  - exact vosc_contract.
  - exact kvo_contract.
  - exact abands_contract.
  - exact ao_contract.
  - exact cmf_contract.
  - exact cci_contract.
  - exact mass_contract.
  - exact mfi_contract.
  - exact macd_contract.
  - exact stochrsi_contract.
  - exact trix_contract.
  - exact ultosc_contract.
  - exact dm_contract.
  - exact dx_contract.
  - exact di_contract.
  - exact adx_contract.
  - exact adxr_contract.
  - exact msw_contract.
  - exact natr_contract.
  - exact volatility_contract.
  - exact cvi_contract.
  - exact max_contract.
  - exact min_contract.
  - exact max_ref_contract.
  - exact min_ref_contract.
  - exact aroon_contract.
  - exact aroonosc_contract.
  - exact willr_contract.
  - exact fisher_contract.
  - exact vhf_contract.
  - exact stoch_contract.
Qed.
Print Assumptions C23_batch.
(** hma needs (int)sqrt(period) to be the integer square root, which holds on binary64 and on
    the reals. *)
Theorem C23_hma : (forall lm pw, @contract (F64 lm pw) 1 1 (int_opts 1 v_hma) ti_hma_start ti_hma) /\
  @contract RA 1 1 (int_opts 1 v_hma) ti_hma_start ti_hma.
Proof. split; [intros lm pw|]; apply hma_contract; auto using SqrtLaw_F64, SqrtLaw_RA. Qed.
Print Assumptions C23_hma.
(** The option value for which each contract is stated is attained. *)
Example C23_example : exists outs,
  @ti_adxr F64c 9 [[dbl 3 0; dbl 1 0; dbl 2 0; dbl 2 0; dbl 0 0; dbl 4 0; dbl 5 0; dbl 7 0; dbl 6 0];
                   [dbl 2 0; dbl 0 0; dbl 1 0; dbl 2 0; dbl 0 0; dbl 3 0; dbl 5 0; dbl 6 0; dbl 5 0]] [dbl 25 1] = Ok (OKAY, outs) /\
  Forall (fun o => zlen o = 6) outs /\ length outs = 1%nat.
Proof. eexists. split; [vm_compute; reflexivity|]. split; [repeat constructor|reflexivity]. Qed.

(** ** C25: short series.  False for kst and vidya: with accepted options, reads leave the input. *)
Theorem C25_kst_partial : forall {A : Arith} {L : IntLaws A},
  contract_if (fun size st => size > st) 1 2 (int_opts 8 v_kst) ti_kst_start ti_kst.
Proof. intros. exact kst_contract. Qed.
Print Assumptions C25_kst_partial.
Theorem C25_vidya_partial : forall {A : Arith} {L : IntLaws A},
  contract_if (fun size st => size <> st + 1) 1 1 o_vidya ti_vidya_start ti_vidya.
Proof. intros. exact vidya_contract. Qed.
Print Assumptions C25_vidya_partial.
Definition ones (n : nat) : list (@T F64c) := repeat (dbl 1 0) n.
(** size = 4 = roc4 *)
Theorem C25_kst_refuted : exists inputs options,
  @unsafe_call F64c 1 ti_kst_start ti_kst 4 inputs options /\
  @ti_kst F64c 4 inputs options = Ub OobRead.
Proof.
  exists [ones 4], [dbl 1 0; dbl 2 0; dbl 3 0; dbl 4 0; dbl 1 0; dbl 1 0; dbl 1 0; dbl 1 0].
  split; [split; [repeat split; try lia; repeat constructor; vm_compute; congruence|]|]; vm_compute; auto.
Qed.
Print Assumptions C25_kst_refuted.
(** size = 3 = long_period - 1 *)
Theorem C25_vidya_refuted : exists inputs options,
  @unsafe_call F64c 1 ti_vidya_start ti_vidya 3 inputs options /\
  @ti_vidya F64c 3 inputs options = Ub OobRead.
Proof.
  exists [ones 3], [dbl 2 0; dbl 4 0; dbl 5 1].
  split; [split; [repeat split; try lia; repeat constructor; vm_compute; congruence|]|]; vm_compute; auto.
Qed.
Print Assumptions C25_vidya_refuted.

(** ** C26: smallest accepted periods.  zlema and dpo with period 1 or 2, hma with period 1,
    cvi with period 1, ultosc with equal periods. *)
Ltac unsafe := split; [split; [repeat split; try lia; repeat constructor; vm_compute; congruence|]|]; vm_compute; auto.
Theorem C26_zlema_refuted : exists inputs options,
  @unsafe_call F64c 1 ti_zlema_start ti_zlema 5 inputs options /\ @ti_zlema F64c 5 inputs options = Ub OobRead.
Proof. exists [ones 5], [dbl 2 0]. unsafe. Qed.
Print Assumptions C26_zlema_refuted.
Theorem C26_dpo_refuted : exists inputs options,
  @unsafe_call F64c 1 start_p1 ti_dpo 5 inputs options /\ @ti_dpo F64c 5 inputs options = Ub OobRead.
Proof. exists [ones 5], [dbl 1 0]. unsafe. Qed.
Print Assumptions C26_dpo_refuted.
Theorem C26_hma_refuted : exists inputs options,
  @unsafe_call F64c 1 ti_hma_start ti_hma 5 inputs options /\ @ti_hma F64c 5 inputs options = Ub OobRead.
Proof. exists [ones 5], [dbl 1 0]. unsafe. Qed.
Print Assumptions C26_hma_refuted.
Theorem C26_cvi_refuted : exists inputs options,
  @unsafe_call F64c 2 start_2p1 ti_cvi 5 inputs options /\ @ti_cvi F64c 5 inputs options = Ub Uninit.
Proof. exists [ones 5; ones 5], [dbl 1 0]. unsafe. Qed.
Print Assumptions C26_cvi_refuted.
Theorem C26_ultosc_refuted : exists inputs options k,
  @unsafe_call F64c 3 ti_ultosc_start ti_ultosc 5 inputs options /\ @ti_ultosc F64c 5 inputs options = Ub k.
Proof. exists [ones 5; ones 5; ones 5], [dbl 2 0; dbl 2 0; dbl 2 0]. eexists. unsafe. Qed.
Print Assumptions C26_ultosc_refuted.

(** Caller-contract proofs for the functions of M_basic.v, any arithmetic. *)
From Verif Require Export M_basic Tactics.

(** Verdicts used in the statements. *)
Definition v_none (st : Z) {A : Arith} : optspec := fun opts v => opts = [] /\ v = Accept st.
(** one period option, accepted from [lo] up to [hi], start = period + d *)
Definition v_period (lo hi d : Z) (ns : list Z) : verdict :=
  match ns with
  | [p] => if p <? lo then Reject else if p <=? hi then Accept (p + d) else Outside
  | _ => Outside
  end.
(** short and long periods of apo/ppo *)
Definition v_short_long (ns : list Z) : verdict :=
  match ns with
  | [s; l] => if (s <? 1) || (l <? 2) || (l <? s) then Reject else Accept 1
  | _ => Outside
  end.

Tactic Notation "none" reference(f) := intros size inputs options v (? & ? & Hmax) (-> & ->); lists;
  split; [reflexivity|]; apply wp_out; unfold f.

(** One period option. *)
Ltac per1 := open_int_contract; ranges; cbn [v_period];
  match goal with |- context[if ?p <? ?k then _ else _] => destruct (p <? k) eqn:?E end.

Tactic Notation "perstart" reference(f) reference(st) :=
  per1; [reject_tac|];
  match goal with |- context[if ?p <=? ?k then _ else _] => destruct (p <=? k) eqn:?Ehi end; [|exact I];
  split; [start_tac|]; apply wp_out; unfold f, st; wps; contra; [fin|..].

Section C.
Context {A : Arith} {L : IntLaws A}.

Lemma SIMPLE1_contract op : (forall x, wp (op x) (fun _ => True)) ->
  contract 1 1 (v_none 0) start0 (SIMPLE1 op).
Proof.
  intros Hop. none SIMPLE1.
  loop (fun i out => zlen out = i); [zl|reflexivity| |].
  - wps. eapply wp_mono; [apply Hop|]. intros y _. wps. fin.
  - okay.
Qed.

Lemma SIMPLE2_contract op : contract 2 1 (v_none 0) start0 (SIMPLE2 op).
Proof. none SIMPLE2. loop_out 0; okay. Qed.

Lemma avgprice_contract : contract 4 1 (v_none 0) start0 ti_avgprice.
Proof. none ti_avgprice. loop_out 0; okay. Qed.

Lemma medprice_contract : contract 2 1 (v_none 0) start0 ti_medprice.
Proof. none ti_medprice. loop_out 0; okay. Qed.
Lemma typprice_contract : contract 3 1 (v_none 0) start0 ti_typprice.
Proof. none ti_typprice. loop_out 0; okay. Qed.
Lemma wcprice_contract : contract 3 1 (v_none 0) start0 ti_wcprice.
Proof. none ti_wcprice. loop_out 0; okay. Qed.
Lemma bop_contract : contract 4 1 (v_none 0) start0 ti_bop.
Proof. none ti_bop. loop_out 0; okay. Qed.
Lemma marketfi_contract : contract 3 1 (v_none 0) start0 ti_marketfi.
Proof. none ti_marketfi. unfold start0. wps; [fin|]. loop_out 0; okay. Qed.
Lemma ad_contract : contract 4 1 (v_none 0) start0 ti_ad.
Proof. none ti_ad. loop_len 0; okay. Qed.
Lemma crossany_contract : contract 2 1 (v_none 1) start1 ti_crossany.
Proof.
  none ti_crossany. destruct (Z.eq_dec size 0) as [->|Hz].
  - rewrite for_nil by lia. okay.
  - loop_out 1; okay.
Qed.
Lemma crossover_contract : contract 2 1 (v_none 1) start1 ti_crossover.
Proof.
  none ti_crossover. destruct (Z.eq_dec size 0) as [->|Hz].
  - rewrite for_nil by lia. okay.
  - loop_out 1; okay.
Qed.
Lemma emv_contract : contract 3 1 (v_none 1) start1 ti_emv.
Proof. none ti_emv. unfold start1. wps; [fin|]. loop_len 1; okay. Qed.
Lemma nvi_contract : contract 2 1 (v_none 0) start0 ti_nvi.
Proof. none ti_nvi. unfold start0. wps; [fin|]. loop_len 0; okay. Qed.
Lemma pvi_contract : contract 2 1 (v_none 0) start0 ti_pvi.
Proof. none ti_pvi. unfold start0. wps; [fin|]. loop_len 0; okay. Qed.
Lemma obv_contract : contract 2 1 (v_none 0) start0 ti_obv.
Proof.
  none ti_obv.
  loop (fun i s => zlen (snd s) = i /\ (0 < i -> fst (fst s) <> None)); [zl|cbn; split; [reflexivity|lia]| |].
  - intros i [[pv sum] out] Hi [Hl1 _]. wps. cbn [fst snd] in *. split; [zl|discriminate].
  - intros [[pv sum] out] [Hl1 Hpv]. loop (fun i s => zlen (snd s) = i /\ (0 < i -> fst (fst s) <> None)).
    + zl.
    + cbn [fst snd] in *. split; [zl|]. intros Hi; apply Hpv. lia.
    + clear pv sum out Hl1 Hpv. intros i [[pv sum] out] Hi [Hl1 Hpv]. wps. cbn [fst snd] in *.
      destruct pv as [pv|]; [|exfalso; apply Hpv; [lia|reflexivity]]. cbn [get].
      wps; cbn [fst snd]; (split; [zl|discriminate]).
    + clear pv sum out Hl1 Hpv. intros [[pv sum] out] [Hl1 _]. wps. cbn [fst snd] in *. fin.
Qed.
Lemma wad_contract : contract 3 1 (v_none 1) start1 ti_wad.
Proof. none ti_wad. unfold start1. wps; [fin|]. loop_len 1; okay. Qed.
Lemma tr_contract : contract 3 1 (v_none 0) start0 ti_tr.
Proof.
  none ti_tr. loop_out 0. loop_out 0; unfold CALC_TRUERANGE; okay.
Qed.

Lemma sma_contract : contract 1 1 (int_opts 1 (v_period 1 INT_MAX (-1))) start_p1 ti_sma.
Proof. perstart ti_sma start_p1. loop_any. loop_len (p - 1); okay. Qed.
Lemma sum_contract : contract 1 1 (int_opts 1 (v_period 1 INT_MAX (-1))) start_p1 ti_sum.
Proof. perstart ti_sum start_p1. loop_any. loop_len (p - 1); okay. Qed.
Lemma wilders_contract : contract 1 1 (int_opts 1 (v_period 1 INT_MAX (-1))) start_p1 ti_wilders.
Proof. perstart ti_wilders start_p1. loop_any. loop_len (p - 1); okay. Qed.
Lemma var_contract : contract 1 1 (int_opts 1 (v_period 1 INT_MAX (-1))) start_p1 ti_var.
Proof. perstart ti_var start_p1. loop_any. wps. loop_len (p - 1); okay. Qed.
Lemma stddev_contract : contract 1 1 (int_opts 1 (v_period 1 INT_MAX (-1))) start_p1 ti_stddev.
Proof. perstart ti_stddev start_p1. loop_any. wps. loop_len (p - 1); okay. Qed.
Lemma stderr_contract : contract 1 1 (int_opts 1 (v_period 1 INT_MAX (-1))) start_p1 ti_stderr.
Proof. perstart ti_stderr start_p1. loop_any. wps. loop_len (p - 1); okay. Qed.
Lemma wma_contract : contract 1 1 (int_opts 1 (v_period 1 46340 (-1))) start_p1 ti_wma.
Proof.
  perstart ti_wma start_p1; [unfold INT_MIN, INT_MAX in *; nia|].
  loop_any. wps. loop_len (p - 1); okay.
Qed.
Lemma md_contract : contract 1 1 (int_opts 1 (v_period 1 INT_MAX (-1))) start_p1 ti_md.
Proof.
  perstart ti_md start_p1.
  loop (fun i s => zlen (snd s) = Z.max 0 (i - (p - 1))); [zl|cbn; zl| |].
  - wps; try (fin; fail); loop_any; okay.
  - okay.
Qed.
Lemma lag_contract : contract 1 1 (int_opts 1 (v_period 0 INT_MAX 0)) start_p ti_lag.
Proof. perstart ti_lag start_p. loop_out p; okay. Qed.
Lemma mom_contract : contract 1 1 (int_opts 1 (v_period 1 INT_MAX 0)) start_p ti_mom.
Proof. perstart ti_mom start_p. loop_out p; okay. Qed.
Lemma roc_contract : contract 1 1 (int_opts 1 (v_period 1 INT_MAX 0)) start_p ti_roc.
Proof. perstart ti_roc start_p. loop_out p; okay. Qed.
Lemma rocr_contract : contract 1 1 (int_opts 1 (v_period 1 INT_MAX 0)) start_p ti_rocr.
Proof. perstart ti_rocr start_p. loop_out p; okay. Qed.
Lemma qstick_contract : contract 2 1 (int_opts 1 (v_period 1 INT_MAX (-1))) start_p1 ti_qstick.
Proof. perstart ti_qstick start_p1. loop_any. loop_len (p - 1); okay. Qed.
Lemma vwma_contract : contract 2 1 (int_opts 1 (v_period 1 INT_MAX (-1))) start_p1 ti_vwma.
Proof. perstart ti_vwma start_p1. loop_any. wps. loop_len (p - 1); okay. Qed.
Lemma cmo_contract : contract 1 1 (int_opts 1 (v_period 1 INT_MAX 0)) start_p ti_cmo.
Proof.
  perstart ti_cmo start_p. unfold UPWARD, DOWNWARD. loop_any. wps. loop_len p; okay.
Qed.
Lemma rsi_contract : contract 1 1 (int_opts 1 (v_period 1 INT_MAX 0)) start_p ti_rsi.
Proof. perstart ti_rsi start_p. loop_any. wps. loop_len p; okay. Qed.
Lemma ema_contract : contract 1 1 (int_opts 1 (fun ns => match ns with [p] => if p <? 1 then Reject else Accept 0 | _ => Outside end)) start0 ti_ema.
Proof.
  open_int_contract; ranges. destruct (p <? 1) eqn:E; [reject_tac|].
  split; [reflexivity|]. apply wp_out. unfold ti_ema, start0. wps; contra; [fin|].
  loop_len 0; okay.
Qed.
Lemma decay_contract : contract 1 1 (int_opts 1 (fun _ => Accept 0)) start0 ti_decay.
Proof.
  open_int_contract; ranges. split; [reflexivity|]. apply wp_out. unfold ti_decay. wps.
  loop_out 0. loop_out 0; okay.
Qed.
Lemma edecay_contract : contract 1 1 (int_opts 1 (fun _ => Accept 0)) start0 ti_edecay.
Proof.
  open_int_contract; ranges. split; [reflexivity|]. apply wp_out. unfold ti_edecay. wps.
  loop_out 0. loop_out 0; okay.
Qed.

(** LINEAR_REGRESSION: [fin] returns a state whose output length grows as described by [len]. *)
Lemma LINREG_wp {S} size input p (final : Z -> T -> T -> T -> S * list T -> res (S * list T)) s0
    (len : Z -> Z) (Q : list T -> Prop) :
  zlen input = size -> 1 <= p <= 46340 -> p - 1 < size ->
  len (p - 1) = 0 ->
  (forall i x y b s, p - 1 <= i < size -> zlen (snd s) = len i ->
     wp (final i x y b s) (fun s' => zlen (snd s') = len (i + 1))) ->
  (forall out, zlen out = len size -> Q out) ->
  wp (LINEAR_REGRESSION size input p final s0) Q.
Proof.
  intros Hs Hp Hsz H0 Hf HQ. unfold LINEAR_REGRESSION.
  loop (fun _ _ => True); [zl|exact I| |].
  - wps; [|exact I]. unfold INT_MIN, INT_MAX; nia.
  - wps. unfold INT_MIN, INT_MAX; nia.
    loop (fun i s => zlen (snd (snd s)) = len i); [zl|cbn; zl| |].
    + intros i [[y xy] s] Hi HI. cbn [snd fst] in *. wps.
      eapply wp_mono; [apply Hf; [lia|exact HI]|].
      intros s' Hs'. wps. cbn [snd]. exact Hs'.
    + intros [[y xy] [s out]] HI. cbn [snd] in HI. wps. apply HQ. exact HI.
Qed.

Lemma linreg_contract : contract 1 1 (int_opts 1 (v_period 1 46340 (-1))) start_p1 ti_linreg.
Proof.
  perstart ti_linreg start_p1. apply LINREG_wp with (len := fun i => i - (p - 1)); try zl.
  - intros i x y b s Hi Hs. unfold FINAL_line. okay.
  - intros out Ho. okay.
Qed.
Lemma linregintercept_contract : contract 1 1 (int_opts 1 (v_period 1 46340 (-1))) start_p1 ti_linregintercept.
Proof.
  perstart ti_linregintercept start_p1. apply LINREG_wp with (len := fun i => i - (p - 1)); try zl.
  - intros i x y b s Hi Hs. unfold FINAL_line. okay.
  - intros out Ho. okay.
Qed.
Lemma tsf_contract : contract 1 1 (int_opts 1 (v_period 1 46340 (-1))) start_p1 ti_tsf.
Proof.
  perstart ti_tsf start_p1. apply LINREG_wp with (len := fun i => i - (p - 1)); try zl.
  - intros i x y b s Hi Hs. unfold FINAL_line. okay.
  - intros out Ho. okay.
Qed.
Lemma linregslope_contract : contract 1 1 (int_opts 1 (v_period 1 46340 (-1))) start_p1 ti_linregslope.
Proof.
  perstart ti_linregslope start_p1. apply LINREG_wp with (len := fun i => i - (p - 1)); try zl.
  - intros i x y b s Hi Hs. okay.
  - intros out Ho. okay.
Qed.
Lemma fosc_contract : contract 1 1 (int_opts 1 (v_period 1 46340 0)) start_p ti_fosc.
Proof.
  perstart ti_fosc start_p. apply LINREG_wp with (len := fun i => Z.max 0 (i - p)); try zl.
  - intros i x y b s Hi Hs. wps; fin.
  - intros out Ho. okay.
Qed.

(** Guarded: the smallest periods violate the contract (see Refuted.v). *)
Lemma zlema_contract : contract 1 1
  (int_opts 1 (fun ns => match ns with
    | [p] => if p <? 1 then (if p <=? INT_MIN then Outside else Reject) else if p <? 3 then Outside else Accept ((p - 1) / 2 - 1)
    | _ => Outside end)) ti_zlema_start ti_zlema.
Proof.
  open_int_contract; ranges. destruct (p <? 1) eqn:E.
  { destruct (p <=? INT_MIN) eqn:E1; [exact I|]. unfold ti_zlema. getcast. cbn [bind].
    rewrite ck_ok by zl. cbn [bind]. rewrite E. reflexivity. }
  destruct (p <? 3) eqn:E3; [exact I|].
  assert (Hq : Z.quot (p - 1) 2 = (p - 1) / 2) by (apply Z.quot_div_nonneg; lia).
  pose proof (Z.div_mod (p - 1) 2 ltac:(lia)). pose proof (Z.mod_pos_bound (p - 1) 2 ltac:(lia)).
  split.
  { unfold ti_zlema_start. getcast. cbn [bind]. rewrite ck_ok by zl. cbn [bind]. rewrite Hq. apply ck_ok. zl. }
  apply wp_out. unfold ti_zlema, ti_zlema_start. wps; contra; rewrite ?Hq in *; try zl; [fin|].
  loop_len ((p - 1) / 2 - 1); okay.
Qed.
Lemma dpo_contract : contract 1 1
  (int_opts 1 (fun ns => match ns with
    | [p] => if p <? 1 then Reject else if p <? 3 then Outside else Accept (p - 1)
    | _ => Outside end)) start_p1 ti_dpo.
Proof.
  open_int_contract; ranges. destruct (p <? 1) eqn:E; [reject_tac|].
  destruct (p <? 3) eqn:E3; [exact I|].
  assert (Hq : Z.quot p 2 = p / 2) by (apply Z.quot_div_nonneg; lia).
  pose proof (Z.div_mod p 2 ltac:(lia)). pose proof (Z.mod_pos_bound p 2 ltac:(lia)).
  split; [start_tac|].
  apply wp_out. unfold ti_dpo, start_p1. rewrite ?Hq in *. wps; contra; rewrite ?Hq in *; try zl; [fin|].
  loop_any. loop_len (p - 1); okay.
Qed.
Lemma rmta_contract : contract 1 1
  (fun opts v => exists x beta p, opts = [x; beta] /\ to_int x = Some p /\
     v = if p <? 1 then Reject else Accept (p - 1)) ti_rmta_start ti_rmta.
Proof.
  intros size inputs options v (? & ? & Hmax) (x & beta & p & -> & Hp & ->); lists. ranges.
  destruct (p <? 1) eqn:E; [reject_tac|].
  split; [start_tac|].
  apply wp_out. unfold ti_rmta, ti_rmta_start. wps; contra; [fin|].
  apply (wp_for_max (fun _ _ => True)); [exact I|wps; exact I|intros ? _]. wps. loop_len (p - 1); okay.
Qed.
Lemma apo_contract : contract 1 1 (int_opts 2 v_short_long) start1 ti_apo.
Proof.
  open_int_contract; ranges. cbn [v_short_long]. destruct ((p <? 1) || (p0 <? 2) || (p0 <? p)) eqn:E; [reject_tac|].
  split; [reflexivity|]. apply wp_out. unfold ti_apo, start1. wps; contra; [fin|].
  loop_len 1; okay.
Qed.
Lemma ppo_contract : contract 1 1 (int_opts 2 v_short_long) start1 ti_ppo.
Proof.
  open_int_contract; ranges. cbn [v_short_long]. destruct ((p <? 1) || (p0 <? 2) || (p0 <? p)) eqn:E; [reject_tac|].
  split; [reflexivity|]. apply wp_out. unfold ti_ppo, start1. wps; contra; [fin|].
  loop_len 1; okay.
Qed.
Lemma dema_contract : contract 1 1
  (int_opts 1 (fun ns => match ns with
    | [p] => if p <? 1 then Reject else if p <=? 1073741824 then Accept ((p - 1) * 2) else Outside
    | _ => Outside end)) ti_dema_start ti_dema.
Proof.
  open_int_contract; ranges. destruct (p <? 1) eqn:E; [reject_tac|].
  destruct (p <=? 1073741824) eqn:E3; [|exact I].
  split.
  { unfold ti_dema_start. getcast. cbn [bind]. rewrite ck_ok by zl. cbn [bind]. apply ck_ok. zl. }
  apply wp_out. unfold ti_dema, ti_dema_start. wps; contra; [fin|].
  loop (fun i s => zlen (snd s) = Z.max 0 (i - (p - 1) * 2)); [zl|cbn; zl| |]; okay.
Qed.

End C.

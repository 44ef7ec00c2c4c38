(** Caller-contract proofs for the functions of M_osc.v (second part). *)
From Verif Require Export C_osc.

Section C.
Context {A : Arith} {L : IntLaws A}.

Lemma mfi_contract : contract 4 1 (int_opts 1 (v_period 1 268435452 0)) start_p ti_mfi.
Proof.
  perstart ti_mfi start_p. apply TYPPRICE_wp; [zl..|]. intros y0. wps.
  apply wp_bnew; [zl|]. intros bh Hbh. wps. apply wp_bnew; [zl|]. intros bl Hbl. wps.
  loop (fun i '(_, k, d, out) =>
      (exists ps, slots_ok k p ps /\ bpushes k = zlen ps /\ zlen ps = i - 1) /\
      (exists ps, slots_ok d p ps /\ bpushes d = zlen ps /\ zlen ps = i - 1) /\
      zlen out = Z.max 0 (i - p)); [zl|repeat split; auto; zl| |].
  - clear bh bl Hbh Hbl. intros i [[[y bh] bl] out] Hi (Hbh & Hbl & Ho). wps.
    apply TYPPRICE_wp; [zl..|]. intros x. wps.
    all: eapply wp_push; [first [exact Hbh|exact Hbl]|]; intros b1 Hb1; wps.
    all: eapply wp_push; [first [exact Hbh|exact Hbl]|]; intros b2 Hb2; wps.
    all: replace (i + 1 - 1) with (i - 1 + 1) by lia; repeat split; auto; ifs; zl.
  - intros [[[? ?] ?] ?] (_ & _ & ?). okay.
Qed.

Lemma macd_contract : contract 1 3 (int_opts 3 v_macd) ti_macd_start ti_macd.
Proof.
  open_int_contract. ranges. cbn [v_macd].
  destruct ((p <? 1) || (p0 <? 2) || (p0 <? p) || (p1 <? 1)) eqn:E; [reject_tac|].
  split; [start_tac|]. apply wp_out. unfold ti_macd, ti_macd_start. wps; contra; [fin|].
  loop (fun i '(_, _, _, a, b, c) => zlen a = Z.max 0 (i - (p0 - 1)) /\ zlen b = Z.max 0 (i - (p0 - 1)) /\ zlen c = Z.max 0 (i - (p0 - 1))); [zl|cbv beta iota; zl| |].
  - intros i [[[[[? ?] ?] ?] ?] ?] Hi Ho. wps; zl.
  - intros [[[[[? ?] ?] ?] ?] ?] Ho. okay.
Qed.

Lemma UPWARD_wp x i (Q : _ -> Prop) : 1 <= i < zlen x -> (forall v, Q v) -> wp (UPWARD x i) Q.
Proof. intros. unfold UPWARD. wps; auto. Qed.
Lemma DOWNWARD_wp x i (Q : _ -> Prop) : 1 <= i < zlen x -> (forall v, Q v) -> wp (DOWNWARD x i) Q.
Proof. intros. unfold DOWNWARD. wps; auto. Qed.

(** The rescan of stochrsi reads initialised slots only: before the ring has wrapped the
    slot about to be written is not the slot of the extreme. *)
Lemma stochrsi_ext_wp cmp b size ps r s (Q : _ -> Prop) :
  slots_ok b size ps -> 0 <= fst s < size -> (zlen ps < size -> fst s < zlen ps) ->
  (forall s', 0 <= fst s' < size -> (zlen ps + 1 < size -> fst s' < zlen ps + 1) -> Q s') ->
  wp (stochrsi_ext cmp b r s) Q.
Proof.
  intros Hs H1 H2 HQ. pose proof Hs as (Hs0 & Hs1 & Hs2 & Hs3 & Hs4). pose proof (zlen_nonneg ps) as Hn.
  pose proof (Z.mod_pos_bound (zlen ps) size Hs0) as Hm.
  assert (Hsm : zlen ps < size -> zlen ps mod size = zlen ps) by (intros; apply Z.mod_small; lia).
  unfold stochrsi_ext. destruct s as [mi m]. cbn [fst] in *. rewrite Hs2, Hs1. wps.
  - apply HQ; cbn [fst]; lia.
  - assert (Hf : size <= zlen ps) by (destruct (Z.lt_ge_cases (zlen ps) size); [specialize (H2 H); specialize (Hsm H); lia|lia]).
    loop (fun _ s => 0 <= fst s < size); [lia|cbn; lia| |].
    + intros j [mi' m'] Hj Hi'. wps; [exact Hi'|]. eapply slots_full; [exact Hs|lia|lia|]. intros. wps. ifs; cbn [fst] in *; lia.
    + intros s' Hs'. apply HQ; lia.
  - apply HQ; cbn [fst]; lia.
Qed.

Lemma stochrsi_contract : contract 1 1 (int_opts 1 (v_mult 2 268435452 2 1)) start_2p1 ti_stochrsi.
Proof.
  mulstart ti_stochrsi start_2p1.
  apply wp_bnew; [zl|]. intros b Hb. wps.
  loop (fun _ _ => True); [zl|exact I| |].
  { intros i [su sd] Hi _. wps. apply UPWARD_wp; [zl|]. intros. wps. apply DOWNWARD_wp; [zl|]. intros. wps. exact I. }
  intros [su sd] _. wps. eapply wp_push; [exact Hb|]. clear b Hb. intros b Hb. wps.
  loop (fun i '(_, _, b, s1, s2, out) =>
     (exists ps, slots_ok b p ps /\ zlen ps = i - p) /\
     (0 <= fst s1 < p /\ (i - p < p -> fst s1 < i - p)) /\
     (0 <= fst s2 < p /\ (i - p < p -> fst s2 < i - p)) /\
     zlen out = Z.max 0 (i - (2 * p - 1))); [zl| | |].
  - destruct Hb as (ps & Hs & _ & Hps). repeat split; cbn [fst]; try zl. exists ps. split; [exact Hs|lia].
  - clear b Hb. intros i [[[[[u d] b] s1] s2] out] Hi (Hb & Hs1 & Hs2 & Ho). wps.
    apply UPWARD_wp; [zl|]. intros. wps. apply DOWNWARD_wp; [zl|]. intros. wps.
    destruct Hb as (ps & Hs & Hps).
    eapply stochrsi_ext_wp; [exact Hs|lia|lia|]. intros s1' Hs1' Hs1''. wps.
    eapply stochrsi_ext_wp; [exact Hs|lia|lia|]. intros s2' Hs2' Hs2''. wps.
    eapply wp_qpush; [exists ps; split; [exact Hs|reflexivity]|]. intros b' Hb'. wps.
    replace (i + 1 - p) with (zlen ps + 1) by lia.
    split; [exact Hb'|]. split; [lia|]. split; [lia|]. ifs; zl.
  - intros [[[[[? ?] ?] ?] ?] ?] (_ & _ & _ & ?). okay.
Qed.

Lemma trix_contract : contract 1 1 (int_opts 1 (v_mult 1 715827882 3 1)) ti_trix_start ti_trix.
Proof.
  mulstart ti_trix ti_trix_start. loop_any. loop_len (p * 3 - 2); okay.
Qed.

Lemma ultosc_drop_wp b1 b2 l p ps1 ps2 s (Q : _ -> Prop) :
  slots_ok b1 l ps1 -> slots_ok b2 l ps2 -> zlen ps1 = zlen ps2 -> 1 <= p < l -> p < zlen ps1 ->
  (forall s', Q s') -> wp (ultosc_drop b1 b2 l p s) Q.
Proof.
  intros (H0 & H1 & H2 & H3 & H4) (K0 & K1 & K2 & K3 & K4) Hl Hp Hp2 HQ. unfold ultosc_drop. destruct s as [s1 s2].
  rewrite H2. pose proof (Z.mod_pos_bound (zlen ps1) l H0) as Hm.
  set (ix := if _ <? 0 then _ else _).
  assert (Hix : ix = (zlen ps1 - p - 1) mod l).
  { unfold ix. apply Zmod_unique_full with
      (q := if zlen ps1 mod l - p - 1 <? 0 then zlen ps1 / l - 1 else zlen ps1 / l).
    - left. destruct (_ <? 0) eqn:?; lia.
    - pose proof (Z.div_mod (zlen ps1) l ltac:(lia)). destruct (_ <? 0) eqn:?; lia. }
  clearbody ix. subst ix. wps.
  unfold rdo. pose proof (Z.mod_pos_bound (zlen ps1 - p - 1) l H0).
  rewrite !(rd_ok None) by lia. cbn [bind]. rewrite H4, K4 by lia. wps. apply HQ.
Qed.

Lemma ultosc_contract : contract 3 1 (int_opts 3 v_ultosc) ti_ultosc_start ti_ultosc.
Proof.
  open_int_contract. ranges. cbn [v_ultosc].
  destruct ((p <? 1) || (p0 <? p) || (p1 <? p0)) eqn:E; [reject_tac|].
  destruct ((p0 <? p1) && (p1 <=? 268435452)) eqn:E0; [|exact I].
  split; [start_tac|]. apply wp_out. unfold ti_ultosc, ti_ultosc_start. wps; contra; [fin|].
  apply wp_bnew; [zl|]. intros bh Hbh. wps. apply wp_bnew; [zl|]. intros bl Hbl. wps.
  loop (fun i '(k, d, _, _, out) =>
      (exists ps, slots_ok k p1 ps /\ bpushes k = zlen ps /\ zlen ps = i - 1) /\
      (exists ps, slots_ok d p1 ps /\ bpushes d = zlen ps /\ zlen ps = i - 1) /\
      zlen out = Z.max 0 (i - p1)); [zl|repeat split; auto; zl| |].
  - clear bh bl Hbh Hbl. intros i [[[[bh bl] s1] s2] out] Hi (Hbh & Hbl & Ho). wps.
    eapply wp_push; [exact Hbh|]. clear bh Hbh. intros bh Hbh. wps.
    eapply wp_push; [exact Hbl|]. clear bl Hbl. intros bl Hbl. wps.
    all: replace (i + 1 - 1) with (i - 1 + 1) by lia.
    2: { repeat split; auto; ifs; zl. }
    all: destruct Hbh as (ps1 & Hs1 & Hc1 & Hp1'), Hbl as (ps2 & Hs2 & Hc2 & Hp2').
    all: eapply ultosc_drop_wp; [exact Hs1|exact Hs2|lia|lia|lia|]; intros [? ?]; wps.
    1: eapply ultosc_drop_wp; [exact Hs1|exact Hs2|lia|lia|lia|]; intros [? ?]; wps.
    all: split; [exists ps1; auto|split; [exists ps2; auto|ifs; zl]].
  - intros [[[[? ?] ?] ?] ?] (_ & _ & ?). okay.
Qed.

Lemma CALC_DIRECTION_wp h l i (Q : _ -> Prop) : 1 <= i < zlen h -> zlen l = zlen h -> (forall v, Q v) ->
  wp (CALC_DIRECTION h l i) Q.
Proof. intros H1 H2 HQ. unfold CALC_DIRECTION. wps. ifs; wps; apply HQ. Qed.
Lemma dm_init_wp h l p (Q : _ -> Prop) : 1 <= p <= zlen h -> zlen l = zlen h -> (forall v, Q v) ->
  wp (dm_init h l p) Q.
Proof.
  intros H1 H2 HQ. unfold dm_init. loop (fun _ _ => True); [lia|exact I| |auto].
  intros i [a b] Hi _. wps. apply CALC_DIRECTION_wp; [lia|lia|]. intros [? ?]. wps. exact I.
Qed.
Ltac cdir := apply CALC_DIRECTION_wp; [zl|zl|]; intros [? ?]; wps.

Lemma dm_contract : contract 2 2 (int_opts 1 (v_period 1 INT_MAX (-1))) start_p1 ti_dm.
Proof.
  perstart ti_dm start_p1. apply dm_init_wp; [zl|zl|]. intros [? ?]. wps.
  loop (fun i '(_, _, a, b) => zlen a = i - (p - 1) /\ zlen b = i - (p - 1)); [zl|cbv beta iota; zl| |].
  - intros i [[[? ?] ?] ?] Hi Ho. wps. cdir. zl.
  - intros [[[? ?] ?] ?] Ho. okay.
Qed.
Lemma dx_contract : contract 2 1 (int_opts 1 (v_period 1 INT_MAX (-1))) start_p1 ti_dx.
Proof.
  perstart ti_dx start_p1. apply dm_init_wp; [zl|zl|]. intros [? ?]. wps.
  loop (fun i '(_, _, a) => zlen a = i - (p - 1)); [zl|cbv beta iota; zl| |].
  - intros i [[? ?] ?] Hi Ho. wps. cdir. zl.
  - intros [[? ?] ?] Ho. okay.
Qed.
Lemma CALC_TRUERANGE_wp h l c i (Q : _ -> Prop) : 1 <= i < zlen h -> zlen l = zlen h -> zlen c = zlen h ->
  (forall v, Q v) -> wp (CALC_TRUERANGE h l c i) Q.
Proof. intros. unfold CALC_TRUERANGE. wps; auto. Qed.
Ltac trng := apply CALC_TRUERANGE_wp; [zl|zl|zl|]; intros; wps.
Lemma di_contract : contract 3 2 (int_opts 1 (v_period 1 INT_MAX (-1))) start_p1 ti_di.
Proof.
  perstart ti_di start_p1. loop (fun _ _ => True); [zl|exact I| |].
  { intros i [[? ?] ?] Hi _. wps. trng. cdir. exact I. }
  intros [[? ?] ?] _. wps. replace (Z.max 1 (Z.min p size) =? p) with true by lia.
  loop (fun i '(_, _, _, a, b) => zlen a = i - (p - 1) /\ zlen b = i - (p - 1)); [zl|cbv beta iota; zl| |].
  - intros i [[[[? ?] ?] ?] ?] Hi Ho. wps. trng. cdir. zl.
  - intros [[[[? ?] ?] ?] ?] Ho. okay.
Qed.
Lemma adx_contract : contract 2 1 (int_opts 1 (v_mult 2 1073741824 2 0)) start_p12 ti_adx.
Proof.
  mulstart ti_adx start_p12. apply dm_init_wp; [zl|zl|]. intros [? ?]. wps.
  loop (fun i '(_, _, _, a) => zlen a = Z.max 0 (i - 2 * (p - 1))); [zl|zl| |].
  - intros i [[[? ?] ?] ?] Hi Ho. wps. cdir; zl.
  - intros [[[? ?] ?] ?] Ho. okay.
Qed.
Lemma adxr_contract : contract 2 1 (int_opts 1 (v_mult 2 268435453 3 0)) start_p13 ti_adxr.
Proof.
  mulstart ti_adxr start_p13. apply dm_init_wp; [zl|zl|]. intros [? ?]. wps.
  apply wp_bnew; [zl|]. intros bb Hbb. wps.
  loop (fun i '(_, _, _, bb, a) =>
    (exists ps, slots_ok bb (p - 1) ps /\ zlen ps = Z.max 0 (i - 2 * (p - 1))) /\
    zlen a = Z.max 0 (i - 3 * (p - 1))); [zl| | |].
  - destruct Hbb as (ps & Hs & _ & Hz). split; [|zl]. exists ps. split; [exact Hs|zl].
  - clear bb Hbb. intros i [[[[? ?] ?] bb] ?] Hi [(ps & Hs & Hz) Ho]. wps. cdir.
    + split; [|zl]. exists ps. split; [exact Hs|zl].
    + eapply wp_qpush; [exists ps; split; [exact Hs|reflexivity]|]. intros b' (ps' & Hs' & Hz'). wps.
      split; [|zl]. exists ps'. split; [exact Hs'|zl].
    + rewrite (buffer_get_next bb (p - 1) ps) by (try exact Hs; zl). wps.
      eapply wp_qpush; [exists ps; split; [exact Hs|reflexivity]|]. intros b' (ps' & Hs' & Hz'). wps.
      split; [|zl]. exists ps'. split; [exact Hs'|zl].
    + eapply wp_qpush; [exists ps; split; [exact Hs|reflexivity]|]. intros b' (ps' & Hs' & Hz'). wps.
      split; [|zl]. exists ps'. split; [exact Hs'|zl].
  - intros [[[[? ?] ?] ?] ?] [_ Ho]. okay.
Qed.
Lemma msw_contract : contract 1 2 (int_opts 1 (v_period 1 INT_MAX 0)) start_p ti_msw.
Proof.
  perstart ti_msw start_p.
  loop (fun i '(a, b) => zlen a = i - p /\ zlen b = i - p); [zl|cbv beta iota; zl| |].
  - intros i [? ?] Hi Ho. loop_any. wps. zl.
  - intros [? ?] Ho. okay.
Qed.
Lemma natr_contract : contract 3 1 (int_opts 1 (v_period 1 INT_MAX (-1))) start_p1 ti_natr.
Proof.
  perstart ti_natr start_p1. loop (fun _ _ => True); [zl|exact I|intros; wps; trng; exact I|].
  intros s _. wps.
  all: loop (fun i '(_, a) => zlen a = i - (p - 1)); [zl|cbv beta iota; zl|intros i [? ?] Hi Ho; wps; trng; zl|intros [? ?] Ho; okay].
Qed.
Lemma CHANGE_wp x i (Q : _ -> Prop) : 1 <= i < zlen x -> (forall v, Q v) -> wp (CHANGE x i) Q.
Proof. intros. unfold CHANGE. wps; auto. Qed.
Lemma volatility_contract : contract 1 1 (int_opts 1 (v_period 1 INT_MAX 0)) start_p ti_volatility.
Proof.
  perstart ti_volatility start_p.
  loop (fun _ _ => True); [zl|exact I|intros i [? ?] Hi _; wps; apply CHANGE_wp; [zl|intros; wps; exact I]|].
  intros [? ?] _. loop (fun i '(_, _, a) => zlen a = i - p); [zl|cbv beta iota; zl| |].
  - intros i [[? ?] ?] Hi Ho. wps. apply CHANGE_wp; [zl|intros; wps]. apply CHANGE_wp; [zl|intros; wps]. zl.
  - intros [[? ?] ?] Ho. okay.
Qed.
Lemma cvi_contract : contract 2 1
  (int_opts 1 (fun ns => match ns with [p] => if p =? 1 then Outside else v_mult 1 268435452 2 1 ns | _ => Outside end))
  start_2p1 ti_cvi.
Proof.
  open_int_contract; ranges. destruct (p =? 1) eqn:E1; [exact I|]. cbn [v_mult].
  destruct (p <? 1) eqn:E; [reject_tac|]. destruct (p <=? 268435452) eqn:Ehi; [|exact I].
  split; [unfold start_2p1; getcast; cbn [bind]; rewrite ck_ok by zl; cbn [bind]; rewrite ck_ok by zl; f_equal; zl|].
  apply wp_out. unfold ti_cvi, start_2p1. wps; contra; [fin|].
  apply wp_bnew; [zl|]. intros bb (ps0 & Hbb & _ & Hz). wps.
  loop (fun i '(_, bb) => exists ps, slots_ok bb p ps /\ zlen ps = i - 1); [zl|exists ps0; split; [exact Hbb|zl]| |].
  - intros i [? b] Hi Hb. wps. eapply wp_qpush; [exact Hb|]. intros b' Hb'. wps. replace (i + 1 - 1) with (i - 1 + 1) by lia. exact Hb'.
  - clear bb ps0 Hbb Hz. intros [? bb] Hbb.
    loop (fun i '(_, bb, out) => (exists ps, slots_ok bb p ps /\ zlen ps = i - 1) /\ zlen out = i - (p * 2 - 1)); [zl|split; [exact Hbb|zl]| |].
    + clear bb Hbb. intros i [[? b] ?] Hi [Hb Ho]. wps. destruct Hb as (ps & Hs & Hz).
      pose proof Hs as (Hs0 & Hs1 & Hs2 & Hs3 & Hs4).
      eapply slots_full; [exact Hs|lia|rewrite Hs2; apply Z.mod_pos_bound; lia|]. intros. wps.
      eapply wp_qpush; [exists ps; split; [exact Hs|reflexivity]|]. intros b' Hb'. wps.
      replace (i + 1 - 1) with (zlen ps + 1) by lia. split; [exact Hb'|zl].
    + intros [[? ?] ?] [_ Ho]. okay.
Qed.

Lemma hma_contract : SqrtLaw A -> contract 1 1 (int_opts 1 v_hma) ti_hma_start ti_hma.
Proof.
  intros Hsq. open_int_contract; ranges. cbn [v_hma].
  destruct (p <? 1) eqn:E; [reject_tac|]. destruct ((2 <=? p) && (p <=? 46340)) eqn:E0; [|exact I].
  pose proof (Hsq p ltac:(zl)) as Hs. pose proof (Z.sqrt_spec p ltac:(lia)) as Hsp. pose proof (Z.sqrt_nonneg p) as Hq0.
  set (q := Z.sqrt p) in *. clearbody q. unfold Z.succ in Hsp. assert (Hq1 : 1 <= q) by nia. assert (Hq2 : q <= 216) by nia. clear Hsq.
  assert (Hpq : q <= p) by nia. clear Hsp.
  assert (H2 : 1 <= Z.quot p 2 <= p /\ Z.quot p 2 <= 23170) by (rewrite Z.quot_div_nonneg by lia; lia).
  remember (Z.quot p 2) as p2 eqn:Ep2.
  assert (H3 : INT_MIN <= p2 * (p2 + 1) <= INT_MAX) by (unfold INT_MIN, INT_MAX; nia).
  assert (H4 : INT_MIN <= p * (p + 1) <= INT_MAX) by (unfold INT_MIN, INT_MAX; nia).
  assert (H5 : INT_MIN <= q * (q + 1) <= INT_MAX) by (unfold INT_MIN, INT_MAX; nia).
  assert (Hst : ti_hma_start [x0] = Ok (p + q - 2)).
  { unfold ti_hma_start. getcast. cbn [bind]. getcast. cbn [bind]. replace (p >=? 0) with true by lia.
    rewrite ck_ok by zl. cbn [bind]. rewrite ck_ok by zl. reflexivity. }
  split; [exact Hst|]. apply wp_out. unfold ti_hma. rewrite Hst. rewrite <- ?Ep2. wps; rewrite <- ?Ep2; wps; contra; [fin|].
  loop_any. wps. apply wp_bnew; [zl|]. intros bb (ps0 & Hb & _ & Hz). wps.
  loop (fun i '(_, _, _, _, _, _, b, out) => (exists ps, slots_ok b q ps /\ zlen ps = i - (p - 1)) /\
     zlen out = Z.max 0 (i - (p + q - 2))); [zl| | |].
  - split; [|zl]. exists ps0. split; [exact Hb|zl].
  - clear bb ps0 Hb Hz. intros i [[[[[[[? ?] ?] ?] ?] ?] bb] out] Hi [(ps & Hb & Hz) Ho].
    clear H3 H4 H5. wps.
    eapply wp_qpush; [exists ps; split; [exact Hb|reflexivity]|]. clear bb Hb. intros bb (ps' & Hb & Hz'). wps.
    + rewrite (buffer_get_next bb q ps') by (try exact Hb; zl). wps. split; [|zl]. exists ps'. split; [exact Hb|zl].
    + split; [|zl]. exists ps'. split; [exact Hb|zl].
  - intros [[[[[[[? ?] ?] ?] ?] ?] ?] ?] [_ Ho]. okay.
Qed.

Lemma ROC_wp x i p (Q : _ -> Prop) : 0 <= i - p -> 0 <= i < zlen x -> 0 <= p -> (forall v, Q v) -> wp (kst_ROC x i p) Q.
Proof. intros. unfold kst_ROC. wps; auto. Qed.
Lemma kst_warm_wp size x r r4 per v (Q : _ -> Prop) : zlen x = size -> 1 <= r <= r4 -> r4 < size -> (forall v, Q v) ->
  wp (kst_warm size x r r4 per v) Q.
Proof.
  intros H1 H2 H3 HQ. unfold kst_warm.
  loop (fun _ _ => True); [lia|exact I| |auto].
  intros. wps. apply ROC_wp; try lia. intros. wps. exact I.
Qed.
Lemma kst_contract : contract_if (fun size st => size > st) 1 2 (int_opts 8 v_kst) ti_kst_start ti_kst.
Proof.
  open_int_contract; ranges. cbn [v_kst].
  destruct (negb ((p <? p0) && (p0 <? p1) && (p1 <? p2))) eqn:E.
  { unfold ti_kst. repeat (getcast; cbn [bind]). rewrite E. reflexivity. }
  assert (Hex : existsb (fun o => o .< #1) [x0; x1; x2; x3; x4; x5; x6; x7] =
    ((p <? 1) || (p0 <? 1) || (p1 <? 1) || (p2 <? 1) || (p3 <? 1) || (p4 <? 1) || (p5 <? 1) || (p6 <? 1))).
  { cbn [existsb].
    rewrite (to_int_flt x0 p), (to_int_flt x1 p0), (to_int_flt x2 p1), (to_int_flt x3 p2), (to_int_flt x4 p3),
      (to_int_flt x5 p4), (to_int_flt x6 p5), (to_int_flt x7 p6) by (assumption || zl).
    rewrite orb_false_r, !orb_assoc. reflexivity. }
  destruct ((p <? 1) || (p0 <? 1) || (p1 <? 1) || (p2 <? 1) || (p3 <? 1) || (p4 <? 1) || (p5 <? 1) || (p6 <? 1)) eqn:E0.
  { unfold ti_kst. repeat (getcast; cbn [bind]). rewrite E, Hex. reflexivity. }
  destruct ((p3 <? INT_MAX) && (p4 <? INT_MAX) && (p5 <? INT_MAX) && (p6 <? INT_MAX)) eqn:E1; [|exact I].
  split; [start_tac|]. intros Hgt. apply wp_out. unfold ti_kst, ti_kst_start.
  assert (1 <= p < p0 /\ p0 < p1 < p2 /\ p3 < INT_MAX /\ p4 < INT_MAX /\ p5 < INT_MAX /\ p6 < INT_MAX
    /\ 1 <= p3 /\ 1 <= p4 /\ 1 <= p5 /\ 1 <= p6) by lia.
  clear E0 E1. wps; try congruence; clear E Hex.
  all: repeat (apply ROC_wp; [lia|lia|lia|]; intros; wps).
  repeat (apply kst_warm_wp; [lia|lia|lia|]; intros; wps).
  loop (fun i '(_, _, _, _, _, a, b) => zlen a = i - p2 /\ zlen b = i - p2); [zl|cbv beta iota; zl| |].
  - intros i [[[[[[? ?] ?] ?] ?] ?] ?] Hi Ho. wps.
    repeat (apply ROC_wp; [lia|lia|lia|]; intros; wps). zl.
  - intros [[[[[[? ?] ?] ?] ?] ?] ?] Ho. okay.
Qed.
End C.

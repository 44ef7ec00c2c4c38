(** Caller-contract proofs for the functions of M_osc.v, any arithmetic. *)
From Verif Require Export M_osc C_window.

(** Verdicts. *)
(** start = d * (period - 1) + e *)
Definition v_mult (lo hi d e : Z) (ns : list Z) : verdict :=
  match ns with
  | [p] => if p <? lo then Reject else if p <=? hi then Accept (d * (p - 1) + e) else Outside
  | _ => Outside
  end.
(** short period at least 1, long period at least the short one; start = long - 1 *)
Definition v_sl1 (ns : list Z) : verdict :=
  match ns with
  | [s; l] => if l =? INT_MIN then Outside else if (s <? 1) || (l <? s) then Reject else Accept (l - 1)
  | _ => Outside
  end.
Definition v_kvo (ns : list Z) : verdict :=
  match ns with
  | [s; l] => if (s <? 1) || (l <? s) then Reject else Accept 1
  | _ => Outside
  end.
Definition v_macd (ns : list Z) : verdict :=
  match ns with
  | [s; l; g] => if (s <? 1) || (l <? 2) || (l <? s) || (g <? 1) then Reject else Accept (l - 1)
  | _ => Outside
  end.
(** ultosc: the medium period must be below the long one (see C25) *)
Definition v_ultosc (ns : list Z) : verdict :=
  match ns with
  | [s; m; l] => if (s <? 1) || (m <? s) || (l <? m) then Reject
                 else if (m <? l) && (l <=? 268435452) then Accept l else Outside
  | _ => Outside
  end.
(** bbands: the second option is a factor of any value *)
Definition o_bbands {A : Arith} : optspec := fun opts v =>
  exists o0 o1 p, opts = [o0; o1] /\ to_int o0 = Some p /\ v = v_period 1 INT_MAX (-1) [p].
(** psar: 0 < step < maximum *)
Definition o_psar {A : Arith} : optspec := fun opts v =>
  exists st mx, opts = [st; mx] /\
    v = if (st .<= #0) || (mx .<= st) then Reject else Accept 1.
(** vidya: 1 <= short <= long, 2 <= long, 0 <= alpha <= 1 *)
Definition o_vidya {A : Arith} : optspec := fun opts v =>
  exists o0 o1 alpha s l, opts = [o0; o1; alpha] /\ to_int o0 = Some s /\ to_int o1 = Some l /\
    v = if (s <? 1) || (l <? s) || (l <? 2) || (alpha .< #0) || (alpha .> #1) then Reject
        else Accept (l - 2).
(** hma: period 2..46340 *)
Definition v_hma (ns : list Z) : verdict :=
  match ns with
  | [p] => if p <? 1 then Reject
           else if (2 <=? p) && (p <=? 46340) then Accept (p + Z.sqrt p - 2) else Outside
  | _ => Outside
  end.
(** kst: increasing change periods, all options at least 1 *)
Definition v_kst (ns : list Z) : verdict :=
  match ns with
  | [r1; r2; r3; r4; m1; m2; m3; m4] =>
      if negb ((r1 <? r2) && (r2 <? r3) && (r3 <? r4)) then Reject
      else if (r1 <? 1) || (r2 <? 1) || (r3 <? 1) || (r4 <? 1) || (m1 <? 1) || (m2 <? 1) || (m3 <? 1) || (m4 <? 1) then Reject
      else if (m1 <? INT_MAX) && (m2 <? INT_MAX) && (m3 <? INT_MAX) && (m4 <? INT_MAX) then Accept r4
      else Outside
  | _ => Outside
  end.

(** [(int)sqrt(n)] of a non-negative int is the integer square root; proved for the reals
    and for binary64. *)
Definition SqrtLaw (A : Arith) : Prop :=
  forall n, 0 <= n <= INT_MAX -> to_int (fsqrt #n) = Some (Z.sqrt n).

Tactic Notation "mulstart" reference(f) reference(st) :=
  open_int_contract; ranges; cbn [v_mult];
  match goal with |- context[if ?p <? ?k then _ else _] => destruct (p <? k) eqn:?E end; [reject_tac|];
  match goal with |- context[if ?p <=? ?k then _ else _] => destruct (p <=? k) eqn:?Ehi end; [|exact I];
  split; [unfold st; repeat (getcast; cbn [bind]); repeat (rewrite ck_ok by zl; cbn [bind]); try reflexivity; f_equal; zl|];
  apply wp_out; unfold f, st; wps; contra; [fin|..].

Section C.
Context {A : Arith} {L : IntLaws A}.

Lemma tema_contract : contract 1 1 (int_opts 1 (v_mult 1 715827883 3 0)) start_p13 ti_tema.
Proof.
  mulstart ti_tema start_p13.
  loop (fun i '(_, _, _, out) => zlen out = Z.max 0 (i - (p - 1) * 3)); [zl|cbv beta iota; zl| |okay].
  intros i [[[a b] c] out] Hi Ho. wps; ifs; zl.
Qed.
Lemma sma_wp size x o p (Q : _ -> Prop) : zlen x = size -> 0 <= size <= INT_MAX -> to_int o = Some p -> 1 <= p ->
  (forall out, zlen out = Z.max 0 (size - (p - 1)) -> Q (OKAY, [out])) ->
  wp (ti_sma size [x] [o]) Q.
Proof.
  intros H1 H2 H3 H4 HQ.
  destruct (sma_contract size [x] [o] (Accept (p + -1))) as (_ & outs & E & Hn & Ho).
  - split; [reflexivity|]. split; [auto|exact H2].
  - exists [p]. pose proof (to_int_range o p H3). cbn [v_period].
    split; [reflexivity|]. split; [auto|].
    replace (p <? 1) with false by lia. replace (p <=? INT_MAX) with true by lia. reflexivity.
  - rewrite E. cbn. lists. apply HQ. zl.
Qed.

Lemma quot2 p : 3 <= p <= 92680 ->
  1 <= Z.quot p 2 /\ Z.quot p 2 * 2 <= p <= Z.quot p 2 * 2 + 1 /\
  (Z.rem p 2 <> 0 -> INT_MIN <= (Z.quot p 2 + 1) * (Z.quot p 2 + 1) <= INT_MAX) /\
  (Z.rem p 2 = 0 -> INT_MIN <= (Z.quot p 2 + 1) * Z.quot p 2 <= INT_MAX).
Proof.
  intros H. rewrite Z.quot_div_nonneg, Z.rem_mod_nonneg by lia.
  assert (0 <= p / 2 <= 46340) by lia. assert (p mod 2 <> 0 -> p / 2 <= 46339) by lia.
  unfold INT_MIN, INT_MAX. repeat split; try lia; intros; try nia.
  all: assert (p / 2 <= 46339) by lia; nia.
Qed.

Lemma trima_contract : contract 1 1 (int_opts 1 (v_period 1 92680 (-1))) start_p1 ti_trima.
Proof.
  perstart ti_trima start_p1.
  - eapply sma_wp; eauto; try zl. intros out Ho. cbn. fin.
  - pose proof (quot2 p ltac:(lia)). lia.
  - pose proof (quot2 p ltac:(lia)).
    loop_any.
    loop (fun i '(_, _, _, l, t1, t2, out) => zlen out = i - (p - 1) /\ t2 = i - (p - 1) /\ 0 <= l - t2 <= p - 1 /\ 0 <= t1 - t2 <= p - 1); [zl|cbv beta iota; zl| |].
    + intros i [[[[[[? ?] ?] ?] ?] ?] ?] Hi (Ho & -> & Hl1 & Hl2); wps; zl.
    + intros [[[[[[? ?] ?] ?] ?] ?] ?] ?; okay.
  - pose proof (quot2 p ltac:(lia)). lia.
  - pose proof (quot2 p ltac:(lia)).
    loop_any.
    loop (fun i '(_, _, _, l, t1, t2, out) => zlen out = i - (p - 1) /\ t2 = i - (p - 1) /\ 0 <= l - t2 <= p - 1 /\ 0 <= t1 - t2 <= p - 1); [zl|cbv beta iota; zl| |].
    + intros i [[[[[[? ?] ?] ?] ?] ?] ?] Hi (Ho & -> & Hl1 & Hl2); wps; zl.
    + intros [[[[[[? ?] ?] ?] ?] ?] ?] ?; okay.
Qed.
Lemma kama_contract : contract 1 1 (int_opts 1 (v_period 1 INT_MAX (-1))) start_p1 ti_kama.
Proof. perstart ti_kama start_p1. loop_any. wps. loop_len (p - 1); okay. Qed.
Lemma bbands_contract : contract 1 3 o_bbands ti_bbands_start ti_bbands.
Proof.
  intros size inputs options v (? & ? & Hmax) (o0 & o1 & p & -> & Hp & ->); lists. ranges. cbn [v_period].
  destruct (p <? 1) eqn:E; [reject_tac|]. destruct (p <=? INT_MAX) eqn:E0; [|exact I].
  split; [start_tac|]. apply wp_out. unfold ti_bbands, ti_bbands_start. wps; contra; [fin|]. loop_any.
  loop (fun i '(_, _, a, b, c) => zlen a = i - (p - 1) /\ zlen b = i - (p - 1) /\ zlen c = i - (p - 1)); [zl|cbv beta iota; zl| |].
  - intros i [[[[? ?] ?] ?] ?] Hi Ho. okay.
  - intros [[[[? ?] ?] ?] ?] Ho. okay.
Qed.
Lemma psar_contract : contract 2 1 o_psar (fun _ => Ok 1) ti_psar.
Proof.
  intros size inputs options v (? & ? & Hmax) (o0 & o1 & -> & ->); lists.
  destruct (o0 .<= #0) eqn:E; cbn [orb]; [unfold ti_psar; rewrite E; reflexivity|].
  destruct (o1 .<= o0) eqn:E1; [unfold ti_psar; rewrite E, E1; reflexivity|].
  split; [reflexivity|]. apply wp_out. unfold ti_psar. wps; contra; [fin|].
  loop_len 1; okay.
Qed.
Lemma vidya_contract : contract_if (fun size st => size <> st + 1) 1 1 o_vidya ti_vidya_start ti_vidya.
Proof.
  intros size inputs options v (? & ? & Hmax) (o0 & o1 & al & s & l & -> & Hs & Hlo & ->); lists. ranges.
  destruct ((s <? 1) || (l <? s) || (l <? 2) || (al .< #0) || (al .> #1)) eqn:E.
  { unfold ti_vidya. repeat (getcast; cbn [bind]). destruct (s <? 1); [reflexivity|].
    destruct (l <? s); [reflexivity|]. destruct (l <? 2); [reflexivity|]. cbn in E. rewrite E. reflexivity. }
  split; [start_tac|]. intros Hne. apply wp_out. unfold ti_vidya, ti_vidya_start.
  assert (E2 : ((al .< #0) || (al .> #1)) = false).
  { destruct (al .< #0), (al .> #1); cbn in *; rewrite ?orb_true_r in E; try discriminate; reflexivity. }
  assert (E3 : 1 <= s <= l /\ 2 <= l).
  { destruct (s <? 1) eqn:?, (l <? s) eqn:?, (l <? 2) eqn:?; cbn in E; try discriminate; lia. }
  clear E. rewrite E2. wps; contra; [fin|]. loop_any. wps; contra. loop_len (l - 2); okay.
Qed.
Lemma adosc_contract : contract 4 1 (int_opts 2 v_sl1) start_l1 ti_adosc.
Proof.
  open_int_contract. ranges. cbn [v_sl1].
  destruct (p0 =? INT_MIN) eqn:E; [exact I|].
  destruct ((p <? 1) || (p0 <? p)) eqn:E0.
  - unfold ti_adosc. repeat (getcast; cbn [bind]). rewrite ck_ok by zl. cbn [bind]. ifs; try reflexivity; zl.
  - split; [start_tac|]. apply wp_out. unfold ti_adosc, start_l1. wps; contra; [fin|].
    loop (fun i '(_, _, _, out) => zlen out = Z.max 0 (i - (p0 - 1))); [zl|cbv beta iota; zl| |].
    + intros i [[[? ?] ?] ?] Hi Ho. wps; ifs; zl.
    + intros [[[? ?] ?] ?] Ho. okay.
Qed.
Lemma vosc_contract : contract 1 1 (int_opts 2 v_sl1) start_l1 ti_vosc.
Proof.
  open_int_contract. ranges. cbn [v_sl1].
  destruct (p0 =? INT_MIN) eqn:E; [exact I|].
  destruct ((p <? 1) || (p0 <? p)) eqn:E0; [reject_tac|].
  split; [start_tac|]. apply wp_out. unfold ti_vosc, start_l1. wps; contra; [fin|].
  loop_any. loop_len (p0 - 1); okay.
Qed.
Lemma kvo_contract : contract 4 1 (int_opts 2 v_kvo) ti_kvo_start ti_kvo.
Proof.
  open_int_contract. ranges. cbn [v_kvo].
  destruct ((p <? 1) || (p0 <? p)) eqn:E0; [reject_tac|].
  split; [reflexivity|]. apply wp_out. unfold ti_kvo, ti_kvo_start. wps; contra; [fin|].
  loop_len 1; okay.
Qed.
Lemma abands_contract : contract 3 3 (int_opts 1 (v_period 1 268435452 (-1))) start_p1 ti_abands.
Proof.
  perstart ti_abands start_p1.
  apply wp_bnew; [zl|]. intros bh Hbh. wps. apply wp_bnew; [zl|]. intros bl Hbl. wps.
  loop (fun i '(k, d, _) =>
      (exists ps, slots_ok k p ps /\ bpushes k = zlen ps /\ zlen ps = i) /\
      (exists ps, slots_ok d p ps /\ bpushes d = zlen ps /\ zlen ps = i)); [zl|auto| |].
  - clear bh bl Hbh Hbl. intros i [[bh bl] s] Hi [Hbh Hbl]. wps. eapply wp_push; [exact Hbh|]. intros bh' Hbh'. wps.
    eapply wp_push; [exact Hbl|]. intros bl' Hbl'. wps. auto.
  - clear bh bl Hbh Hbl. intros [[bh bl] s] [Hbh Hbl]. wps.
    loop (fun i '(k, d, _, o1, o2, o3) =>
      (exists ps, slots_ok k p ps /\ bpushes k = zlen ps /\ zlen ps = i) /\
      (exists ps, slots_ok d p ps /\ bpushes d = zlen ps /\ zlen ps = i) /\
      zlen o1 = i - (p - 1) /\ zlen o2 = i - (p - 1) /\ zlen o3 = i - (p - 1)); [zl| | |].
    + repeat split; auto; zl.
    + clear bh bl Hbh Hbl. intros i [[[[[bh bl] s'] o1] o2] o3] Hi (Hbh & Hbl & Ho1 & Ho2 & Ho3). wps.
      eapply wp_push; [exact Hbh|]. intros bh' Hbh'. wps.
      eapply wp_push; [exact Hbl|]. intros bl' Hbl'. wps. repeat split; auto; zl.
    + intros [[[[[? ?] ?] ?] ?] ?] (_ & _ & ?). okay.
Qed.
Lemma ao_contract : contract 2 1 (v_none 33) ti_ao_start ti_ao.
Proof. none ti_ao. unfold ti_ao_start. wps; [fin|]. loop_any. wps. loop_len 33; okay. Qed.
Lemma CHAIKIN_wp h l c v i (Q : _ -> Prop) : 0 <= i < zlen h -> zlen l = zlen h -> zlen c = zlen h -> zlen v = zlen h ->
  (forall x, Q x) -> wp (CHAIKIN_AD h l c v i) Q.
Proof. intros. unfold CHAIKIN_AD. wps; auto. Qed.
Lemma cmf_contract : contract 4 1 (int_opts 1 (v_period 1 INT_MAX (-1))) start_p1 ti_cmf.
Proof.
  perstart ti_cmf start_p1.
  loop (fun _ _ => True); [zl|exact I|intros; wps; apply CHAIKIN_wp; [zl..|]; intros; wps; exact I|].
  intros [ads vol] _. loop_len (p - 1).
  - apply CHAIKIN_wp; [zl..|]; intros; wps. apply CHAIKIN_wp; [zl..|]; intros; wps. fin.
  - okay.
Qed.

Lemma TYPPRICE_wp h l c i (Q : _ -> Prop) : 0 <= i < zlen h -> zlen l = zlen h -> zlen c = zlen h ->
  (forall x, Q x) -> wp (TYPPRICE h l c i) Q.
Proof. intros. unfold TYPPRICE. wps; auto. Qed.

(** any slot of a full buffer is initialised *)
Lemma slots_full (b : buffer) size ps j (Q : _ -> Prop) : slots_ok b size ps -> size <= zlen ps -> 0 <= j < size ->
  (forall k v, 0 <= k < zlen ps -> v = zf ps k -> Q v) -> wp (rdo (bvals b) j) Q.
Proof.
  intros (H0 & H1 & H2 & H3 & H4) Hf Hj HQ.
  set (k := (zlen ps - size) + (j - (zlen ps - size)) mod size).
  assert (Hk : k mod size = j).
  { unfold k. rewrite Zplus_mod_idemp_r. replace (zlen ps - size + (j - (zlen ps - size))) with j by lia.
    apply Z.mod_small. lia. }
  pose proof (Z.mod_pos_bound (j - (zlen ps - size)) size H0).
  assert (Hk2 : 0 <= k < zlen ps) by lia.
  unfold rdo. rewrite (rd_ok None) by lia. cbn [bind]. rewrite <- Hk, H4 by lia. cbn. apply (HQ k); auto.
Qed.

Lemma cci_contract : contract 3 1 (int_opts 1 (v_mult 1 268435452 2 0)) start_p12 ti_cci.
Proof.
  mulstart ti_cci start_p12.
  apply wp_bnew; [zl|]. intros b Hb. wps.
  loop (fun i '(b, out) => (exists ps, slots_ok b p ps /\ bpushes b = zlen ps /\ zlen ps = i) /\
     zlen out = Z.max 0 (i - 2 * (p - 1))); [zl| | |].
  - split; [auto|zl].
  - clear b Hb. intros i [b out] Hi [Hb Ho]. wps. apply TYPPRICE_wp; [zl..|]. intros x. wps.
    eapply wp_push; [exact Hb|]. intros b' Hb'. wps; try (split; [auto|zl]).
    loop (fun _ _ => True); [zl|exact I| |].
    + intros j acc Hj _. wps. destruct Hb' as (ps & Hs & _ & Hps).
      eapply slots_full; [exact Hs|lia|lia|]. intros. wps. exact I.
    + intros acc _. wps; split; auto; zl.
  - intros [? ?] [_ ?]. okay.
Qed.

Lemma mass_contract : contract 2 1 (int_opts 1 (v_period 1 268435452 15)) ti_mass_start ti_mass.
Proof.
  perstart ti_mass ti_mass_start.
  apply wp_bnew; [zl|]. intros b Hb. wps.
  loop (fun i '(_, _, b, out) => (exists ps, slots_ok b p ps /\ bpushes b = zlen ps /\ zlen ps = Z.max 0 (i - 16)) /\
     zlen out = Z.max 0 (i - (p + 15))); [zl| | |].
  - split; [auto|cbv beta iota; zl].
  - clear b Hb. intros i [[[e1 e2] b] out] Hi [Hb Ho]. wps.
    1: eapply wp_push; [exact Hb|]; intros b' Hb'; wps.
    all: split; [|ifs; zl].
    all: try replace (Z.max 0 (i + 1 - 16)) with (Z.max 0 (i - 16) + 1) by zl; auto.
    all: try replace (Z.max 0 (i + 1 - 16)) with (Z.max 0 (i - 16)) by zl; auto.
  - intros [[[? ?] ?] ?] [_ ?]. okay.
Qed.

End C.

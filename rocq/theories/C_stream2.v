(** Streams of M_stream2: option verdicts, batch/stream simulation. *)
From Verif Require Export M_stream2 C_stream1 C_basic.

Section P.
Context {A : Arith}.

(** Two real options with lower bounds [a] and [b], the first [st] bars skipped. *)
Definition o_two (a b st : Z) : optspec := fun opts v => exists p q, opts = [p; q] /\
  v = if p .< #a then Reject else if q .< #b then Reject else Accept st.
(** One real option, at least 1. *)
Definition o_one (st : Z) : optspec := fun opts v => exists p, opts = [p] /\ v = if p .< #1 then Reject else Accept st.

Lemma t3_sim : sim 1 1 (o_two 1 0 0) always ti_t3_start ti_t3 ti_t3_stream_new t3_loops.
Proof.
  intros options v (x & l & -> & ->). unfold ti_t3, ti_t3_stream_new.
  destruct (x .< #1) eqn:E0; [reject_tac2|]. destruct (l .< #0) eqn:E1; [reject_tac2|].
  accept_tac.
  loops_tac (fun (i : Z) (a : option (T * T * T * T * T * T)) b => i > 0 -> a = Some b); [lia|].
  wpr; contra; emit.
Qed.
Lemma t3_online : online 1 t3_loops. Proof. online_tac @t3_loops. Qed.

Lemma tsi_sim : sim 1 1 (o_two 1 1 1) always ti_tsi_start ti_tsi ti_tsi_stream_new tsi_loops.
Proof.
  intros options v (x & l & -> & ->). unfold ti_tsi, ti_tsi_stream_new.
  destruct (x .< #1) eqn:E0; [reject_tac2|]. destruct (l .< #1) eqn:E1; [reject_tac2|].
  accept_tac.
  loops_tac (fun (i : Z) (a : option T * option (T * T * T * T)) (b : T * T * T * T * T) =>
    let '(p, b1, b2, b3, b4) := b in (i > 0 -> fst a = Some p) /\ (i > 1 -> snd a = Some (b1, b2, b3, b4))); [lia|].
  wpr; contra; emit.
Qed.
Lemma tsi_online : online 1 tsi_loops. Proof. online_tac @tsi_loops. Qed.


(** hd: every ring keeps its capacity. *)
Definition hd_shape (s : hd_state) : Prop :=
  rok (hd_Smooth s) 7 /\ rok (hd_Detrender s) 7 /\ rok (hd_I1 s) 7 /\ rok (hd_Q1 s) 7 /\ rok (hd_Price s) 4.
Lemma hd_init_ok : exists s, hd_init = Ok s /\ hd_shape s.
Proof.
  unfold hd_init. destruct (ring_new_ok 7 ltac:(lia)) as (r & Er & Hr), (ring_new_ok 4 ltac:(lia)) as (q & Eq & Hq).
  rewrite Er, Eq. cbn [bind]. eexists; split; [reflexivity|]. repeat split; eexists; eassumption.
Qed.
Lemma hilbert_wp X P (Q : T -> Prop) : rok X 7 -> (forall x, Q x) -> wp (hd_hilbert X P) Q.
Proof. intros HX HQ. unfold hd_hilbert. wpr. apply HQ. Qed.
Lemma wp_ring2_get r k (Q : T -> Prop) : 0 <= k < 2 -> (forall x, Q x) -> wp (ring2_get r k) Q.
Proof. intros Hk HQ. rewrite (ring2_get_ok r (fun k => if k =? 0 then ra1 r else ra2 r)); [apply HQ|split; reflexivity|exact Hk]. Qed.
Lemma hd_main_ok series i s : 0 <= i < zlen series -> hd_shape s ->
  wp (hd_main series i s) (fun r => emitted 1 true (snd r) /\ hd_shape (fst r)).
Proof.
  intros Hi (H1 & H2 & H3 & H4 & H5). unfold hd_main.
  repeat first [apply hilbert_wp; [assumption|] | apply wp_ring2_get; [lia|] | wpr1].
  split; [split; [reflexivity|repeat constructor]|]. unfold hd_shape; cbn.
  repeat split; apply rok_step; assumption.
Qed.
Lemma hd_sim : sim 1 1 (v_none 5) always ti_hd_start ti_hd ti_hd_stream_new hd_loops.
Proof.
  intros options v [-> ->]. unfold ti_hd, ti_hd_stream_new. destruct hd_init_ok as (s0 & E0 & H0). rewrite E0. cbn [bind].
  accept_tac. same_tac (fun (_ : Z) s => hd_shape s); [exact H0|].
  split; [reflexivity|]. destruct (i <? 5) eqn:Ei.
  - destruct HI as (HS1 & HS2 & HS3 & HS4 & HS5). unfold hd_warm. wpr. emit.
    unfold hd_shape; cbn; repeat split; try assumption. apply rok_step; assumption.
  - replace (5 <=? i) with true by lia. apply hd_main_ok; [lia|exact HI].
Qed.
Lemma hd_online : online 1 hd_loops. Proof. online_tac @hd_loops; unfold hd_warm, hd_main; rewrite !(rd_zf x j) by lia; reflexivity. Qed.

Context {IL : IntLaws A}.

(** kc: the constructor accepts periods in [0,1), which the batch function rejects. *)
Definition o_kc : optspec := fun opts v => exists p m, opts = [p; m] /\
  v = if p .< #0 then Reject else if p .< #1 then Outside else if m .< #0 then Reject else Accept 0.
Lemma kc_sim : sim 3 3 o_kc always ti_kc_start ti_kc ti_kc_stream_new kc_loops.
Proof.
  intros options v (x & m & -> & ->). unfold ti_kc, ti_kc_stream_new.
  destruct (x .< #0) eqn:E0.
  { rewrite (flt_mono x 0 1) by (auto; unfold BIG; lia). reject_tac2. }
  destruct (x .< #1) eqn:E1; [exact I|]. destruct (m .< #0) eqn:E2; [reject_tac2|].
  accept_tac.
  loops_tac (fun (i : Z) (a : option (T * T)) (b : T * T * T) =>
    i > 0 -> a = Some (fst b) /\ snd b = zf x2 (i - 1)); [lia|].
  wpr; contra; cbn [fst snd] in *.
  - emit. intros. split; [reflexivity|]. f_equal. lia.
  - destruct HR as [-> ->]; [lia|]. wpr; contra. split; [reflexivity|]. emit. split; [reflexivity|]. f_equal. lia.
Qed.
Lemma kc_online : online 3 kc_loops. Proof. online_tac @kc_loops. Qed.

(** An integer period between [lo] and [hi]; the first [st] bars are skipped. *)
Definition v_const (lo hi st : Z) (ns : list Z) : verdict :=
  match ns with [p] => if p <? lo then Reject else if p <=? hi then Accept st else Outside | _ => Outside end.

Ltac hist0 M := match goal with |- context[ring_new M] =>
  let r := fresh "r" in let Er := fresh "Er" in let Hr := fresh "Hr" in
  destruct (ring_new_ok M ltac:(zl)) as (r & Er & Hr); rewrite Er; cbn [bind] end.

Lemma ahma_sim : sim 1 1 (int_opts 1 (v_const 1 (INT_MAX - 1) 0)) always ti_ahma_start ti_ahma ti_ahma_stream_new ahma_loops.
Proof.
  intros options v (ns & ? & ? & ->). lists. ranges. unfold ti_ahma, ti_ahma_stream_new, ti_ahma_start. getcast. cbn [bind v_const].
  destruct (p <? 1) eqn:Ep; [reject_tac2|]. destruct (p <=? INT_MAX - 1) eqn:Eq; [|exact I].
  rewrite ck_ok by zl. cbn [bind]. hist0 (p + 1). accept_tac.
  loops_tac (fun (i : Z) (a : list T) (b : ring) => zlen a = i /\ hist b (p + 1) (zp a) i).
  - split; [reflexivity|]. apply hist_of_ok; [exact Hr|]. intros; apply zp_neg; lia.
  - destruct (i <? p) eqn:Ei.
    + wpr; contra. rewrite zp_push in * by assumption.
      split; [reflexivity|]. emit; [zl|apply hist_step; assumption].
    + wpr; contra. rewrite zp_push in * by assumption. zph. zpn.
      split; [reflexivity|]. emit; [zl|apply hist_step; assumption].
Qed.
Lemma ahma_online : online 1 ahma_loops. Proof. online_tac @ahma_loops. Qed.

(** er *)
Lemma er_sim : sim 1 1 (int_opts 1 (v_period 1 (INT_MAX - 1) 0)) always ti_er_start ti_er ti_er_stream_new er_loops.
Proof.
  intros options v (ns & ? & ? & ->). lists. ranges. unfold ti_er, ti_er_stream_new, ti_er_start. getcast. cbn [bind v_period].
  destruct (p <? 1) eqn:Ep; [reject_tac2|]. destruct (p <=? INT_MAX - 1) eqn:Eq; [|exact I].
  rewrite ck_ok by zl. cbn [bind]. hist0 (p + 1). rewrite Z.add_0_r. accept_tac.
  loops_tac (fun (i : Z) (a : T) (b : T * ring) => a = fst b /\ hist (snd b) (p + 1) (zp x0) i).
  - split; [reflexivity|]. apply hist_of_ok; [exact Hr|]. intros; apply zp_neg; lia.
  - subst a. cbn [snd] in *. replace (- p + 1 - - p) with 1 by lia. replace (0 - - p) with p by lia.
    destruct (i <? 1) eqn:E1; [|destruct (i <? p) eqn:E2].
    + wpr. emit. apply hist_step; assumption.
    + wpr. zpn. emit. apply hist_step; assumption.
    + wpr. zpn. replace (i - (p - 1)) with (i - p + 1) by lia. emit. apply hist_step; assumption.
Qed.
Lemma er_online : online 1 er_loops. Proof. online_tac @er_loops. Qed.

(** evwma *)
Definition o_evwma : optspec := fun opts v => exists x n g, opts = [x; g] /\ to_int x = Some n /\
  v = if n <? 1 then Reject else if n =? INT_MAX then Outside else if g .<= #0 then Reject else Accept (n - 1).
Lemma evwma_sim : sim 2 1 o_evwma always ti_evwma_start ti_evwma ti_evwma_stream_new evwma_loops.
Proof.
  intros options v (x & p & g & -> & Hp & ->). ranges. unfold ti_evwma, ti_evwma_stream_new, ti_evwma_start. getcast. cbn [bind].
  destruct (p <? 1) eqn:Ep; [reject_tac2|]. destruct (p =? INT_MAX) eqn:Eq; [exact I|].
  destruct (g .<= #0) eqn:Eg; [reject_tac2|].
  rewrite !ck_ok by zl. cbn [bind]. hist0 (p + 1). accept_tac.
  loops_tac (fun (i : Z) (a : option T * T) (b : T * T * ring) => snd a = snd (fst b) /\ (p <= i -> fst a = Some (fst (fst b))) /\ hist (snd b) (p + 1) (zp x1) i).
  - split; [reflexivity|]. split; [cbn; lia|]. apply hist_of_ok; [exact Hr|]. intros; apply zp_neg; lia.
  - subst. replace (0 - - (p - 1)) with (p - 1) by lia. replace (1 - - (p - 1)) with p by lia.
    destruct (i <? p - 1) eqn:Ea; [|destruct (i <? p) eqn:Eb].
    + wpr. emit. apply hist_step; assumption.
    + wpr. emit. apply hist_step; assumption.
    + wpr; contra; zpn; emit; apply hist_step; assumption.
Qed.
Lemma evwma_online : online 2 evwma_loops. Proof. online_tac @evwma_loops. Qed.

(** swma *)
Definition v_swma (ns : list Z) : verdict := match ns with
  | [n] => if n <? 1 then Reject else if n =? INT_MAX then Outside else
           if (n mod 6 =? 0) || ((n + 1) mod 6 =? 0) then Reject else Accept (n - 1)
  | _ => Outside end.
Lemma swma_reject_ok p : p <? 1 = false -> p < INT_MAX -> swma_reject p = Ok ((p mod 6 =? 0) || ((p + 1) mod 6 =? 0)).
Proof.
  intros H1 H2. unfold swma_reject. rewrite H1. rewrite Z.rem_mod_nonneg by lia. destruct (p mod 6 =? 0); [reflexivity|].
  rewrite ck_ok by (unfold INT_MIN, INT_MAX in *; lia). cbn [bind]. rewrite Z.rem_mod_nonneg by lia. reflexivity.
Qed.
Lemma swma_rd j : 0 <= j -> rd swma_table (Z.rem j 12) = Ok (zf swma_table (Z.rem j 12)).
Proof. intros H. apply rd_zf. unfold swma_table. rewrite zlen_map. change (zlen _) with 12. pose proof (Z.rem_bound_pos j 12). lia. Qed.
Lemma swma_denom_ok p : swma_denom p = Ok (trec (fun j s => s .+ zf swma_table (Z.rem j 12)) 0 p #0).
Proof. apply for_trec. intros j s Hj. rewrite swma_rd by lia. reflexivity. Qed.

Lemma swma_sim : sim 1 1 (int_opts 1 v_swma) always ti_swma_start ti_swma ti_swma_stream_new swma_loops.
Proof.
  intros options v (ns & ? & ? & ->). lists. ranges. unfold ti_swma, ti_swma_stream_new, ti_swma_start. getcast. cbn [bind v_swma].
  destruct (p <? 1) eqn:Ep. { unfold swma_reject. rewrite Ep. reject_tac2. }
  destruct (p =? INT_MAX) eqn:Eq; [exact I|]. rewrite swma_reject_ok by (auto; zl). cbn [bind].
  destruct ((p mod 6 =? 0) || ((p + 1) mod 6 =? 0)); [reject_tac2|].
  rewrite swma_denom_ok. rewrite !ck_ok by zl. cbn [bind]. hist0 p. accept_tac.
  rewrite (collect1 (p - 1) size (fun i => Ok (trec (fun j s => s .+ zf swma_table (Z.rem j 12) .* zf x0 (i - j)) 0 p #0 ./
    trec (fun j s => s .+ zf swma_table (Z.rem j 12)) 0 p #0))); [|lia|].
  2:{ intros i o Hi. erewrite for_trec; [reflexivity|]. intros j s Hj. rewrite swma_rd by lia. rewrite rd_zf by lia. reflexivity. }
  loops_tac (fun (i : Z) (a : unit) (b : ring) => hist b p (zp x0) i).
  - apply hist_of_ok; [exact Hr|]. intros; apply zp_neg; lia.
  - replace (0 - - (p - 1)) with (p - 1) by lia. destruct (i <? p - 1) eqn:Ei.
    + wpr. emit. apply hist_step; assumption.
    + wpr. eapply wp_for_trec.
      * intros j s Hj. rewrite swma_rd by lia. erewrite full_get by (eassumption || lia). cbn [bind]. zpn. reflexivity.
      * wpr. emit. apply hist_step; assumption.
Qed.
Lemma swma_online : online 1 swma_loops. Proof. online_tac @swma_loops. Qed.

(** idwma *)
Definition o_idwma : optspec := fun opts v => exists x n e, opts = [x; e] /\ to_int x = Some n /\
  v = if n <? 1 then Reject else if e .< #1 then Reject else if e .> #2 then Reject else Accept (n - 1).
Lemma idwma_coefficients_ok p e : 1 <= p <= INT_MAX -> exists c d, idwma_coefficients p e = Ok (c, d) /\ zlen c = p.
Proof.
  intros Hp. assert (G : wp (idwma_coefficients p e) (fun cd => zlen (fst cd) = p)).
  { unfold idwma_coefficients. loop (fun i (cd : list T * T) => zlen (fst cd) = i); [lia|reflexivity| |auto].
    wps. cbn [fst] in *. zl. }
  destruct (idwma_coefficients p e) as [[c d]|u]; [|contradiction]. exists c, d. auto.
Qed.
Lemma idwma_sim : sim 1 1 o_idwma always ti_idwma_start ti_idwma ti_idwma_stream_new idwma_loops.
Proof.
  intros options v (x & p & e & -> & Hp & ->). ranges. unfold ti_idwma, ti_idwma_stream_new, ti_idwma_start. getcast. cbn [bind].
  destruct (p <? 1) eqn:Ep; [reject_tac2|].
  destruct (e .< #1) eqn:E1; [reject_tac2|]. destruct (e .> #2) eqn:E2; [reject_tac2|].
  assert (Hp1 : to_int (x .- #1) = Some (p - 1)) by (apply to_int_pred; auto; lia). getcast. cbn [bind].
  destruct (idwma_coefficients_ok p e) as (c & d & Ec & Hc); [lia|]. rewrite Ec. hist0 p. accept_tac.
  rewrite (collect1 (p - 1) size (fun i => Ok (trec (fun j s => s .+ zf x0 (i - j) .* zf c j) 0 p #0 ./ d))); [|lia|].
  2:{ intros i o Hi. erewrite for_trec; [reflexivity|]. intros j s Hj. rewrite !rd_zf by lia. reflexivity. }
  loops_tac (fun (i : Z) (a : unit) (b : ring) => hist b p (zp x0) i).
  - apply hist_of_ok; [exact Hr|]. intros; apply zp_neg; lia.
  - replace (0 - - (p - 1)) with (p - 1) by lia. destruct (i <? p - 1) eqn:Ei.
    + wpr. emit. apply hist_step; assumption.
    + wpr. eapply wp_for_trec.
      * intros j s Hj. erewrite full_get by (eassumption || lia). rewrite rd_zf by lia. cbn [bind]. zpn. reflexivity.
      * wpr. emit. apply hist_step; assumption.
Qed.
Lemma idwma_online : online 1 idwma_loops. Proof. online_tac @idwma_loops. Qed.

(** rvi: an integral deviation period, small enough for the int products of the batch function. *)
Definition o_rvi : optspec := fun opts v => exists e m n, opts = [e; #n] /\ to_int e = Some m /\ INT_MIN <= n <= INT_MAX /\
  v = if m <? 1 then Reject else if n <? 1 then Reject else
      if (1023 <? n) || (m =? INT_MAX) then Outside else Accept (n - 1).
Lemma rvi_sim : sim 1 1 o_rvi always ti_rvi_start ti_rvi ti_rvi_stream_new rvi_loops.
Proof.
  intros options v (e & m & n & -> & He & Hn & ->).
  assert (Hn0 : to_int #n = Some n) by (apply to_int_of_Z; zl).
  unfold ti_rvi, ti_rvi_stream_new, ti_rvi_start. getcast. cbn [bind]. getcast. cbn [bind].
  rewrite (to_int_flt _ _ 1 He) by zl. rewrite (to_int_flt _ _ 1 Hn0) by zl.
  destruct (m <? 1) eqn:E1; [reject_tac2|]. destruct (n <? 1) eqn:E2; [reject_tac2|].
  destruct ((1023 <? n) || (m =? INT_MAX)) eqn:E3; [exact I|]. apply orb_false_elim in E3 as [E3 E4].
  assert (Hn1 : to_int (#n .- #1) = Some (n - 1)) by (apply to_int_pred; auto; lia). getcast. cbn [bind].
  rewrite !fmul_of_Z, !fadd_of_Z by (unfold BIG; nia).
  assert (Hn2 : to_int #(n + 1) = Some (n + 1)) by (apply to_int_of_Z; zl). getcast. cbn [bind].
  rewrite !fmul_of_Z by (unfold BIG; nia).
  pose proof (to_int_range _ _ He) as Hm.
  rewrite !ck_ok by (unfold INT_MIN, INT_MAX; nia). cbn [bind]. rewrite ?ck_ok by (unfold INT_MIN, INT_MAX; nia). cbn [bind].
  rewrite ?ck_ok by (unfold INT_MIN, INT_MAX; nia). cbn [bind].
  hist0 (n + 1). accept_tac.
  loops_tac (fun (i : Z) (a : T * T * T * T) (b : T * T * T * T * ring) => a = fst b /\ hist (snd b) (n + 1) (zp x) i).
  - split; [reflexivity|]. apply hist_of_ok; [exact Hr|]. intros; apply zp_neg; lia.
  - match goal with HP : (_, _, _, _) = (_, _, _, _) |- _ => injection HP as -> -> -> -> end. replace (0 - - (n - 1)) with (n - 1) by lia.
    destruct (i <? n - 1) eqn:Ei.
    + wpr. replace (- (n - 1) + i - (- n + 1) + 1) with (i + 1) by lia. emit. apply hist_step; assumption.
    + repeat match goal with
      | HE : rvi_step ?a1 ?a2 ?a3 ?a4 ?a5 ?a6 ?a7 ?a8 ?a9 = _ |- context[rvi_step ?a1 ?a2 ?a3 ?a4 ?a5 ?a6 ?a7 ?a8 ?a9] => rewrite HE
      | |- context[rvi_step ?a1 ?a2 ?a3 ?a4 ?a5 ?a6 ?a7 ?a8 ?a9] => destruct (rvi_step a1 a2 a3 a4 a5 a6 a7 a8 a9) as [[g l] o] eqn:HE
      | _ => wpr1 end. zpn.
      replace (i - (n - 1)) with (i - n + 1) by lia. emit. apply hist_step; assumption.
Qed.
Lemma rvi_online : online 1 rvi_loops.
Proof. online_tac @rvi_loops; rewrite ?Z.add_0_r; reflexivity. Qed.

(** pvt: with no zero volume and no zero value the stream follows the batch function.  The values
    are [pvt_at c v k]. *)
Definition pvt_at (c v : list T) (k : Z) : T :=
  trec (fun j s => s .+ zf v j .* (zf c j .- zf c (j - 1)) ./ zf c (j - 1)) 2 (k + 1)
    (zf v 1 .* (zf c 1 .- zf c 0) ./ zf c 0 .+ zf v 0).
Definition pvt_ok : list (list T) -> Prop := fun inputs => match inputs with
  | [c; v] => (forall k, 0 <= k < zlen v -> truth (zf v k) = true) /\
              (forall k, 1 <= k < zlen v - 1 -> truth (pvt_at c v k) = true)
  | _ => False end.
Lemma pvt_sim : sim 2 1 (v_none 1) pvt_ok ti_pvt_start ti_pvt ti_pvt_stream_new pvt_loops.
Proof.
  intros options v [-> ->]. accept_tac. destruct H2 as [Hv Hp].
  loops_tac (fun (i : Z) (a : option T) (b : T * T * T) => (i > 0 -> fst (fst b) = zf x (i - 1)) /\ (i = 1 -> snd (fst b) = zf x0 0) /\
     (i > 1 -> snd b = pvt_at x x0 (i - 1) /\ a = Some (snd b))).
  - cbn. lia.
  - cbn [fst snd] in *. change (0 - Z.opp 1) with 1. change (1 - Z.opp 1) with 2.
    rename H into HA. rename H0 into HB. rename H2 into HC.
    destruct (i <? 1) eqn:E1; [|destruct (i <? 2) eqn:E2].
    + wpr. emit; try (f_equal; lia).
    + assert (i = 1) as -> by lia. wpr. cbn [fst snd] in *.
      rewrite (HA ltac:(lia)), (HB ltac:(lia)). change (1 - 1) with 0. rewrite !Hv by zl. cbn [andb].
      emit.
    + wpr. destruct (HC ltac:(lia)) as [HP ->]. wpr. cbn [fst snd] in *. subst.
      rewrite (HA ltac:(lia)). rewrite !Hv by zl. rewrite Hp by zl. cbn [andb].
      emit; try (f_equal; lia). split; [|reflexivity]. replace (i + 1 - 1) with (i - 1 + 1) by lia. unfold pvt_at.
      rewrite (trec_snoc _ 2 (i - 1 + 1)) by lia. replace (i - 1 + 1) with i by lia. reflexivity.
Qed.
Lemma pvt_online : online 2 pvt_loops. Proof. online_tac @pvt_loops. Qed.
End P.

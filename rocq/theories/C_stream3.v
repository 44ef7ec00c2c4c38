(** Streams of M_stream3: option verdicts, batch/stream simulation. *)
From Verif Require Export M_stream3 C_stream1 C_stream2.

Ltac hist0 M := match goal with |- context[ring_new M] =>
  let r := fresh "r" in let Er := fresh "Er" in let Hr := fresh "Hr" in
  destruct (ring_new_ok M ltac:(zl)) as (r & Er & Hr); rewrite Er; cbn [bind] end.
Ltac guard_eq := match goal with |- (if ?b then _ else _) = _ => let E := fresh in destruct b eqn:E; [reflexivity|] end;
  repeat match goal with |- context[check ?u ?b] => replace b with true by lia end; reflexivity.
Ltac guard_tac R := match goal with
  | |- exists s' outs, ?m = Ok _ /\ run_loops ?n ?sz ?l2 ?s0 = Ok _ /\ _ => eapply (sim_loops_guard R _ l2 n _ sz _ s0 m);
     [guard_eq|lia|lia| |intros i a b Hi HR; unfold dispatch; let h := head l2 in unfold h; cbn [dispatch' bounded final]; untuple; cbn [fst snd] in *;
    repeat match goal with H : _ /\ _ |- _ => destruct H end]
  end.

Section P.
Context {A : Arith} {IL : IntLaws A}.

(** Options that are integers. *)
Definition o_Z1 (v : Z -> verdict) : optspec := fun opts w => exists n, opts = [#n] /\ INT_MIN <= n <= INT_MAX /\ w = v n.
Definition o_Z2 (v : Z -> Z -> verdict) : optspec := fun opts w => exists n m, opts = [#n; #m] /\
  INT_MIN <= n <= INT_MAX /\ INT_MIN <= m <= INT_MAX /\ w = v n m.
Definition o_Z3 (v : Z -> Z -> Z -> verdict) : optspec := fun opts w => exists n m l, opts = [#n; #m; #l] /\
  INT_MIN <= n <= INT_MAX /\ INT_MIN <= m <= INT_MAX /\ INT_MIN <= l <= INT_MAX /\ w = v n m l.

Lemma cast_of_Z n : INT_MIN <= n <= INT_MAX -> cast #n = Ok n.
Proof. intros H. unfold cast. rewrite to_int_of_Z by exact H. reflexivity. Qed.
Lemma ceilto_of_Z n : INT_MIN <= n <= INT_MAX -> ceilto #n = Ok n.
Proof.
  intros H. unfold ceilto. rewrite cast_of_Z by exact H. cbn [bind]. rewrite flt_of_Z by zl. rewrite Z.ltb_irrefl. reflexivity.
Qed.
Lemma hist_fresh r M g i : ring_ok r M (fun _ => #0) -> (forall j, j < i -> g j = #0) -> hist r M g i.
Proof. intros H Hg. eexists; split; [exact H|]. intros k Hk. cbn beta. rewrite Hg by lia. reflexivity. Qed.
Lemma ring_step_fresh r M : ring_ok r M (fun _ => #0) -> ring_ok (ring_step r) M (fun _ => #0).
Proof.
  intros H. eapply ring_ok_ext; [apply ring_step_ok, H|]. intros k Hk. cbn beta. destruct (k =? 0); reflexivity.
Qed.

(** dwma *)
Definition v_dwma (n : Z) : verdict := if n <? 1 then Reject else if 2 * (n - 1) <=? INT_MAX then Accept (2 * (n - 1)) else Outside.
Lemma dwma_sim : sim 1 1 (o_Z1 v_dwma) always ti_dwma_start ti_dwma ti_dwma_stream_new dwma_loops.
Proof.
  intros options v (n & -> & Hn & ->). unfold ti_dwma, ti_dwma_stream_new, ti_dwma_start, v_dwma.
  rewrite flt_of_Z by zl. rewrite (cast_of_Z n) by zl. cbn [bind].
  destruct (n <? 1) eqn:E1; [reject_tac2|]. destruct (2 * (n - 1) <=? INT_MAX) eqn:E2; [|exact I].
  rewrite fsub_of_Z by zl. rewrite fmul_of_Z by zl. rewrite cast_of_Z by zl. cbn [bind].
  hist0 n. rewrite ck_ok by zl. cbn [bind]. accept_tac.
  loops_tac (fun (i : Z) (a : T * T * T * T * ring) (b : T * T * T * T * ring * ring) => a = fst b /\ rok (snd a) n /\ hist (snd b) n (zp x) i).
  - split; [reflexivity|]. split; [eexists; exact Hr|]. apply hist_of_ok; [exact Hr|]. intros; apply zp_neg; lia.
  - match goal with HP : _ = _ |- _ => injection HP; intros; subst end.
    replace (- (n - 1) - - (2 * (n - 1))) with (n - 1) by lia. replace (0 - - (2 * (n - 1))) with (2 * (n - 1)) by lia.
    replace (- (2 * (n - 1)) + i + 2 * (n - 1) + 1) with (i + 1) by lia.
    replace (- (2 * (n - 1)) + i + (n - 1) + 1) with (i - (n - 1) + 1) by lia.
    destruct (i <? n - 1) eqn:Ea; [|destruct (i <? 2 * (n - 1)) eqn:Eb].
    + wpr. emit. apply hist_step; assumption.
    + wpr. zpn. replace (i - (n - 1)) with (i - n + 1) by lia. emit; [apply rok_step; assumption|apply hist_step; assumption].
    + wpr. zpn. replace (i - (n - 1)) with (i - n + 1) by lia. emit; [apply rok_step; assumption|apply hist_step; assumption].
Qed.
Lemma dwma_online : online 1 dwma_loops. Proof. online_tac @dwma_loops; rewrite ?Z.add_0_r; reflexivity. Qed.

(** copp *)
Definition v_copp (a b c : Z) : verdict :=
  if (a <? 1) || (b <? 1) || (c <? 1) || (b <? a) then Reject else
  if (b + c <=? INT_MAX) && (c * (c + 1) <=? INT_MAX) then Accept (b + c - 1) else Outside.
Lemma half_sq c : 0 <= c -> Z.quot (c * (c + 1)) 2 * 2 = c * (c + 1).
Proof.
  intros H. rewrite Z.quot_div_nonneg by nia. assert (E : (c * (c + 1)) mod 2 = 0).
  { rewrite Zmult_mod, Zplus_mod. destruct (Z.mod_pos_bound c 2); [lia|]. assert (c mod 2 = 0 \/ c mod 2 = 1) as [-> | ->] by lia; reflexivity. }
  pose proof (Z.div_mod (c * (c + 1)) 2). lia.
Qed.
Lemma wp_copp_roc p M s l (Q : T -> Prop) : rok p M -> 0 <= s < M -> 0 <= l < M -> (forall x, copp_roc p s l = Ok x -> Q x) -> wp (copp_roc p s l) Q.
Proof.
  intros Hp Hs Hl HQ. assert (G : exists x, copp_roc p s l = Ok x).
  { destruct Hp as [h Hp]. unfold copp_roc. rewrite !(ring_get_ok p M h), (ring_cur_ok p M h) by auto. cbn [bind].
    destruct (truth _); [destruct (truth _)|]; eexists; reflexivity. }
  destruct G as [x E]. rewrite E. apply HQ, E.
Qed.
Lemma copp_sim : sim 1 1 (o_Z3 v_copp) always ti_copp_start ti_copp ti_copp_stream_new copp_loops.
Proof.
  intros options v (a0 & b0 & c0 & -> & Ha & Hb & Hc & ->). unfold ti_copp, ti_copp_stream_new, ti_copp_start, copp_START, v_copp.
  rewrite !flt_of_Z by zl. rewrite !(cast_of_Z a0), !(cast_of_Z b0), (cast_of_Z c0) by zl. cbn [bind].
  destruct ((a0 <? 1) || (b0 <? 1) || (c0 <? 1)) eqn:E1; cbn [orb]; [reject_tac2|].
  destruct (b0 <? a0) eqn:E2; [reject_tac2|].
  destruct ((b0 + c0 <=? INT_MAX) && (c0 * (c0 + 1) <=? INT_MAX)) eqn:E3; [|exact I].
  apply andb_prop in E3 as [E3 E4]. apply orb_false_elim in E1 as [E1 E1']. apply orb_false_elim in E1 as [E1 E1''].
  assert (Hcc : c0 * (c0 + 1) <= INT_MAX) by lia. assert (Hcc0 : 0 <= c0 * (c0 + 1)) by nia.
  rewrite !fadd_of_Z by zl. rewrite fsub_of_Z by zl. rewrite !cast_of_Z by zl. cbn [bind].
  repeat (rewrite ck_ok by zl; cbn [bind]).
  hist0 (b0 + 1). hist0 (c0 + 1). rewrite !ceilto_of_Z by zl. cbn [bind].
  rewrite !fsub_of_Z by zl. rewrite !cast_of_Z by zl. cbn [bind].
  rewrite fmul_of_Z by zl.
  assert (HD : #(c0 * (c0 + 1)) ./ #2 = #(Z.quot (c0 * (c0 + 1)) 2)).
  { rewrite <- (half_sq c0) at 1 by lia. pose proof (half_sq c0). rewrite fdiv_of_Z by zl. reflexivity. }
  rewrite HD.
  accept_tac.
  guard_tac (fun (i : Z) (a b : T * T * ring * ring) => a = b /\ rok (snd (fst a)) (b0 + 1) /\ rok (snd a) (c0 + 1)).
  - split; [reflexivity|]. split; eexists; eassumption.
  - match goal with HP : _ = _ |- _ => injection HP; intros; subst end.
    replace (- (b0 + c0 - 1) + b0 - - (b0 + c0 - 1)) with b0 by lia.
    replace (- (b0 + c0 - 1) + b0 + c0 - 1 - - (b0 + c0 - 1)) with (b0 + c0 - 1) by lia.
    destruct (i <? b0) eqn:Ea; [|destruct (i <? b0 + c0 - 1) eqn:Eb].
    + wpr. emit; apply rok_step; assumption.
    + rewrite fsub_of_Z by zl. replace (- (b0 + c0 - 1) + i + 1 - (- (b0 + c0 - 1) + b0)) with (i + 1 - b0) by lia.
      repeat first [wpr1 | match goal with H : copp_roc ?p ?s ?l = Ok _ |- wp (copp_roc ?p ?s ?l) _ => rewrite H; apply wp_ret end
        | apply (wp_copp_roc _ (b0 + 1)); [assumption|lia|lia|]].
      emit; apply rok_step; assumption.
    + repeat first [wpr1 | match goal with H : copp_roc ?p ?s ?l = Ok _ |- wp (copp_roc ?p ?s ?l) _ => rewrite H; apply wp_ret end
        | apply (wp_copp_roc _ (b0 + 1)); [assumption|lia|lia|]].
      emit; apply rok_step; assumption.
Qed.
Lemma copp_online : online 1 copp_loops. Proof. online_tac @copp_loops; rewrite ?Z.add_0_r; reflexivity. Qed.

(** pfe *)
Lemma sim_guard_assert {S1 S2} (R : Z -> S1 -> S2 -> Prop) (l1 : loops S1) (l2 : loops S2) nout st size s1 s2 m :
  m = (if size <=? st then Ok (OKAY, repeat [] nout) else
       let* (rc, outs) := batch_loops nout size l1 s1 in
       let* _ := check Assert (forallb (fun o => zlen o =? size - st) outs) in Ok (rc, outs)) ->
  0 <= size -> 0 <= st -> R 0 s1 s2 ->
  (forall i s1 s2, 0 <= i < size -> R i s1 s2 ->
    wp (dispatch l1 i s1) (fun r1 => wp (dispatch l2 i s2) (fun r2 =>
      snd r1 = snd r2 /\ emitted nout (st <=? i) (snd r1) /\ R (i + 1) (fst r1) (fst r2)))) ->
  exists s' outs, m = Ok (OKAY, outs) /\ run_loops nout size l2 s2 = Ok (s', outs) /\
    length outs = nout /\ Forall (fun o => zlen o = Z.max 0 (size - st)) outs.
Proof.
  intros -> Hs Hst H0 Hstep.
  destruct (sim_loops_guard R l1 l2 nout st size s1 s2 _ eq_refl Hs Hst H0 Hstep) as (s' & outs & E1 & E2 & E3 & E4).
  exists s', outs. split; [|auto]. destruct (size <=? st) eqn:E; [exact E1|]. unfold batch_loops. rewrite E1. cbn [bind].
  replace (forallb _ outs) with true; [reflexivity|]. symmetry. apply forallb_forall. rewrite Forall_forall in E4.
  intros o Ho. apply E4 in Ho. lia.
Qed.
Local Ltac gassert_tac R := match goal with
  | |- exists s' outs, ?m = Ok _ /\ run_loops ?no ?sz ?l2 ?s0 = Ok _ /\ _ => eapply (sim_guard_assert R _ l2 no _ sz _ s0 m);
     [reflexivity|lia|lia| |intros i a b Hi HR; unfold dispatch; let h := head l2 in unfold h; cbn [dispatch' bounded final]; untuple; cbn [fst snd] in *;
    repeat match goal with H : _ /\ _ |- _ => destruct H end]
  end.
Definition v_pfe (n m : Z) : verdict := if (n <? 1) || (m <? 1) then Reject else if n =? INT_MAX then Outside else Accept n.
Definition pfe_g (x : list T) (j : Z) : T := if j <? 1 then #0 else pfe_denom (zf x j) (zf x (j - 1)).
Lemma pfe_sim : sim 1 1 (o_Z2 v_pfe) always ti_pfe_start ti_pfe ti_pfe_stream_new pfe_loops.
Proof.
  intros options v (n & m & -> & Hn & Hm & ->). unfold ti_pfe, ti_pfe_stream_new, ti_pfe_start, v_pfe.
  rewrite !flt_of_Z by zl. rewrite (cast_of_Z n), (cast_of_Z m) by zl. cbn [bind].
  destruct (n <? 1) eqn:E1; cbn [orb]; [reject_tac2|]. destruct (m <? 1) eqn:E2; [reject_tac2|].
  destruct (n =? INT_MAX) eqn:E3; [exact I|].
  rewrite (fadd_of_Z n) by zl. rewrite (cast_of_Z (n + 1)) by zl. cbn [bind]. hist0 (n + 1). hist0 n. accept_tac.
  gassert_tac (fun (i : Z) (a : T * option T * ring) (b : T * T * ring * ring) =>
    let '(e, s, rp, rd) := b in let '(sa, ea, ra) := a in sa = s /\ (n < i -> ea = Some e) /\ hist rp (n + 1) (zp x) i /\
      hist ra n (pfe_g x) (Z.max 1 i) /\ if i =? 0 then ring_ok rd n (fun _ => #0) else hist rd n (pfe_g x) i).
  - split; [reflexivity|]. split; [lia|]. split; [apply hist_of_ok; [assumption|intros; apply zp_neg; lia]|].
    split; [|assumption]. apply hist_fresh; [assumption|]. intros j Hj. unfold pfe_g. replace (j <? 1) with true by lia. reflexivity.
  - subst. replace (- n + 1 - - n) with 1 by lia. replace (0 - - n) with n by lia. replace (1 - - n) with (n + 1) by lia.
    unfold skip.
    destruct (i <? 1) eqn:Ea.
    { assert (i = 0) as -> by lia. change (0 =? 0) with true in *. cbn iota in *. wpr. emit.
      - apply hist_step; assumption.
      - apply hist_fresh; [apply ring_step_fresh; assumption|]. intros j Hj. unfold pfe_g. replace (j <? 1) with true by lia. reflexivity. }
    replace (i =? 0) with false in * by lia. cbn iota in *. replace (Z.max 1 i) with i in * by lia.
    assert (Hg : pfe_g x i = pfe_denom (zf x i) (zf x (i - 1))) by (unfold pfe_g; replace (i <? 1) with false by lia; reflexivity).
    destruct (i <? n) eqn:Eb; [|destruct (i <? n + 1) eqn:Ec].
    + wpr; try (rewrite Hg; zpn; reflexivity). wpr; try (rewrite Hg; zpn; reflexivity). wpr. zpn. emit; try (apply hist_step; assumption).
      * replace (Z.max 1 (i + 1)) with (i + 1) by lia. apply hist_step; assumption.
      * replace (i + 1 =? 0) with false by lia. apply hist_step; assumption.
    + repeat first [progress wpr | solve [rewrite Hg; zpn; reflexivity]]. zpn. emit; try (apply hist_step; assumption).
      * replace (Z.max 1 (i + 1)) with (i + 1) by lia. apply hist_step; assumption.
      * replace (i + 1 =? 0) with false by lia. apply hist_step; assumption.
    + repeat first [progress wpr | solve [rewrite Hg; zpn; reflexivity]]. zpn. emit; try (apply hist_step; assumption).
      * replace (Z.max 1 (i + 1)) with (i + 1) by lia. apply hist_step; assumption.
      * replace (i + 1 =? 0) with false by lia. apply hist_step; assumption.
Qed.
Lemma pfe_online : online 1 pfe_loops. Proof. online_tac @pfe_loops. Qed.

(** pbands, posc *)
Lemma xsums_ok n : 1 <= n <= 1023 -> xsums n = Ok (#n .* (#n .+ #1) ./ #2, #n .* (#n .+ #1) .* (#2 .* #n .+ #1) ./ #6).
Proof.
  intros H. unfold xsums. repeat (rewrite ck_ok by (unfold INT_MIN, INT_MAX; nia); cbn [bind]).
  rewrite !fmul_of_Z, !fadd_of_Z by (unfold BIG; nia). rewrite !fmul_of_Z by (unfold BIG; nia). reflexivity.
Qed.
Lemma proj_max_ok n b f g x : (forall j, 1 <= j < n -> f j = Ok (g j)) ->
  proj_max n b f x = Ok (trec (fun j m => stdmax m (g j .+ #j .* b)) 1 n x).
Proof. intros H. apply for_trec. intros j s Hj. rewrite H by lia. reflexivity. Qed.
Lemma proj_min_ok n b f g x : (forall j, 1 <= j < n -> f j = Ok (g j)) ->
  proj_min n b f x = Ok (trec (fun j m => stdmin m (g j .+ #j .* b)) 1 n x).
Proof. intros H. apply for_trec. intros j s Hj. rewrite H by lia. reflexivity. Qed.
Lemma band_max_ok n b f g x : (forall j, 1 <= j < n -> f j = Ok (g j)) ->
  band_max n b f x = Ok (trec (fun j m => if m .< g j .+ #j .* b then g j .+ #j .* b else m) 1 n x).
Proof. intros H. apply for_trec. intros j s Hj. rewrite H by lia. reflexivity. Qed.
Lemma band_min_ok n b f g x : (forall j, 1 <= j < n -> f j = Ok (g j)) ->
  band_min n b f x = Ok (trec (fun j m => if m .> g j .+ #j .* b then g j .+ #j .* b else m) 1 n x).
Proof. intros H. apply for_trec. intros j s Hj. rewrite H by lia. reflexivity. Qed.
(** The weight of a warm-up bar, computed with doubles. *)
Lemma posc_weight n i : 1 <= n <= 1023 -> 0 <= i < n -> #(- (n - 1) + i) .- (.- #n .+ #1) .+ #1 = #(i + 1).
Proof. intros Hn Hi. rewrite fopp_of_Z, fadd_of_Z, fsub_of_Z, fadd_of_Z by zl. f_equal. lia. Qed.

Definition v_pbands (n : Z) : verdict := if n <? 1 then Reject else if n <=? 1023 then Accept (n - 1) else Outside.
Lemma pbands_sim : sim 3 2 (o_Z1 v_pbands) always ti_pbands_start ti_pbands ti_pbands_stream_new pbands_loops.
Proof.
  intros options v (n & -> & Hn & ->). unfold ti_pbands, ti_pbands_stream_new, ti_pbands_start, start_fm1, v_pbands.
  rewrite !flt_of_Z by zl. rewrite (cast_of_Z n) by zl. cbn [bind].
  destruct (n <? 1) eqn:E1; cbn [orb]; [reject_tac2|]. destruct (n <=? 1023) eqn:E2; [|exact I].
  rewrite fsub_of_Z by zl. rewrite (cast_of_Z (n - 1)) by zl. cbn [bind]. rewrite xsums_ok by lia. cbn [bind].
  replace (cast (#n .+ #1)) with (Ok (n + 1)) by (rewrite fadd_of_Z, cast_of_Z by zl; reflexivity). cbn [bind]. hist0 (n + 1). accept_tac.
  loops_tac (fun (i : Z) (a : T * T) (b : T * T * ring * ring * ring) =>
    let '(y, xy, rh, rl, rc) := b in a = (y, xy) /\ hist rh (n + 1) (zp x) i /\ hist rl (n + 1) (zp x0) i /\ hist rc (n + 1) (zp x1) i).
  - split; [reflexivity|]. repeat split; (apply hist_of_ok; [exact Hr|intros; apply zp_neg; lia]).
  - match goal with HP : _ = _ |- _ => injection HP; intros; subst end.
    replace (0 - - (n - 1)) with (n - 1) by lia. destruct (i <? n - 1) eqn:Ei.
    + rewrite posc_weight by lia. wpr. emit; apply hist_step; assumption.
    + rewrite ceilto_of_Z by zl. rewrite fsub_of_Z by zl. rewrite (cast_of_Z (n - 1)) by zl. cbn [bind].
      wpr. erewrite band_max_ok; [|intros; rewrite rd_zf by zl; reflexivity]. wpr.
      erewrite band_min_ok; [|intros; rewrite rd_zf by zl; reflexivity]. wpr.
      erewrite band_max_ok; [|intros; erewrite full_get by (eassumption || zl); zpn; reflexivity]. wpr.
      erewrite band_min_ok; [|intros; erewrite full_get by (eassumption || zl); zpn; reflexivity]. wpr. zpn.
      replace (i - (n - 1)) with (i - n + 1) by lia. emit; apply hist_step; assumption.
Qed.
Lemma pbands_online : online 3 pbands_loops. Proof. online_tac @pbands_loops; rewrite ?Z.add_0_r; reflexivity. Qed.

Definition v_posc (n m : Z) : verdict := if (n <? 1) || (m <? 1) then Reject else
  if (n <=? 1023) && (m <? INT_MAX) then Accept (n - 1) else Outside.
Lemma posc_sim : sim 3 1 (o_Z2 v_posc) always ti_posc_start ti_posc ti_posc_stream_new posc_loops.
Proof.
  intros options v (n & m & -> & Hn & Hm & ->). unfold ti_posc, ti_posc_stream_new, ti_posc_start, start_fm1, v_posc.
  rewrite !flt_of_Z by zl. rewrite (cast_of_Z n), (cast_of_Z m) by zl. cbn [bind].
  destruct (n <? 1) eqn:E1; cbn [orb]; [reject_tac2|]. destruct (m <? 1) eqn:E3; [reject_tac2|].
  destruct ((n <=? 1023) && (m <? INT_MAX)) eqn:E2; [|exact I]. apply andb_prop in E2 as [E2 E4].
  rewrite fsub_of_Z by zl. rewrite (cast_of_Z (n - 1)) by zl. cbn [bind]. rewrite xsums_ok by lia. cbn [bind].
  replace (cast (#n .+ #1)) with (Ok (n + 1)) by (rewrite fadd_of_Z, cast_of_Z by zl; reflexivity). cbn [bind]. hist0 (n + 1). accept_tac.
  guard_tac (fun (i : Z) (a : T * T * option T) (b : T * T * T * ring * ring * ring) =>
    let '(y, xy, e, rh, rl, rc) := b in fst a = (y, xy) /\ (n <= i -> snd a = Some e) /\
      hist rh (n + 1) (zp x) i /\ hist rl (n + 1) (zp x0) i /\ hist rc (n + 1) (zp x1) i).
  - split; [reflexivity|]. split; [lia|]. repeat split; (apply hist_of_ok; [exact Hr|intros; apply zp_neg; lia]).
  - match goal with HP : _ = (_, _) |- _ => injection HP; intros; subst end.
    replace (0 - - (n - 1)) with (n - 1) by lia. replace (1 - - (n - 1)) with n by lia. destruct (i <? n - 1) eqn:Ei.
    + rewrite posc_weight by lia. wpr. emit; apply hist_step; assumption.
    + rewrite ceilto_of_Z by zl. rewrite fsub_of_Z by zl. rewrite (cast_of_Z (n - 1)) by zl. cbn [bind].
      destruct (i <? n) eqn:Ej.
      * wpr. erewrite proj_max_ok; [|intros; rewrite rd_zf by zl; reflexivity]. wpr.
        erewrite proj_min_ok; [|intros; rewrite rd_zf by zl; reflexivity]. wpr.
        erewrite proj_max_ok; [|intros; erewrite full_get by (eassumption || zl); zpn; reflexivity]. wpr.
        erewrite proj_min_ok; [|intros; erewrite full_get by (eassumption || zl); zpn; reflexivity]. wpr. zpn.
        replace (i - (n - 1)) with (i - n + 1) by lia. emit; apply hist_step; assumption.
      * wpr. erewrite proj_max_ok; [|intros; rewrite rd_zf by zl; reflexivity]. wpr.
        erewrite proj_min_ok; [|intros; rewrite rd_zf by zl; reflexivity]. wpr.
        erewrite proj_max_ok; [|intros; erewrite full_get by (eassumption || zl); zpn; reflexivity]. wpr.
        erewrite proj_min_ok; [|intros; erewrite full_get by (eassumption || zl); zpn; reflexivity]. wpr. zpn.
        rewrite (fadd_of_Z 1 m) by zl.
        replace (i - (n - 1)) with (i - n + 1) by lia. emit; apply hist_step; assumption.
Qed.
Lemma posc_online : online 3 posc_loops. Proof. online_tac @posc_loops; rewrite ?Z.add_0_r; reflexivity. Qed.

End P.

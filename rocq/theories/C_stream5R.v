(** Streams of M_stream5 that agree with the batch function in exact arithmetic only. *)
From Verif Require Export C_stream5.
From Verif Require Import RArith.
From Coq Require Import Reals Lra.
Open Scope Z_scope.

(** emsd: products with 1/period rather than quotients. *)
Definition v_emsd (ns : list Z) : verdict :=
  match ns with
  | [n; m] => if (n <? 1) || (m <? 1) then Reject else if m <? INT_MAX then Accept (n - 1) else Outside
  | _ => Outside
  end.
Lemma emsd_sim : @sim RA _ _ 1 1 (int_opts 2 v_emsd) always ti_emsd_start ti_emsd ti_emsd_stream_new emsd_loops.
Proof.
  intros options v (ns & ? & ? & ->). lists. ranges. unfold ti_emsd_stream_new, ti_emsd, ti_emsd_start. do 2 getcast. cbn [bind v_emsd].
  destruct (p <? 1) eqn:E1; [reject_tac2|]. destruct (p0 <? 1) eqn:E2; [reject_tac2|]. cbn [orb].
  destruct (p0 <? INT_MAX) eqn:E3; [|exact I]. rewrite ck_ok by zl. cbn [bind]. hist0 p. accept_tac. unfold batch_loops. rewrite ck_ok by zl. cbn [bind].
  loops_tac (fun (i : Z) (a : @T RA * @T RA * option (@T RA)) (b : @T RA * @T RA * @T RA * ring) =>
    fst a = fst (fst b) /\ (i >= p -> exists e, snd a = Some e) /\ hist (snd b) p (zp x1) i).
  - split; [reflexivity|]. split; [lia|]. apply hist_of_ok; [exact Hr|]. intros; apply zp_neg; lia.
  - match goal with HP : _ = _ |- _ => injection HP; intros; subst end.
    replace (0 - - (p - 1)) with (p - 1) by lia. replace (1 - - (p - 1)) with p by lia.
    destruct (i <? p - 1) eqn:Ea; [|destruct (i <? p) eqn:Eb].
    + wpr. emit. apply hist_step; assumption.
    + wpr. zpn. replace (i - (p - 1)) with (i - p + 1) by lia.
      assert (E : #1 ./ #p = Rinv (IZR p)) by (cbn; unfold Rdiv; apply Rmult_1_l). rewrite E.
      change (@fdiv RA) with Rdiv. change (@fmul RA) with Rmult. unfold Rdiv. change (@of_Z RA p) with (IZR p). emit; [eexists; reflexivity|apply hist_step; assumption].
    + match goal with HE : _ -> exists e, _ = Some e |- _ => destruct HE as [e ->]; [lia|] end. wpr. zpn. replace (i - (p - 1)) with (i - p + 1) by lia.
      assert (E : #1 ./ #p = Rinv (IZR p)) by (cbn; unfold Rdiv; apply Rmult_1_l). rewrite E.
      change (@fdiv RA) with Rdiv. change (@fmul RA) with Rmult. unfold Rdiv. change (@of_Z RA p) with (IZR p). emit; [eexists; reflexivity|apply hist_step; assumption].
Qed.
Lemma emsd_online {A : Arith} : online 1 emsd_loops. Proof. online_tac @emsd_loops. Qed.

(** vwap: the oldest term leaves the sums one bar earlier. *)
Definition v_vwap (n : Z) : verdict := if n <? 1 then Reject else if n <? INT_MAX then Accept (n - 1) else Outside.
Lemma vwap_sim : @sim RA _ _ 4 1 (o_Z1 v_vwap) always ti_vwap_start ti_vwap ti_vwap_stream_new vwap_loops.
Proof.
  intros options v (n & -> & Hn & ->). unfold ti_vwap, ti_vwap_stream_new, ti_vwap_start, start_p1, v_vwap.
  rewrite flt_of_Z by zl. rewrite !(cast_of_Z n) by zl. cbn [bind].
  destruct (n <? 1) eqn:E1; [reject_tac2|]. destruct (n <? INT_MAX) eqn:E2; [|exact I].
  rewrite fopp_of_Z by zl. rewrite !fadd_of_Z by zl. rewrite !cast_of_Z by zl. rewrite !ck_ok by zl. cbn [bind].
  hist0 (n + 1). accept_tac. unfold batch_loops.
  set (tm := fun j => vwap_term (@zp RA x j) (@zp RA x0 j) (@zp RA x1 j) (@zp RA x2 j)).
  loops_tac (fun (i : Z) (a : @T RA * @T RA) (b : @T RA * @T RA * (ring * ring * ring * ring)) =>
    (if i <? n then a = fst b else fst a = fst (fst b) .+ tm (i - n) /\ snd a = snd (fst b) .+ @zp RA x2 (i - n)) /\
    hist (fst (fst (fst (snd b)))) (n + 1) (zp x) i /\ hist (snd (fst (fst (snd b)))) (n + 1) (zp x0) i /\
    hist (snd (fst (snd b))) (n + 1) (zp x1) i /\ hist (snd (snd b)) (n + 1) (zp x2) i).
  - replace (0 <? n) with true by lia. split; [reflexivity|]. repeat split; apply hist_of_ok; (exact Hr || intros; apply zp_neg; lia).
  - unfold vwap_push, vwap_step.
    replace (0 - - (n - 1)) with (n - 1) by lia. replace (- (- n + 1)) with (n - 1) by lia. replace (1 - (- n + 1)) with n by lia.
    destruct (i <? n - 1) eqn:Ea; [|destruct (i <? n) eqn:Eb]; destruct p0 as [[[rh rl] rc] rv]; cbn [fst snd] in *.
    + replace (i <? n) with true in H by lia. injection H as -> ->. unfold vwap_bar. wpr. cbn [fst snd]. replace (i + 1 <? n) with true by lia. emit; apply hist_step; assumption.
    + injection H as -> ->. unfold vwap_bar. wpr. cbn [fst snd]. replace (i + 1 <? n) with false by lia.
      replace (i - (n - 1)) with (i + 1 - n) by lia. emit; try (apply hist_step; assumption).
      * unfold tm. cbn. lra.
      * cbn. lra.
    + destruct H as [-> ->]. replace (vwap_bar x x0 x1 x2 (i - n)) with (Ok (tm (i - n), @zp RA x2 (i - n))).
      2:{ unfold vwap_bar. rewrite !rd_zf by lia. cbn [bind]. unfold tm. zpn. reflexivity. }
      assert (Q1 : forall a b c : @T RA, a .+ b .+ (c .- b) = a .+ c) by (intros; cbn; lra).
      assert (Q2 : forall a b : @T RA, a = a .- b .+ b) by (intros; cbn; lra).
      unfold vwap_bar. wpr. cbn [fst snd]. replace (i + 1 <? n) with false by lia. rewrite !Q1.
      replace (i - (n - 1)) with (i + 1 - n) by lia.
      emit; try (apply hist_step; assumption); apply Q2.
Qed.
Lemma vwap_online {A : Arith} : online 4 vwap_loops.
Proof. online_tac @vwap_loops. unfold vwap_push, vwap_bar. rewrite !rd_zf by lia. reflexivity. Qed.

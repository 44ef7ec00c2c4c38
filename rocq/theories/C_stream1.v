(** Streams of M_stream1: option verdicts, batch/stream simulation. *)
From Verif Require Export M_stream1 StreamP.

Section Specs.
Context {A : Arith}.
(** No options. *)
Definition o_unit : optspec := fun opts v => opts = [] /\ v = Accept 0.
(** One real option, rejected when negative. *)
Definition o_nonneg : optspec := fun opts v => exists x, opts = [x] /\ v = if x .< #0 then Reject else Accept 0.
(** One unchecked real option. *)
Definition o_any : optspec := fun opts v => exists x, opts = [x] /\ v = Accept 0.
(** rema: period >= 1, lambda >= 0. *)
Definition o_rema : optspec := fun opts v => exists p l, opts = [p; l] /\
  v = if p .< #1 then Reject else if l .< #0 then Reject else Accept 0.
(** Even period between 2 and 40. *)
Definition even40 (n : Z) : bool := (1 <=? n) && (Z.rem n 2 =? 0) && (n <=? 40).
Definition v_even40 (ns : list Z) : verdict :=
  match ns with [n] => if even40 n then Accept 0 else Reject | _ => Outside end.
(** Butterworth filter of order [ord]: even period between 2 and 40; the first
    ceil(ord*period/9.869) bars are skipped.  libm's [ceil] is a parameter of the model, so
    the theorem asks it to return something that fits a non-negative int. *)
Definition o_bf (ord : Z) : optspec := fun opts v => exists x n, opts = [x] /\ to_int x = Some n /\
  v = if even40 n then
        match to_int (libm Lceil (#ord .* x ./ (lit 31415 4 .* lit 31415 4))) with
        | Some st => if 0 <=? st then Accept st else Outside
        | None => Outside
        end
      else Reject.
End Specs.

Definition always {A : Arith} : list (list T) -> Prop := fun _ => True.

(** Open the accepted part of [sim]: finds the stream object by computation. *)
Ltac accept_tac := split; [reflexivity|split; [lia|do 2 eexists; split; [reflexivity|intros size inputs (? & ? & ?) ?; lists]]].
Ltac emit := cbn [fst snd]; match goal with
  | |- emitted _ ?b _ => first [replace b with true by lia | replace b with false by lia]; split; [reflexivity|repeat constructor]
  | |- _ /\ _ => split; emit
  | |- _ => intros; auto; contra
  end.

(** Safety step of a loop body. *)
Ltac wpr1 :=
  cbn beta iota;
  first
  [ match goal with
    | E : ?b = _ |- wp (if ?b then _ else _) _ => rewrite E
    | E : ring_cur ?r = Ok _ |- wp (ring_cur ?r) _ => rewrite E; apply wp_ret
    | E : ring_get ?r ?k = Ok _ |- wp (ring_get ?r ?k) _ => rewrite E; apply wp_ret
    | E : ring_set ?r ?k = Ok _ |- wp (ring_set ?r ?k) _ => rewrite E; apply wp_ret
    | H : full ?r ?M ?g ?i |- wp (ring_cur ?r) _ => apply (wp_full_cur r M g i _ H)
    | H : full ?r ?M ?g ?i |- wp (ring_get ?r _) _ => apply (wp_full_get r M g i _ _ H); [try solve [zl]|]
    | H : hist ?r ?M ?g ?i |- wp (ring_get ?r _) _ => apply (wp_hist_get r M g i _ _ H); [try solve [zl]|]
    | H : hist ?r ?M (zp ?a) ?i, H' : zlen ?a = ?i |- wp (ring_set ?r _) _ => apply (wp_hist_push r M a i _ _ H H'); intros
    | H : hist ?r ?M ?g ?i |- wp (ring_set ?r _) _ => apply (wp_hist_set r M g i _ _ H); [try solve [zpn; reflexivity]|]
    | H : rok ?r ?M |- wp (ring_get ?r _) _ => apply (wp_ring_get r M); [exact H|try solve [zl]|]
    | H : rok ?r ?M |- wp (ring_cur ?r) _ => apply (wp_ring_cur r M); [exact H|]
    | H : rok ?r ?M |- wp (ring_set ?r _) _ => apply (wp_ring_set r M); [exact H|]
    | H : ?o = Some _ |- wp (val ?o) _ => rewrite H; apply wp_ret
    | H : _ -> ?o = Some _ |- wp (val ?o) _ => rewrite H by zl; apply wp_ret
    | |- wp (val (Some _)) _ => apply wp_ret
    end
  | wp1 ].
Ltac wpr := repeat wpr1; cbn beta iota.
Ltac same_tac I := match goal with
  | |- exists s' outs, ?m = Ok _ /\ run_loops ?n ?sz ?l2 ?s0 = Ok _ /\ _ => eapply (sim_same I _ l2 n _ sz s0 m);
     [reflexivity|lia|lia| |intros i s Hi HI; unfold dispatch; let h := head l2 in unfold h;
      cbn [dispatch' bounded final]; untuple]
  end.

Ltac loops_tac R := match goal with
  | |- exists s' outs, ?m = Ok _ /\ run_loops ?n ?sz ?l2 ?s0 = Ok _ /\ _ => eapply (sim_loops R _ l2 n _ sz _ s0 m);
     [reflexivity|lia|lia| |intros i a b Hi HR; unfold dispatch; let h := head l2 in unfold h; cbn [dispatch' bounded final]; untuple; cbn [fst snd] in *;
    repeat match goal with H : _ /\ _ |- _ => destruct H end]
  end.
Ltac reject_tac2 := split; [reflexivity|intros size inputs (? & ? & ?); lists; reflexivity].

Section P.
Context {A : Arith}.

Lemma ssmooth_sim : sim 1 1 o_unit always ti_ssmooth_start ti_ssmooth ti_ssmooth_stream_new ssmooth_loops.
Proof.
  intros options v [-> ->]. accept_tac. same_tac (fun (_ : Z) (_ : T * T * T) => True); [exact I|].
  split; [reflexivity|]. wpr; emit.
Qed.
Lemma ssmooth_online : online 1 ssmooth_loops. Proof. online_tac @ssmooth_loops. Qed.

Lemma roof_sim : sim 1 1 o_unit always ti_roof_start ti_roof ti_roof_stream_new roof_loops.
Proof.
  intros options v [-> ->]. accept_tac. same_tac (fun (_ : Z) (_ : T * T * T * T * T * T) => True); [exact I|].
  split; [reflexivity|]. wpr; emit.
Qed.
Lemma roof_online : online 1 roof_loops. Proof. online_tac @roof_loops. Qed.

Lemma lf_sim : sim 1 1 o_nonneg always ti_lf_start ti_lf ti_lf_stream_new lf_loops.
Proof.
  intros options v (x & -> & ->). destruct (x .< #0) eqn:E0; cbn beta iota.
  - unfold ti_lf, ti_lf_stream_new. rewrite E0. split; [reflexivity|]. intros size inputs (? & ? & ?). lists. reflexivity.
  - unfold ti_lf, ti_lf_stream_new. rewrite E0. accept_tac. same_tac (fun (_ : Z) (_ : T * T * T * T) => True); [exact I|].
    split; [reflexivity|]. wpr; emit.
Qed.
Lemma lf_online : online 1 lf_loops. Proof. online_tac @lf_loops. Qed.

Lemma mgdyn_sim : sim 1 1 o_any always ti_mgdyn_start ti_mgdyn ti_mgdyn_stream_new mgdyn_loops.
Proof.
  intros options v (x & -> & ->). accept_tac.
  loops_tac (fun (i : Z) (a : option T) (b : T) => i > 0 -> a = Some b); [lia|].
  wpr; contra; emit.
Qed.
Lemma mgdyn_online : online 1 mgdyn_loops. Proof. online_tac @mgdyn_loops. Qed.

Lemma rema_sim : sim 1 1 o_rema always ti_rema_start ti_rema ti_rema_stream_new rema_loops.
Proof.
  intros options v (x & l & -> & ->). unfold ti_rema, ti_rema_stream_new.
  destruct (x .< #1) eqn:E0; [reject_tac2|]. destruct (l .< #0) eqn:E1; [reject_tac2|].
  accept_tac.
  loops_tac (fun (i : Z) (a : option T * option T) (b : T * T) => (i > 0 -> fst a = Some (fst b)) /\ (i > 1 -> snd a = Some (snd b))); [cbn; lia|].
  wpr; contra; emit.
Qed.
Lemma rema_online : online 1 rema_loops. Proof. online_tac @rema_loops. Qed.

Context {IL : IntLaws A}.

Lemma bf_period_ok x n : to_int x = Some n -> bf_period x = Ok (if even40 n then Some n else None).
Proof.
  intros E0. unfold bf_period. rewrite (to_int_flt x n 1) by (auto; zl). getcast. cbn [bind]. unfold even40.
  destruct (n <? 1) eqn:E1; [replace (1 <=? n) with false by lia; reflexivity|].
  replace (1 <=? n) with true by lia. destruct (Z.rem n 2 =? 0); cbn [negb andb]; [|reflexivity].
  destruct (n >? 40) eqn:E2; [replace (n <=? 40) with false by lia|replace (n <=? 40) with true by lia]; reflexivity.
Qed.
Lemma even40_idx n : even40 n = true -> 0 <= Z.quot n 2 - 1 < 20.
Proof. unfold even40. intros H. pose proof (Z.quot_rem' n 2). lia. Qed.

Lemma bf2_sim : sim 1 1 (o_bf 2) always ti_bf2_start ti_bf2 ti_bf2_stream_new bf2_loops.
Proof.
  intros options v (x & n & -> & Hx & ->). unfold ti_bf2, ti_bf2_stream_new. rewrite (bf_period_ok x n Hx). cbn [bind].
  destruct (even40 n) eqn:En; [|reject_tac2].
  destruct (to_int (libm Lceil (#2 .* x ./ (lit 31415 4 .* lit 31415 4)))) as [st|] eqn:Est; [|exact I].
  destruct (0 <=? st) eqn:Hst; [|exact I].
  apply even40_idx in En.
  assert (Es : ti_bf2_start [x] = Ok st) by (unfold ti_bf2_start, cast; rewrite Est; reflexivity).
  destruct (bf2_constants n) as [[[[[B0 B1] B2] A1] A2]|u] eqn:Ek.
  2:{ exfalso. unfold bf2_constants in Ek. rewrite !rd_zf in Ek by (unfold bf2_B0, bf2_B1, bf2_B2, bf2_A1, bf2_A2, micro; rewrite zlen_map; exact En). discriminate. }
  rewrite Es. cbn [bind]. accept_tac. same_tac (fun (_ : Z) (_ : T * T * T * T) => True); [exact I|].
  split; [reflexivity|]. wpr; contra; emit.
Qed.
Lemma bf2_online : online 1 bf2_loops. Proof. online_tac @bf2_loops. Qed.

Lemma bf3_sim : sim 1 1 (o_bf 3) always ti_bf3_start ti_bf3 ti_bf3_stream_new bf3_loops.
Proof.
  intros options v (x & n & -> & Hx & ->). unfold ti_bf3, ti_bf3_stream_new. rewrite (bf_period_ok x n Hx). cbn [bind].
  destruct (even40 n) eqn:En; [|reject_tac2].
  destruct (to_int (libm Lceil (#3 .* x ./ (lit 31415 4 .* lit 31415 4)))) as [st|] eqn:Est; [|exact I].
  destruct (0 <=? st) eqn:Hst; [|exact I].
  apply even40_idx in En.
  assert (Es : ti_bf3_start [x] = Ok st) by (unfold ti_bf3_start, cast; rewrite Est; reflexivity).
  destruct (bf3_constants n) as [[[[[[[B0 B1] B2] B3] A1] A2] A3]|u] eqn:Ek.
  2:{ exfalso. unfold bf3_constants in Ek. rewrite !rd_zf in Ek by (unfold bf3_B0, bf3_B1, bf3_B2, bf3_B3, bf3_A1, bf3_A2, bf3_A3, micro; rewrite zlen_map; exact En). discriminate. }
  rewrite Es. cbn [bind]. accept_tac. same_tac (fun (_ : Z) (_ : T * T * T * T * T * T) => True); [exact I|].
  split; [reflexivity|]. wpr; contra; emit.
Qed.
Lemma bf3_online : online 1 bf3_loops. Proof. online_tac @bf3_loops. Qed.

Lemma gf_reject_ok n : gf_reject n = negb (even40 n).
Proof. unfold gf_reject, even40. destruct (n <? 1) eqn:E1, (Z.rem n 2 =? 0), (n >? 40) eqn:E2; cbn; lia. Qed.

Lemma gf2_sim : sim 1 1 (int_opts 1 v_even40) always ti_gf2_start ti_gf2 ti_gf2_stream_new gf2_loops.
Proof.
  intros options v (ns & ? & ? & ->). lists. unfold ti_gf2, ti_gf2_stream_new, ti_gf2_start, gf_start. getcast. cbn [bind v_even40].
  rewrite gf_reject_ok. destruct (even40 p) eqn:En; cbn [negb]; [|reject_tac2].
  apply even40_idx in En. destruct (ring_new_ok 3 ltac:(lia)) as (r & Er & Hr). rewrite Er. cbn [bind].
  destruct (gf2_constants p) as [[[[B0 A1] A2] cs]|u] eqn:Ek.
  2:{ exfalso. unfold gf2_constants in Ek. rewrite !rd_zf in Ek by (unfold gf2_B0, gf2_A1, gf2_A2, micro; rewrite zlen_map; exact En). discriminate. }
  accept_tac. same_tac (fun (_ : Z) r => rok r 3); [eexists; exact Hr|].
  split; [reflexivity|]. wpr; emit. apply rok_step; assumption.
Qed.
Lemma gf2_online : online 1 gf2_loops. Proof. online_tac @gf2_loops. Qed.

Lemma gf3_sim : sim 1 1 (int_opts 1 v_even40) always ti_gf3_start ti_gf3 ti_gf3_stream_new gf3_loops.
Proof.
  intros options v (ns & ? & ? & ->). lists. unfold ti_gf3, ti_gf3_stream_new, ti_gf3_start, gf_start. getcast. cbn [bind v_even40].
  rewrite gf_reject_ok. destruct (even40 p) eqn:En; cbn [negb]; [|reject_tac2].
  apply even40_idx in En. destruct (ring_new_ok 4 ltac:(lia)) as (r & Er & Hr). rewrite Er. cbn [bind].
  destruct (gf3_constants p) as [[[[[B0 A1] A2] A3] cs]|u] eqn:Ek.
  2:{ exfalso. unfold gf3_constants in Ek. rewrite !rd_zf in Ek by (unfold gf3_B0, micro; rewrite zlen_map; exact En). discriminate. }
  accept_tac. same_tac (fun (_ : Z) r => rok r 4); [eexists; exact Hr|].
  split; [reflexivity|]. wpr; emit. apply rok_step; assumption.
Qed.
Lemma gf3_online : online 1 gf3_loops. Proof. online_tac @gf3_loops. Qed.

(** gf4: at least five bars. *)
Definition five : list (list T) -> Prop := fun inputs => 5 <= csize inputs.
Lemma gf4_sim : sim 1 1 (int_opts 1 v_even40) five ti_gf4_start ti_gf4 ti_gf4_stream_new gf4_loops.
Proof.
  intros options v (ns & ? & ? & ->). lists. unfold ti_gf4, ti_gf4_stream_new, ti_gf4_start, gf_start. getcast. cbn [bind v_even40].
  rewrite gf_reject_ok. destruct (even40 p) eqn:En; cbn [negb]; [|reject_tac2].
  apply even40_idx in En. destruct (ring_new_ok 5 ltac:(lia)) as (r & Er & Hr). rewrite Er. cbn [bind].
  destruct (gf4_constants p) as [[[[[[B0 A1] A2] A3] A4] cs]|u] eqn:Ek.
  2:{ exfalso. unfold gf4_constants in Ek. rewrite !rd_zf in Ek by (unfold gf4_B0, gf4_A1, gf4_A2, gf4_A3, gf4_A4, micro; rewrite zlen_map; exact En). discriminate. }
  split; [reflexivity|split; [lia|do 2 eexists; split; [reflexivity|intros size inputs (? & ? & ?) H5; lists]]].
  unfold five, csize in H5. rewrite Hl in H5. cbn [bind].
  match goal with |- exists s' outs, ?m = Ok _ /\ run_loops ?n ?sz ?l2 ?s0 = Ok _ /\ _ =>
    eapply (sim_same (fun (_ : Z) r => rok r 5) l2 l2 n 0 sz s0 m) end; [|lia|lia|eexists; exact Hr|].
  - unfold run_loops, gf4_loops. cbn [bounded final phases]. replace (Z.max 0 (Z.min (5 - - 0) size)) with 5 by lia.
    rewrite bind_assoc. reflexivity.
  - intros i s Hi HI. unfold dispatch, gf4_loops. cbn [dispatch' bounded final].
    split; [reflexivity|]. wpr; emit; apply rok_step; assumption.
Qed.
Lemma gf4_online : online 1 gf4_loops. Proof. online_tac @gf4_loops. Qed.
End P.

(** Safety and output count of a batch function made of loops. *)
Lemma loops_count {A : Arith} {S1} (I : Z -> S1 -> Prop) (l : loops S1) nout st size s :
  0 <= size -> 0 <= st -> I 0 s ->
  (forall i s, 0 <= i < size -> I i s ->
    wp (dispatch l i s) (fun r => emitted nout (st <=? i) (snd r) /\ I (i + 1) (fst r))) ->
  exists outs, batch_loops nout size l s = Ok (OKAY, outs) /\
    length outs = nout /\ Forall (fun o => zlen o = Z.max 0 (size - st)) outs.
Proof.
  intros Hs Hst H0 Hstep.
  destruct (sim_same I l l nout st size s (batch_loops nout size l s) eq_refl Hs Hst H0) as (s' & outs & H1 & H2 & H3 & H4).
  - intros i s0 Hi HI. split; [reflexivity|auto].
  - exists outs. auto.
Qed.

Lemma gf1_contract {A : Arith} {IL : IntLaws A} : contract 1 1 (int_opts 1 v_even40) ti_gf1_start ti_gf1.
Proof.
  intros size inputs options v (? & ? & ?) (ns & ? & ? & ->). lists. unfold ti_gf1, ti_gf1_start, gf_start. getcast. cbn [bind v_even40].
  rewrite gf_reject_ok. destruct (even40 p) eqn:En; cbn [negb]; [|reflexivity].
  apply even40_idx in En. split; [reflexivity|].
  rewrite !rd_zf by (unfold gf1_B0, gf1_A1, micro; rewrite zlen_map; exact En). cbn [bind].
  apply (loops_count (fun _ _ => True)); [lia|lia|exact I|]. intros i s Hi _. cbn [dispatch dispatch' bounded final].
  wpr. emit.
Qed.

(** gf1: the stream multiplies by the reciprocal of what the batch function divides by. *)
Lemma gf1_sim : @sim RArith.RA _ _ 1 1 (int_opts 1 v_even40) always ti_gf1_start ti_gf1 ti_gf1_stream_new gf1_loops.
Proof.
  intros options v (ns & ? & ? & ->). lists. unfold ti_gf1, ti_gf1_stream_new, ti_gf1_start, gf_start. getcast. cbn [bind v_even40].
  rewrite gf_reject_ok. destruct (even40 p) eqn:En; cbn [negb]; [|reject_tac2].
  apply even40_idx in En.
  assert (L1 : 0 <= Z.quot p 2 - 1 < zlen (@gf1_B0 RArith.RA)) by (unfold gf1_B0, micro; rewrite zlen_map; exact En).
  assert (L2 : 0 <= Z.quot p 2 - 1 < zlen (@gf1_A1 RArith.RA)) by (unfold gf1_A1, micro; rewrite zlen_map; exact En).
  rewrite (rd_zf _ _ L1), (rd_zf _ _ L2). cbn [bind].
  accept_tac.
  loops_tac (fun (i : Z) (a b : @T RArith.RA) => a = b); [reflexivity|]. subst b.
  wpr. split; [|split].
  - cbn [fst snd]. do 2 f_equal. cbn. unfold Rdefinitions.Rdiv. rewrite Raxioms.Rmult_1_l. reflexivity.
  - emit.
  - cbn. unfold Rdefinitions.Rdiv. rewrite Raxioms.Rmult_1_l. reflexivity.
Qed.
Lemma gf1_online {A : Arith} : online 1 gf1_loops. Proof. online_tac @gf1_loops. Qed.

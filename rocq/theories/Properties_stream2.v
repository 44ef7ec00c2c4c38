(** C28 (averaging period 1), C37 (emsd), and what the tables of Properties_stream leave out. *)
From Verif Require Import C_stream5R C_stream5 RArith F64 F64Laws Properties_contracts Properties_stream.
From Coq Require Import Reals Lra.
Open Scope Z_scope.

(** ** C37: ma_period of emsd *)
(** emsd computes the average of the variance but writes the variance: no value depends on the
    second option, in any arithmetic. *)
Theorem C37_emsd_refuted : forall {A : Arith} {IL : IntLaws A} size (x : list T) (o a b : T) n m k, zlen x = size -> 0 <= size <= INT_MAX ->
  to_int o = Some n -> to_int a = Some m -> to_int b = Some k -> 1 <= n -> 1 <= m < INT_MAX -> 1 <= k < INT_MAX ->
  ti_emsd size [x] [o; a] = ti_emsd size [x] [o; b].
Proof.
  intros A IL size x o a b n m k Hx Hs Ho Ha Hb Hn Hm Hk. pose proof (to_int_range _ _ Ho) as Hr.
  unfold ti_emsd, cast. rewrite Ho, Ha, Hb. cbn [bind].
  replace (n <? 1) with false by lia. replace (m <? 1) with false by lia. replace (k <? 1) with false by lia.
  match goal with |- batch_loops 1 size ?l1 ?s = batch_loops 1 size ?l2 ?s =>
    destruct (sim_loops (fun (i : Z) (u v : T * T * option T) => fst u = fst v /\ (n <= i -> (exists e, snd u = Some e) /\ exists e, snd v = Some e))
      l1 l2 1 (n - 1) size s s _ eq_refl) as (s' & outs & E1 & E2 & _) end.
  - lia.
  - lia.
  - split; [reflexivity|lia].
  - intros i u v Hi [HE HI]. destruct u as [[u1 u2] u3], v as [[v1 v2] v3]. cbn [fst snd] in *. injection HE as -> ->.
    unfold dispatch. cbn [dispatch' Stream.bounded Stream.final].
    destruct (i <? n - 1) eqn:Ea; [|destruct (i <? n) eqn:Eb].
    + wpr. emit.
    + wpr. emit. split; eexists; reflexivity.
    + destruct HI as [[e1 ->] [e2 ->]]; [lia|]. rewrite !ck_ok by zl. cbn [bind]. wpr. emit. split; eexists; reflexivity.
  - unfold batch_loops. rewrite E1, E2. reflexivity.
Qed.
Print Assumptions C37_emsd_refuted.
Example C37_emsd_example : exists v w, v <> w /\
  @ti_emsd F64c 4 [[dbl 1 0; dbl 3 0; dbl 2 0; dbl 7 0]] [dbl 3 0; dbl 2 0] = Ok (OKAY, [[v; w]]) /\
  @ti_emsd F64c 4 [[dbl 1 0; dbl 3 0; dbl 2 0; dbl 7 0]] [dbl 3 0; dbl 50 0] = Ok (OKAY, [[v; w]]).
Proof. do 2 eexists. split; [|split; vm_compute; reflexivity]. vm_compute. discriminate. Qed.

(** ** C28: averaging period 1 *)
(** cmi: start is 0, but bar 0 is consumed without an output (by the stream as well). *)
Theorem C28_cmi_partial : forall {A : Arith} {IL : IntLaws A}, contract 3 1 (o_Z1 v_cmi) ti_cmi_start ti_cmi.
Proof. intros A IL size inputs options v Hw Hv. exact (sim_contract _ _ _ _ _ _ _ _ cmi_sim size inputs options v Hw Hv I). Qed.
Print Assumptions C28_cmi_partial.
Example C28_cmi_example : v_cmi 2 = Accept 1 /\ v_cmi 1 = Outside.
Proof. split; reflexivity. Qed.
Theorem C28_cmi_refuted : exists inputs options, wf 3 3 inputs /\ @ti_cmi_start F64c options = Ok 0 /\ exists v w,
  @ti_cmi F64c 3 inputs options = Ok (OKAY, [[v; w]]) /\
  @stream_outputs F64c _ ti_cmi_stream_new ti_cmi_stream_run 1 options [inputs] = Some [[v; w]].
Proof.
  exists [ones 3; ones 3; ones 3], [dbl 1 0]. split; [repeat split; try lia; repeat constructor; vm_compute; congruence|].
  split; [vm_compute; reflexivity|]. do 2 eexists. split; vm_compute; reflexivity.
Qed.
Print Assumptions C28_cmi_refuted.

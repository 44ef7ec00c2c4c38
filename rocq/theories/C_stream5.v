(** Streams of M_stream5: option verdicts, batch/stream simulation. *)
From Verif Require Export M_stream5 C_stream1 C_stream2 C_stream3.

Section P.
Context {A : Arith}.

Lemma max_elem_in cmp buf lo hi : 0 <= lo < hi -> hi <= zlen buf ->
  exists b, max_elem cmp buf lo hi = Ok b /\ lo <= b < hi.
Proof.
  intros H1 H2. apply wp_ex. unfold max_elem. wps. apply (wp_for (fun j b => lo <= b < j)); [lia|lia| |].
  - intros i b Hi Hb. wps. destruct (cmp _ _); lia.
  - intros b Hb. exact Hb.
Qed.
Lemma ring_age_in r M it : rok r M -> 0 <= it < M -> exists age, ring_age r it = Ok age /\ 0 <= age < M.
Proof.
  intros (h & H1 & H2 & H3 & H4) Hit. unfold ring_age. rewrite H1. replace ((0 <=? it) && (it <? M)) with true by lia.
  cbn [check bind]. eexists; split; [reflexivity|]. rewrite Z.rem_mod_nonneg by lia. apply Z.mod_pos_bound. lia.
Qed.

Context {IL : IntLaws A}.

(** shmma *)
Definition v_shmma (n : Z) : verdict :=
  if n <? 1 then Reject else if (n + 1) * n <=? INT_MAX then Accept (n - 1) else Outside.
Lemma shmma_sim : sim 1 1 (o_Z1 v_shmma) always ti_shmma_start ti_shmma ti_shmma_stream_new shmma_loops.
Proof.
  intros options v (n & -> & Hn & ->). unfold ti_shmma, ti_shmma_stream_new, ti_shmma_start, start_fm1, v_shmma.
  rewrite flt_of_Z by zl. rewrite (cast_of_Z n) by zl. cbn [bind].
  destruct (n <? 1) eqn:E1; [reject_tac2|]. destruct ((n + 1) * n <=? INT_MAX) eqn:E2; [|exact I].
  assert (Hs : n < 50000) by (unfold INT_MAX in *; nia).
  rewrite fsub_of_Z by zl. rewrite cast_of_Z by zl. cbn [bind].
  hist0 n. accept_tac. unfold batch_loops, shmma_value. rewrite (ck_ok (n + 1)) by zl. cbn [bind]. rewrite (ck_ok ((n + 1) * n)) by (unfold INT_MIN in *; nia). cbn [bind].
  loops_tac (fun (i : Z) (a : T * T) (b : T * T * ring) => a = fst b /\ hist (snd b) n (zp x) i).
  - split; [reflexivity|]. apply hist_of_ok; [exact Hr|]. intros; apply zp_neg; lia.
  - match goal with HP : _ = _ |- _ => injection HP; intros; subst end.
    replace (0 - - (n - 1)) with (n - 1) by lia. unfold shmma_value. rewrite (ck_ok (n + 1)) by zl. cbn [bind]. rewrite (ck_ok ((n + 1) * n)) by (unfold INT_MIN in *; nia). cbn [bind].
    replace (- (n - 1) + i + n - 1) with i by lia.
    destruct (i <? n - 1) eqn:Ea.
    + wpr. emit. apply hist_step; assumption.
    + wpr. zpn. replace (i - (n - 1)) with (i - n + 1) by lia. rewrite (fsub_of_Z n 1) by zl. emit. apply hist_step; assumption.
Qed.
Lemma shmma_online : online 1 shmma_loops. Proof. online_tac @shmma_loops; rewrite ?Z.add_0_r; reflexivity. Qed.

(** cmi: index k of the batch function is k - st in the stream. *)
Definition cmi_rel (st i : Z) (a b : cmi_state) : Prop :=
  exists h l kh kl, 0 <= kh <= i /\ 0 <= kl <= i /\
    a = ((h, #kh), (l, #kl)) /\ b = ((h, #(kh - st)), (l, #(kl - st))).
Lemma cmi_warm_rel st i t a b : 0 <= i -> cmi_rel st (i - 1) a b ->
  cmi_rel st i (cmi_warm t i a) (cmi_warm t (- st + i) b).
Proof.
  intros Hi (h & l & kh & kl & H1 & H2 & -> & ->). unfold cmi_warm, cmi_rel. cbn [fst snd].
  replace (- st + i) with (i - st) by lia.
  destruct (h .<= t), (l .>= t); do 4 eexists; (split; [|split; [|split; reflexivity]]; lia).
Qed.
Lemma cmi_ext_rel st n cmp r t i e d v k : rok r n -> 1 <= n <= i + 1 -> 0 <= k <= i - 1 -> exists v' k',
  0 <= k' <= i /\ cmi_ext cmp r t i e d (v, #k) = Ok (v', #k') /\
  cmi_ext cmp r t (i - st) e d (v, #(k - st)) = Ok (v', #(k' - st)).
Proof.
  intros Hr Hn Hk. unfold cmi_ext. destruct e.
  - destruct Hr as (h & Hh). pose proof Hh as (H1 & H2 & H3 & H4).
    destruct (max_elem_in cmp (rbuf r) 0 (rM r)) as (it & E & Hit); [lia|lia|]. rewrite E. cbn [bind].
    rewrite rd_zf by lia. cbn [bind]. destruct (ring_age_in r n it) as (age & Ea & Hage); [eexists; exact Hh|lia|]. rewrite Ea. cbn [bind].
    do 2 eexists. split; [|split; [reflexivity|do 3 f_equal; lia]]. lia.
  - destruct d; do 2 eexists; (split; [|split; reflexivity]; lia).
Qed.
Lemma cmi_next_rel st n r t i a b : rok r n -> 1 <= n <= i + 1 -> i < INT_MAX -> 0 <= st <= INT_MAX -> cmi_rel st (i - 1) a b -> exists a' b',
  cmi_next r t i #(i - n) a = Ok a' /\ cmi_next r t (- st + i) (#(- st + i) .- #n) b = Ok b' /\ cmi_rel st i a' b'.
Proof.
  intros Hr Hn Hi Hst (h & l & kh & kl & H1 & H2 & -> & ->). unfold cmi_next. cbn [fst snd].
  replace (- st + i) with (i - st) by lia. rewrite fsub_of_Z by zl. rewrite !feq_of_Z by zl.
  replace (kh - st =? i - st - n) with (kh =? i - n) by lia. replace (kl - st =? i - st - n) with (kl =? i - n) by lia.
  destruct (cmi_ext_rel st n (fun x y => x .< y) r t i (kh =? i - n) (h .<= t) h kh Hr Hn H1) as (h' & kh' & B1 & -> & ->). cbn [bind].
  destruct (cmi_ext_rel st n (fun x y => y .< x) r t i (kl =? i - n) (l .>= t) l kl Hr Hn H2) as (l' & kl' & B2 & -> & ->). cbn [bind].
  do 2 eexists. split; [reflexivity|split; [reflexivity|]]. exists h', l', kh', kl'. split; [lia|split; [lia|split; reflexivity]].
Qed.

Definition v_cmi (n : Z) : verdict := if n <? 1 then Reject else if n <? 2 then Outside else Accept (n - 1).
Lemma cmi_sim : sim 3 1 (o_Z1 v_cmi) always ti_cmi_start ti_cmi ti_cmi_stream_new cmi_loops.
Proof.
  intros options v (n & -> & Hn & ->). unfold ti_cmi, ti_cmi_stream_new, ti_cmi_start, start_fm1, v_cmi.
  rewrite flt_of_Z by zl. rewrite (cast_of_Z n) by zl. cbn [bind].
  destruct (n <? 1) eqn:E1; [reject_tac2|]. destruct (n <? 2) eqn:E2; [exact I|].
  rewrite fsub_of_Z by zl. rewrite cast_of_Z by zl. cbn [bind]. hist0 n. hist0 2.
  rewrite fopp_of_Z by zl. rewrite fadd_of_Z by zl. rewrite ceilto_of_Z by zl. cbn [bind]. accept_tac. unfold batch_loops.
  loops_tac (fun (i : Z) (a : T * option cmi_state * ring) (b : T * cmi_state * ring * ring) =>
    fst (fst a) = fst (fst (fst b)) /\ snd a = snd (fst b) /\ rok (snd a) n /\ hist (snd b) 2 (zp x1) i /\
    (i >= 1 -> exists e, snd (fst a) = Some e /\ cmi_rel (n - 1) (i - 1) e (snd (fst (fst b))))).
  - split; [reflexivity|]. split; [reflexivity|]. split; [eexists; exact Hr|]. split; [apply hist_of_ok; [exact Hr0|intros; apply zp_neg; lia]|lia].
  -
    replace (- n + 2 - - (n - 1)) with 1 by lia. replace (0 - - (n - 1)) with (n - 1) by lia.
    subst. replace (i + 1 - 1) with i by lia.
    destruct (i <? 1) eqn:Ei; [|destruct (i <? n - 1) eqn:Ea].
    + assert (i = 0) as -> by lia. wpr. emit; [apply rok_step; assumption|apply (hist_step _ _ _ 0); assumption|].
      eexists; split; [reflexivity|]. exists (zf x 0 .- zf x0 0), (zf x 0 .- zf x0 0), 0, 0.
      split; [lia|split; [lia|split; [reflexivity|do 3 f_equal; lia]]].
    + destruct H5 as (e & -> & Hrel); [lia|]. repeat (wpr1; zpn). emit; [apply rok_step; assumption|apply hist_step; assumption|].
      eexists; split; [reflexivity|]. apply cmi_warm_rel; [lia|exact Hrel].
    + destruct H5 as (e & -> & Hrel); [lia|].
      repeat (lazymatch goal with |- wp (cmi_next _ _ _ _ _) _ => fail | _ => wpr1; zpn end).
      match goal with |- wp (cmi_next ?r ?t _ _ _) _ => destruct (cmi_next_rel (n - 1) n r t i e c) as (e1 & e2 & Q1 & Q2 & Q3); [assumption|lia|lia|lia|exact Hrel|] end.
      rewrite Q1. cbn [bind wp].
      repeat (lazymatch goal with |- wp (cmi_next _ _ _ _ _) _ => fail | _ => wpr1; zpn end).
      rewrite Q2. cbn [bind wp]. wpr. destruct Q3 as (h & l & kh & kl & B1 & B2 & -> & ->). unfold cmi_value. cbn [fst snd]. emit; [apply rok_step; assumption|apply hist_step; assumption|].
      eexists; split; [reflexivity|]. exists h, l, kh, kl. split; [lia|split; [lia|split; reflexivity]].
Qed.
Lemma cmi_online : online 3 cmi_loops. Proof. online_tac @cmi_loops; rewrite ?Z.add_0_r; reflexivity. Qed.

End P.

(** Caller-contract proofs for the functions of M_window.v, any arithmetic. *)
From Verif Require Export M_window C_basic BufferP.

(** stoch: three periods; the two buffers bound the slowing periods *)
Definition v_stoch (ns : list Z) : verdict :=
  match ns with
  | [k; s; d] =>
      if (k <? 1) || (s <? 1) || (d <? 1) then Reject
      else if (k + s + d <=? INT_MAX) && (s <=? 268435452) && (d <=? 268435452)
      then Accept (k + s + d - 3) else Outside
  | _ => Outside
  end.

Section C.
Context {A : Arith} {L : IntLaws A}.

Lemma maintain_wp cmp get trail i s :
  (forall j, trail <= j <= i -> wp (get j) (fun _ => True)) -> trail <= i ->
  wp (maintain cmp get trail i s) (fun _ => True).
Proof.
  intros Hg H. unfold maintain. destruct s as [mi m]. wps.
  eapply wp_mono; [apply Hg; lia|]. intros bar _.
  wps; [|exact I]. eapply wp_mono; [apply Hg; lia|]. intros m' _.
  loop (fun _ _ => True); [lia|exact I| |auto].
  intros j [mi' m''] Hj _. wps. eapply wp_mono; [apply Hg; lia|]. intros b _. wps. exact I.
Qed.

Lemma maintain_rd cmp x trail i s (Q : _ -> Prop) :
  0 <= trail <= i -> i < zlen x -> (forall s', Q s') ->
  wp (maintain cmp (rd x) trail i s) Q.
Proof.
  intros H H1 HQ. eapply wp_mono; [apply maintain_wp|auto]; [|lia].
  intros j Hj. wps. exact I.
Qed.

Lemma HL_wp h l i (Q : _ -> Prop) : 0 <= i < zlen h -> zlen l = zlen h -> (forall v, Q v) -> wp (HL h l i) Q.
Proof. intros H H1 HQ. unfold HL. wps. apply HQ. Qed.

Lemma maintain_HL cmp h l trail i s (Q : _ -> Prop) :
  0 <= trail <= i -> i < zlen h -> zlen l = zlen h -> (forall s', Q s') ->
  wp (maintain cmp (HL h l) trail i s) Q.
Proof.
  intros H H1 H2 HQ. eapply wp_mono; [apply maintain_wp|auto]; [|lia].
  intros j Hj. apply HL_wp; auto; lia.
Qed.

Ltac mt := unfold highest, lowest; first [apply maintain_rd; [zl|zl|intro; wps]|apply maintain_HL; [zl|zl|zl|intro; wps]|apply HL_wp; [zl|zl|intro; wps]].
Ltac mts := wps; repeat mt.

Lemma max_contract : contract 1 1 (int_opts 1 (v_period 1 INT_MAX (-1))) start_p1 ti_max.
Proof.
  perstart ti_max start_p1.
  loop (fun i '(trail, _, out) => trail = i - (p - 1) /\ zlen out = i - (p - 1)); [zl|cbn; lia| |].
  - intros i [[trail s] out] Hi [-> Ho]. mts. zl.
  - intros [[trail s] out] [_ Ho]. okay.
Qed.
Lemma min_contract : contract 1 1 (int_opts 1 (v_period 1 INT_MAX (-1))) start_p1 ti_min.
Proof.
  perstart ti_min start_p1.
  loop (fun i '(trail, _, out) => trail = i - (p - 1) /\ zlen out = i - (p - 1)); [zl|cbn; lia| |].
  - intros i [[trail s] out] Hi [-> Ho]. mts. zl.
  - intros [[trail s] out] [_ Ho]. okay.
Qed.
Lemma max_ref_contract : contract 1 1 (int_opts 1 (v_period 1 INT_MAX (-1))) start_p1 ti_max_ref.
Proof.
  perstart ti_max_ref start_p1. loop_out (p - 1); [loop_any; wps; zl|okay].
Qed.
Lemma min_ref_contract : contract 1 1 (int_opts 1 (v_period 1 INT_MAX (-1))) start_p1 ti_min_ref.
Proof.
  perstart ti_min_ref start_p1. loop_out (p - 1); [loop_any; wps; zl|okay].
Qed.
Lemma aroon_contract : contract 2 2 (int_opts 1 (v_period 1 INT_MAX 0)) start_p ti_aroon.
Proof.
  perstart ti_aroon start_p.
  loop (fun i '(trail, _, _, o1, o2) => trail = i - p /\ zlen o1 = i - p /\ zlen o2 = i - p); [zl|cbn; lia| |].
  - intros i [[[[trail s] s'] o1] o2] Hi (-> & Ho & Ho'). mts. zl.
  - intros [[[[trail s] s'] o1] o2] (_ & Ho & Ho'). okay.
Qed.
Lemma aroonosc_contract : contract 2 1 (int_opts 1 (v_period 1 INT_MAX 0)) start_p ti_aroonosc.
Proof.
  perstart ti_aroonosc start_p.
  loop (fun i '(trail, _, _, o1) => trail = i - p /\ zlen o1 = i - p); [zl|cbn; lia| |].
  - intros i [[[trail s] s'] o1] Hi (-> & Ho). mts. zl.
  - intros [[[trail s] s'] o1] (_ & Ho). okay.
Qed.
Lemma willr_contract : contract 3 1 (int_opts 1 (v_period 1 INT_MAX (-1))) start_p1 ti_willr.
Proof.
  perstart ti_willr start_p1.
  loop (fun i '(trail, _, _, o1) => trail = i - (p - 1) /\ zlen o1 = i - (p - 1)); [zl|cbn; lia| |].
  - intros i [[[trail s] s'] o1] Hi (-> & Ho). mts; zl.
  - intros [[[trail s] s'] o1] (_ & Ho). okay.
Qed.
Lemma fisher_contract : contract 2 2 (int_opts 1 (v_period 1 INT_MAX (-1))) start_p1 ti_fisher.
Proof.
  perstart ti_fisher start_p1. mts.
  loop (fun i '(trail, _, _, _, _, o1, o2) => trail = i - (p - 1) /\ zlen o1 = i - (p - 1) /\ zlen o2 = i - (p - 1)); [zl|cbn; lia| |].
  - intros i [[[[[[trail s] s'] v1] fi] o1] o2] Hi (-> & Ho & Ho'). mts; zl.
  - intros [[[[[[trail s] s'] v1] fi] o1] o2] (_ & Ho & Ho'). okay.
Qed.
Lemma vhf_contract : contract 1 1 (int_opts 1 (v_period 1 INT_MAX 0)) start_p ti_vhf.
Proof.
  perstart ti_vhf start_p. loop_any.
  loop (fun i '(trail, _, _, _, _, o1) => trail = i - p + 1 /\ zlen o1 = i - p); [zl|cbn; lia| |].
  - intros i [[[[[trail s] s'] v1] fi] o1] Hi (-> & Ho). mts; zl.
  - intros [[[[[trail s] s'] v1] fi] o1] (_ & Ho). okay.
Qed.

Lemma wp_push b size n v (Q : _ -> Prop) :
  (exists ps, slots_ok b size ps /\ bpushes b = zlen ps /\ zlen ps = n) ->
  (forall b', (exists ps, slots_ok b' size ps /\ bpushes b' = zlen ps /\ zlen ps = n + 1) -> Q b') ->
  wp (buffer_push b v) Q.
Proof.
  intros (ps & H1 & H2 & H3) HQ. destruct (buffer_push_ok b size ps v H1 H2) as (b' & E & Hs & Hb & _).
  rewrite E. cbn. apply HQ. exists (ps ++ [v]). repeat split; auto; try apply Hs. zl.
Qed.
Lemma wp_qpush b size n v (Q : _ -> Prop) :
  (exists ps, slots_ok b size ps /\ zlen ps = n) ->
  (forall b', (exists ps, slots_ok b' size ps /\ zlen ps = n + 1) -> Q b') ->
  wp (buffer_qpush b v) Q.
Proof.
  intros (ps & H1 & H3) HQ. destruct (buffer_qpush_ok b size ps v H1) as (b' & E & Hs & _).
  rewrite E. cbn. apply HQ. exists (ps ++ [v]). repeat split; auto; try apply Hs. zl.
Qed.
Lemma wp_bnew size (Q : _ -> Prop) : 1 <= size <= 268435452 ->
  (forall b, (exists ps, slots_ok b size ps /\ bpushes b = zlen ps /\ zlen ps = 0) -> Q b) ->
  wp (buffer_new size) Q.
Proof.
  intros H HQ. destruct (buffer_new_ok size H) as (b & E & Hs & Hb & _). rewrite E. apply HQ.
  exists []. auto.
Qed.

Lemma stoch_contract : contract 3 2 (int_opts 3 v_stoch) ti_stoch_start ti_stoch.
Proof.
  open_int_contract. ranges. cbn [v_stoch].
  destruct ((p <? 1) || (p0 <? 1) || (p1 <? 1)) eqn:E; [reject_tac|].
  destruct ((p + p0 + p1 <=? INT_MAX) && (p0 <=? 268435452) && (p1 <=? 268435452)) eqn:E1; [|exact I].
  split.
  - unfold ti_stoch_start. repeat (getcast; cbn [bind]). rewrite ck_ok by zl. cbn [bind].
    rewrite ck_ok by zl. cbn [bind]. rewrite ck_ok by zl. reflexivity.
  - apply wp_out. unfold ti_stoch, ti_stoch_start. wps; contra; [fin|].
    apply wp_bnew; [zl|]. intros k Hk. wps. apply wp_bnew; [zl|]. intros d Hd. wps.
    loop (fun i '(trail, _, _, k, d, o1, o2) =>
      trail = Z.max 0 (i - p) /\
      (exists ps, slots_ok k p0 ps /\ bpushes k = zlen ps /\ zlen ps = i) /\
      (exists ps, slots_ok d p1 ps /\ bpushes d = zlen ps /\ zlen ps = Z.max 0 (i - (p + p0 - 2))) /\
      zlen o1 = Z.max 0 (i - (p + p0 + p1 - 3)) /\ zlen o2 = Z.max 0 (i - (p + p0 + p1 - 3)));
      [zl| | |].
    + replace (Z.max 0 (0 - p)) with 0 by zl. replace (Z.max 0 (0 - (p + p0 - 2))) with 0 by zl.
      repeat split; auto; zl.
    + clear k d Hk Hd.
      intros i [[[[[[trail s] s'] k] d] o1] o2] Hi (-> & Hk & Hd & Ho & Ho').
      set (tr := if i >=? p then _ else _).
      assert (Htr : tr = Z.max 0 (i + 1 - p)) by (unfold tr; destruct (i >=? p) eqn:?; lia).
      clearbody tr. mts.
      all: eapply wp_push; [exact Hk|]; intros k' Hk'; wps.
      all: try (eapply wp_push; [exact Hd|]; intros d' Hd'; wps).
      all: try replace (Z.max 0 (i + 1 - (p + p0 - 2))) with (Z.max 0 (i - (p + p0 - 2)) + 1) by zl.
      all: try replace (Z.max 0 (i + 1 - (p + p0 - 2))) with (Z.max 0 (i - (p + p0 - 2))) by zl.
      all: repeat split; auto; zl.
    + intros [[[[[[trail s] s'] k'] d'] o1] o2] (_ & _ & _ & Ho & Ho'). okay.
Qed.
End C.

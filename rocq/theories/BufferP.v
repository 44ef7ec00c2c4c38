(** ti_buffer: proofs. *)
From Verif Require Export Ring RSum Tactics.
Section P.
Context {A : Arith}.

Lemma mod_succ n s : 0 < s -> (n + 1) mod s = if n mod s + 1 >=? s then 0 else n mod s + 1.
Proof.
  intros H. pose proof (Z.mod_pos_bound n s H). pose proof (Z.div_mod n s ltac:(lia)).
  destruct (n mod s + 1 >=? s) eqn:E; symmetry.
  - apply Zmod_unique_full with (q := n / s + 1); [left; lia|lia].
  - apply Zmod_unique_full with (q := n / s); [left; lia|lia].
Qed.

(** The slots hold the last [size] values of [ps] (all values put in so far). *)
Definition slots_ok (b : buffer) (size : Z) (ps : list T) : Prop :=
  0 < size /\ bsize b = size /\ bindex b = zlen ps mod size /\ zlen (bvals b) = size /\
  forall j, 0 <= j < zlen ps -> zlen ps - size <= j -> zn None (bvals b) (j mod size) = Some (zf ps j).

Lemma buffer_new_ok size : 1 <= size <= 268435452 ->
  exists b, buffer_new size = Ok b /\ slots_ok b size [] /\ bpushes b = 0 /\ bsum b = #0.
Proof.
  intros H. unfold buffer_new. rewrite ck_ok by zl. cbn [bind]. rewrite ck_ok by zl. cbn [bind].
  replace (0 <=? 32 + (size - 1) * 8) with true by lia. cbn [check bind].
  eexists; split; [reflexivity|]. repeat split; cbn; try lia.
  rewrite zlen_repeat. lia.
Qed.

Lemma slots_push size ps vals v :
  0 < size -> zlen vals = size ->
  (forall j, 0 <= j < zlen ps -> zlen ps - size <= j -> zn None vals (j mod size) = Some (zf ps j)) ->
  forall j, 0 <= j < zlen (ps ++ [v]) -> zlen (ps ++ [v]) - size <= j ->
  zn None (upd_nat vals (Z.to_nat (zlen ps mod size)) (Some v)) (j mod size) = Some (zf (ps ++ [v]) j).
Proof.
  intros Hs Hl H j Hj Hj2. pose proof (Z.mod_pos_bound (zlen ps) size Hs). pose proof (Z.mod_pos_bound j size Hs).
  rewrite zlen_snoc in *. rewrite zn_upd_nat by lia.
  destruct (Z.eq_dec j (zlen ps)) as [->|N].
  - rewrite Z.eqb_refl. unfold zf. rewrite zn_snoc. reflexivity.
  - replace (j mod size =? zlen ps mod size) with false.
    + unfold zf. rewrite zn_app1 by lia. apply H; lia.
    + symmetry. apply Z.eqb_neq. intros E.
      pose proof (Z.div_mod j size ltac:(lia)). pose proof (Z.div_mod (zlen ps) size ltac:(lia)).
      assert (size * (zlen ps / size - j / size) = zlen ps - j) by lia.
      assert (0 < zlen ps - j < size) by lia. assert (0 < zlen ps / size - j / size < 1) by nia. lia.
Qed.

Lemma buffer_qpush_ok b size ps v : slots_ok b size ps ->
  exists b', buffer_qpush b v = Ok b' /\ slots_ok b' size (ps ++ [v]) /\
    bpushes b' = bpushes b /\ bsum b' = bsum b.
Proof.
  intros (H0 & H1 & H2 & H3 & H4). pose proof (Z.mod_pos_bound (zlen ps) size H0).
  unfold buffer_qpush. rewrite upd_ok by lia. cbn [bind]. eexists; split; [reflexivity|].
  unfold slots_ok; cbn [bsize bindex bvals bpushes bsum]. repeat split; try assumption.
  - rewrite H1, H2, zlen_snoc. symmetry. apply mod_succ; assumption.
  - unfold zlen in *. rewrite zlen_upd_nat. assumption.
  - intros j. rewrite H2. apply slots_push; assumption.
Qed.

(** The running sum as the code computes it. *)
Definition push_sum (size : Z) (ps : list T) (s v : T) : T :=
  (if zlen ps >=? size then s .- zf ps (zlen ps - size) else s) .+ v.

Lemma buffer_push_ok b size ps v : slots_ok b size ps -> bpushes b = zlen ps ->
  exists b', buffer_push b v = Ok b' /\ slots_ok b' size (ps ++ [v]) /\
    bpushes b' = zlen (ps ++ [v]) /\ bsum b' = push_sum size ps (bsum b) v.
Proof.
  intros (H0 & H1 & H2 & H3 & H4) Hc. pose proof (Z.mod_pos_bound (zlen ps) size H0).
  pose proof (zlen_nonneg ps) as Hn.
  unfold buffer_push, push_sum. rewrite Hc, H1, H2.
  assert (Hold : zlen ps >=? size = true -> rdo (bvals b) (zlen ps mod size) = Ok (zf ps (zlen ps - size))).
  { intros E. unfold rdo. rewrite (rd_ok None) by lia. cbn [bind].
    replace (zlen ps mod size) with ((zlen ps - size) mod size).
    - rewrite H4 by lia. reflexivity.
    - replace (zlen ps - size) with (zlen ps + (-1) * size) by lia. apply Z.mod_add; lia. }
  destruct (zlen ps >=? size) eqn:E.
  - rewrite Hold by reflexivity. cbn [bind]. rewrite upd_ok by lia. cbn [bind].
    eexists; split; [reflexivity|]. unfold slots_ok; cbn [bsize bindex bvals bpushes bsum].
    rewrite !zlen_snoc. repeat split; try assumption; try lia.
    + symmetry. apply mod_succ; assumption.
    + unfold zlen in *. rewrite zlen_upd_nat. assumption.
    + intros j Hj1 Hj2. apply slots_push; rewrite ?zlen_snoc; assumption.
  - cbn [bind]. rewrite upd_ok by lia. cbn [bind].
    eexists; split; [reflexivity|]. unfold slots_ok; cbn [bsize bindex bvals bpushes bsum].
    rewrite !zlen_snoc. repeat split; try assumption; try lia.
    + symmetry. apply mod_succ; assumption.
    + unfold zlen in *. rewrite zlen_upd_nat. assumption.
    + intros j Hj1 Hj2. apply slots_push; rewrite ?zlen_snoc; assumption.
Qed.

(** get(-k) *)
Lemma buffer_get_ok b size ps k : slots_ok b size ps -> 0 <= k < size -> k < zlen ps ->
  buffer_get b (- k) = Ok (zf ps (zlen ps - 1 - k)).
Proof.
  intros (H0 & H1 & H2 & H3 & H4) Hk Hk2. pose proof (Z.mod_pos_bound (zlen ps) size H0).
  unfold buffer_get. rewrite H1. replace (size =? 0) with false by lia. cbn [negb check bind].
  rewrite H2. rewrite Z.rem_mod_nonneg by lia.
  replace ((zlen ps mod size + size - 1 + - k) mod size) with ((zlen ps - 1 - k) mod size).
  - pose proof (Z.mod_pos_bound (zlen ps - 1 - k) size H0).
    unfold rdo. rewrite (rd_ok None) by lia. cbn [bind]. rewrite H4 by lia. reflexivity.
  - pose proof (Z.div_mod (zlen ps) size ltac:(lia)).
    replace (zlen ps - 1 - k) with (zlen ps mod size + size - 1 + - k + (zlen ps / size - 1) * size) by lia.
    apply Z.mod_add; lia.
Qed.

(** get(-size+1+1)-style access: [buffer_get b v] with v = -(size-1) is the oldest value;
    v = 1 addresses the slot to be overwritten next, i.e. the same oldest value. *)
Lemma buffer_get_next b size ps : slots_ok b size ps -> size <= zlen ps ->
  buffer_get b 1 = Ok (zf ps (zlen ps - size)).
Proof.
  intros (H0 & H1 & H2 & H3 & H4) Hk. pose proof (Z.mod_pos_bound (zlen ps) size H0).
  unfold buffer_get. rewrite H1. replace (size =? 0) with false by lia. cbn [negb check bind].
  rewrite H2. rewrite Z.rem_mod_nonneg by lia.
  replace ((zlen ps mod size + size - 1 + 1) mod size) with ((zlen ps - size) mod size).
  - pose proof (Z.mod_pos_bound (zlen ps - size) size H0).
    unfold rdo. rewrite (rd_ok None) by lia. cbn [bind]. rewrite H4 by lia. reflexivity.
  - pose proof (Z.div_mod (zlen ps) size ltac:(lia)).
    replace (zlen ps - size) with (zlen ps mod size + size - 1 + 1 + (zlen ps / size - 2) * size) by lia.
    apply Z.mod_add; lia.
Qed.

(** Any sequence of pushes. *)
Fixpoint push_all (b : buffer) (ps : list T) : res buffer :=
  match ps with [] => Ok b | v :: t => let* b := buffer_push b v in push_all b t end.
Fixpoint qpush_all (b : buffer) (ps : list T) : res buffer :=
  match ps with [] => Ok b | v :: t => let* b := buffer_qpush b v in qpush_all b t end.

Lemma push_all_ok b size done ps : slots_ok b size done -> bpushes b = zlen done ->
  exists b', push_all b ps = Ok b' /\ slots_ok b' size (done ++ ps) /\ bpushes b' = zlen (done ++ ps).
Proof.
  revert b done; induction ps as [|v ps IH]; intros b done Hs Hc; cbn [push_all].
  - rewrite app_nil_r. exists b; auto.
  - destruct (buffer_push_ok b size done v Hs Hc) as (b' & E & Hs' & Hc' & _).
    rewrite E. cbn [bind]. destruct (IH b' (done ++ [v]) Hs' Hc') as (b'' & E' & Hr).
    rewrite <- app_assoc in Hr. exists b''. split; [exact E'|exact Hr].
Qed.
Lemma qpush_all_ok b size done ps : slots_ok b size done ->
  exists b', qpush_all b ps = Ok b' /\ slots_ok b' size (done ++ ps).
Proof.
  revert b done; induction ps as [|v ps IH]; intros b done Hs; cbn [qpush_all].
  - rewrite app_nil_r. exists b; auto.
  - destruct (buffer_qpush_ok b size done v Hs) as (b' & E & Hs' & _).
    rewrite E. cbn [bind]. destruct (IH b' (done ++ [v]) Hs') as (b'' & E' & Hr).
    rewrite <- app_assoc in Hr. exists b''. split; [exact E'|exact Hr].
Qed.

Lemma buffer_history size ps : 1 <= size <= 268435452 ->
  exists b0 b b', buffer_new size = Ok b0 /\ push_all b0 ps = Ok b /\ qpush_all b0 ps = Ok b' /\
    forall k, 0 <= k < size -> k < zlen ps ->
      buffer_get b (- k) = Ok (zf ps (zlen ps - 1 - k)) /\
      buffer_get b' (- k) = Ok (zf ps (zlen ps - 1 - k)).
Proof.
  intros H. destruct (buffer_new_ok size H) as (b0 & E0 & Hs & Hc & _).
  destruct (push_all_ok b0 size [] ps Hs Hc) as (b & E & Hb & _).
  destruct (qpush_all_ok b0 size [] ps Hs) as (b' & E' & Hb').
  exists b0, b, b'. repeat split; try assumption; eapply buffer_get_ok; eauto.
Qed.

Lemma buffer_history_rev size ps : 1 <= size <= 268435452 ->
  exists b0 b b', buffer_new size = Ok b0 /\ push_all b0 ps = Ok b /\ qpush_all b0 ps = Ok b' /\
    forall k, 0 <= k < size -> k < zlen ps ->
      buffer_get b (- k) = Ok (nth (Z.to_nat k) (rev ps) #0) /\
      buffer_get b' (- k) = Ok (nth (Z.to_nat k) (rev ps) #0).
Proof.
  intros H. destruct (buffer_history size ps H) as (b0 & b & b' & E0 & E1 & E2 & G).
  exists b0, b, b'. repeat (split; [assumption|]). intros k Hk Hk2. specialize (G k Hk Hk2).
  unfold zlen in Hk2. rewrite rev_nth by lia.
  replace (length ps - S (Z.to_nat k))%nat with (Z.to_nat (zlen ps - 1 - k)) by (unfold zlen; lia). exact G.
Qed.
End P.

(** Exact arithmetic: the running sum is the sum of the last min(pushes, size) values. *)
Definition last_n {B} (n : Z) (l : list B) : list B := skipn (length l - Z.to_nat n) l.

Lemma nth_skipn' {B} (d : B) m n l : nth n (skipn m l) d = nth (m + n) l d.
Proof. revert l; induction m as [|m IH]; intros [|x l]; cbn; auto. destruct n; reflexivity. Qed.

Lemma last_n_tab {B} (d : B) n l : 0 <= n -> last_n n l = tab (Z.max 0 (zlen l - n)) (zlen l) (zn d l).
Proof.
  intros H. apply (list_eq_zn d).
  - rewrite zlen_tab. unfold last_n, zlen. rewrite skipn_length. lia.
  - intros i Hi. unfold last_n, zlen in Hi. rewrite skipn_length in Hi.
    rewrite zn_tab by (unfold zlen; lia). unfold last_n, zn.
    rewrite nth_skipn'. f_equal. unfold zlen. lia.
Qed.

Lemma Rsum_last_n n (l : list R) : 0 <= n ->
  Rsum (last_n n l) = zsum (Z.max 0 (zlen l - n)) (zlen l) (zn 0%R l).
Proof. intros H. rewrite (last_n_tab 0%R) by lia. reflexivity. Qed.

Lemma push_all_sum (b : @buffer RA) size done ps b' :
  slots_ok b size done -> bpushes b = zlen done -> bsum b = Rsum (last_n size done) ->
  push_all b ps = Ok b' -> bsum b' = Rsum (last_n size (done ++ ps)).
Proof.
  revert b done; induction ps as [|v ps IH]; intros b done Hs Hc Hsum; cbn [push_all].
  - rewrite app_nil_r. intros E; injection E as <-. exact Hsum.
  - destruct (buffer_push_ok b size done v Hs Hc) as (b1 & E & Hs' & Hc' & Hsum').
    rewrite E. cbn [bind]. intros E'.
    replace (done ++ v :: ps) with ((done ++ [v]) ++ ps) by (rewrite <- app_assoc; reflexivity).
    apply (IH b1 (done ++ [v]) Hs' Hc'); [|exact E'].
    rewrite Hsum', Hsum. unfold push_sum. change (@T RA) with R in *. assert (0 < size) by apply Hs. pose proof (zlen_nonneg done) as Hn.
    rewrite !Rsum_last_n by lia. rewrite zlen_snoc.
    set (lo' := Z.max 0 (zlen done + 1 - size)).
    assert (Hlo : 0 <= lo' <= zlen done) by (unfold lo'; lia).
    rewrite zsum_snoc by lia. rewrite zn_snoc.
    rewrite (zsum_ext lo' (zlen done) (zn 0%R (done ++ [v])) (zn 0%R done)) by (intros i Hi; apply zn_app1; lia).
    cbn [fadd fsub RA]. f_equal. unfold lo'.
    destruct (zlen done >=? size) eqn:Es.
    + rewrite (zsum_cons (Z.max 0 (zlen done - size))) by lia. unfold zf, f0. cbn [of_Z RA].
      replace (Z.max 0 (zlen done - size)) with (zlen done - size) by lia.
      replace (Z.max 0 (zlen done + 1 - size)) with (zlen done - size + 1) by lia. change (@T RA) with R. lra.
    + replace (Z.max 0 (zlen done - size)) with (Z.max 0 (zlen done + 1 - size)) by lia. reflexivity.
Qed.

Lemma buffer_sum size (ps : list R) : 1 <= size <= 268435452 ->
  exists b0 b : @buffer RA, buffer_new size = Ok b0 /\ push_all b0 ps = Ok b /\
    bsum b = Rsum (last_n size ps).
Proof.
  intros H. destruct (buffer_new_ok size H) as (b0 & E0 & Hs & Hc & H0).
  destruct (push_all_ok b0 size [] ps Hs Hc) as (b & E & _).
  exists b0, b. repeat split; try assumption.
  apply (push_all_sum b0 size [] ps b Hs Hc H0 E).
Qed.

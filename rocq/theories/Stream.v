(** Streaming functions: the loop shape they share and the theorems that follow from it.

    A [ti_X_stream_run] consists of consecutive loops
      [for (; progress < c && i < size; ++i, ++progress) body;]
    ending with [for (; i < size; ++i, ++progress) body;], and stores the locals back into the
    stream object.  With i = 0 at the start, [progress < c] is [i < c - progress0], so a loop
    is described by its bound on [i] and its body; a body maps the bar index and the state to
    the new state and the values written to each output. *)
From Verif Require Export Tactics.

(** ti_stream (codegen.py:113-116) plus the indicator's own members. *)
Record stream (S : Type) := { progress : Z; core : S }.
Arguments progress {S}. Arguments core {S}. Arguments Build_stream {S}.

Section S.
Context {A : Arith}.

Definition body (S : Type) := Z -> S -> res (S * list (list T)).

(** [for (i = lo; i < hi; ++i) body], collecting what is written. *)
Definition emits {S} (lo hi : Z) (b : body S) (so : S * list (list T)) : res (S * list (list T)) :=
  for_ lo hi (fun i '(s, o) => let* (s', e) := b i s in Ok (s', zapp o e)) so.

(** Consecutive loops: all but the last have a bound of their own besides [size]. *)
Record loops (S : Type) := { bounded : list (Z * body S); final : body S }.
Fixpoint phases {S} (size : Z) (ps : list (Z * body S)) (last : body S) (i : Z) (so : S * list (list T))
  : res (S * list (list T)) :=
  match ps with
  | [] => emits i size last so
  | (c, b) :: ps => let j := Z.max i (Z.min c size) in
      let* so := emits i j b so in phases size ps last j so
  end.

(** Run the loops over a chunk with [nout] outputs. *)
Definition run_loops {S} (nout : nat) (size : Z) (l : loops S) (s : S) : res (S * list (list T)) :=
  phases size (bounded _ l) (final _ l) 0 (s, repeat [] nout).

(** A stream's run function, given its loops as a function of the constants kept in the stream
    object, the progress counter on entry, and the chunk. *)
Definition mkrun {K S} (nout : nat) (ph : K -> Z -> list (list T) -> loops S) : runfn (stream (K * S)) :=
  fun ptr size inputs =>
    let '(k, s) := core ptr in
    let* (s', o) := run_loops nout size (ph k (progress ptr) inputs) s in
    Ok (OKAY, {| progress := progress ptr + size; core := (k, s') |}, o).

(** Wrong number of inputs. *)
Definition bad_loops {S} : loops S := {| bounded := []; final := fun _ _ => Ub BadArgs |}.

Lemma zind (P : Z -> Prop) lo hi : lo <= hi -> P lo -> (forall m, lo <= m < hi -> P m -> P (m + 1)) -> P hi.
Proof.
  intros H H0 Hs. assert (G : forall n : nat, lo + Z.of_nat n <= hi -> P (lo + Z.of_nat n)).
  { induction n as [|n IH]; intros Hn; [rewrite Z.add_0_r; exact H0|].
    replace (lo + Z.of_nat (Datatypes.S n)) with (lo + Z.of_nat n + 1) by lia. apply Hs; [lia|apply IH; lia]. }
  replace hi with (lo + Z.of_nat (Z.to_nat (hi - lo))) by lia. apply G. lia.
Qed.

(** ** Which loop handles bar [i] *)
Fixpoint dispatch' {S} (ps : list (Z * body S)) (last : body S) : body S := fun i s =>
  match ps with
  | [] => last i s
  | (c, b) :: ps => if i <? c then b i s else dispatch' ps last i s
  end.
Definition dispatch {S} (l : loops S) : body S := dispatch' (bounded _ l) (final _ l).

Lemma emits_ext {S} lo hi (b b' : body S) so : (forall i s, lo <= i < hi -> b i s = b' i s) -> emits lo hi b so = emits lo hi b' so.
Proof. intros H. apply for_ext. intros i [s o] Hi. rewrite H by exact Hi. reflexivity. Qed.
Lemma emits_split {S} lo mid hi (b : body S) so : lo <= mid <= hi ->
  emits lo hi b so = bind (emits lo mid b so) (emits mid hi b).
Proof. intros H. apply for_split. exact H. Qed.

Lemma phases_dispatch {S} size ps (last : body S) i so : i <= size ->
  phases size ps last i so = emits i size (dispatch' ps last) so.
Proof.
  revert i so. induction ps as [|[c b] ps IH]; intros i so Hi; cbn [phases].
  - reflexivity.
  - set (j := Z.max i (Z.min c size)).
    rewrite (emits_split i j size) by lia.
    rewrite (emits_ext i j (dispatch' ((c, b) :: ps) last) b).
    + apply bind_ext. intros so'. rewrite IH by lia. apply emits_ext.
      intros k s Hk. cbn [dispatch']. replace (k <? c) with false by lia. reflexivity.
    + intros k s Hk. cbn [dispatch']. replace (k <? c) with true by lia. reflexivity.
Qed.
Lemma run_loops_dispatch {S} nout size (l : loops S) s : 0 <= size ->
  run_loops nout size l s = emits 0 size (dispatch l) (s, repeat [] nout).
Proof. apply phases_dispatch. Qed.

(** ** Output blocks *)
Lemma zapp_assoc a b c : zapp a (zapp b c) = zapp (zapp a b) c.
Proof.
  revert b c. induction a as [|x a IH]; intros [|y b] [|z c]; cbn; try reflexivity.
  rewrite IH, app_assoc. reflexivity.
Qed.
Lemma zapp_nil_l n e : (length e <= n)%nat -> zapp (repeat [] n) e = e.
Proof. revert e. induction n as [|n IH]; intros [|x e] H; cbn in *; try reflexivity; try lia. rewrite IH by lia. reflexivity. Qed.
Lemma zapp_nil_r n e : (length e <= n)%nat -> zapp e (repeat [] n) = e.
Proof. revert e. induction n as [|n IH]; intros [|x e] H; cbn in *; try reflexivity; try lia. rewrite IH, app_nil_r by lia. reflexivity. Qed.
Lemma zapp_length a b : length (zapp a b) = Nat.min (length a) (length b).
Proof. revert b. induction a as [|x a IH]; intros [|y b]; cbn; auto. Qed.
Lemma zapp_prefix a b : length a = length b -> Forall2 prefix_of a (zapp a b).
Proof. revert b. induction a as [|x a IH]; intros [|y b] H; cbn in *; try lia; constructor; [exists y; reflexivity|apply IH; lia]. Qed.

Lemma emits_app {S} n lo hi (b : body S) s o : (length o <= n)%nat ->
  emits lo hi b (s, o) = let* (s', o') := emits lo hi b (s, repeat [] n) in Ok (s', zapp o o').
Proof.
  intros Ho.
  assert (G : forall m i s o e, (length o <= n)%nat ->
    iter m i (fun i '(s, o) => let* (s', e) := b i s in Ok (s', zapp o e)) (s, zapp o e) =
    let* (s', o') := iter m i (fun i '(s, o) => let* (s', e) := b i s in Ok (s', zapp o e)) (s, e) in Ok (s', zapp o o')).
  { clear. induction m as [|m IH]; intros i s o e Ho; cbn [iter bind]; [reflexivity|].
    destruct (b i s) as [[s1 e1]|u]; cbn [bind]; [|reflexivity]. rewrite <- zapp_assoc. apply IH. exact Ho. }
  unfold emits, for_. rewrite <- G by exact Ho. rewrite zapp_nil_r by exact Ho. reflexivity.
Qed.
Lemma emits_len {S} n lo hi (b : body S) s s' o o' : (length o <= n)%nat -> emits lo hi b (s, o) = Ok (s', o') -> (length o' <= n)%nat.
Proof.
  unfold emits, for_. generalize (Z.to_nat (hi - lo)) as m. intros m. revert lo s o.
  induction m as [|m IH]; intros i s o Ho; cbn [iter bind]; [intros [= <- <-]; exact Ho|].
  destruct (b i s) as [[s1 e1]|u]; cbn [bind]; [|discriminate]. apply IH. rewrite zapp_length. lia.
Qed.

(** ** Chunking *)
Definition onebar (inputs : list (list T)) (j : Z) : list (list T) := map (fun x => [zf x j]) inputs.

(** A stream is online when bar [j] of a chunk is treated as the only bar of a one-bar chunk
    that starts [j] bars later. *)
Definition online {K S} (nin : nat) (ph : K -> Z -> list (list T) -> loops S) : Prop :=
  forall k p inputs size j s, length inputs = nin -> Forall (fun x => zlen x = size) inputs -> 0 <= j < size ->
    dispatch (ph k p inputs) j s = dispatch (ph k (p + j) (onebar inputs j)) 0 s.

Lemma csize_zapp a b : length a = length b -> csize (zapp a b) = csize a + csize b.
Proof. destruct a as [|x a], b as [|y b]; cbn; try discriminate; [reflexivity|]. intros _. apply zlen_app. Qed.
Lemma glue_length n cs : Forall (chunk_ok n) cs -> length (glue n cs) = n.
Proof.
  induction 1 as [|c cs [H _] Hcs IH]; cbn [glue]; [apply repeat_length|].
  rewrite zapp_length, IH, H. apply Nat.min_id.
Qed.
Lemma zapp_Forall a b n m : length a = length b -> Forall (fun l => zlen l = n) a -> Forall (fun l => zlen l = m) b ->
  Forall (fun l => zlen l = n + m) (zapp a b).
Proof.
  revert b. induction a as [|x a IH]; intros [|y b] H Ha Hb; cbn in *; try discriminate; constructor.
  - inversion Ha; inversion Hb; subst. apply zlen_app.
  - inversion Ha; inversion Hb; subst. apply IH; auto.
Qed.
Lemma glue_ok n cs : Forall (chunk_ok n) cs -> chunk_ok n (glue n cs).
Proof.
  intros H. split; [apply glue_length; exact H|].
  induction H as [|c cs [H1 H2] Hcs IH]; cbn [glue].
  - apply Forall_forall. intros x Hx. apply repeat_spec in Hx. subst x. destruct n; reflexivity.
  - assert (E : length c = length (glue n cs)) by (rewrite glue_length; auto).
    rewrite csize_zapp by exact E. apply zapp_Forall; auto.
Qed.
Lemma csize_nonneg c : 0 <= csize c.
Proof. destruct c; cbn; [lia|apply zlen_nonneg]. Qed.
Lemma chunk_wf nin c : chunk_ok nin c -> csize c <= INT_MAX -> wf nin (csize c) c.
Proof. intros [H1 H2] H. pose proof (csize_nonneg c). repeat split; auto; lia. Qed.

Lemma onebar_zapp1 a b n j : length a = length b -> Forall (fun l => zlen l = n) a -> 0 <= j < n ->
  onebar (zapp a b) j = onebar a j.
Proof.
  revert b. induction a as [|x a IH]; intros [|y b] H Ha Hj; cbn in *; try discriminate; [reflexivity|].
  inversion Ha; subst. f_equal; [|apply IH; auto]. unfold zf. rewrite zn_app1 by lia. reflexivity.
Qed.
Lemma onebar_zapp2 a b n j : length a = length b -> Forall (fun l => zlen l = n) a -> n <= j ->
  onebar (zapp a b) j = onebar b (j - n).
Proof.
  revert b. induction a as [|x a IH]; intros [|y b] H Ha Hj; cbn in *; try discriminate; [reflexivity|].
  inversion Ha; subst. f_equal; [|apply IH; auto]. unfold zf. rewrite zn_app2 by lia. reflexivity.
Qed.

(** One chunk after another is the same as the two glued together. *)
Lemma online_app {K S} nin nout (ph : K -> Z -> list (list T) -> loops S) k p a b s :
  online nin ph -> chunk_ok nin a -> chunk_ok nin b ->
  run_loops nout (csize (zapp a b)) (ph k p (zapp a b)) s =
  let* (s1, o1) := run_loops nout (csize a) (ph k p a) s in
  let* (s2, o2) := run_loops nout (csize b) (ph k (p + csize a) b) s1 in Ok (s2, zapp o1 o2).
Proof.
  intros Hon [La Fa] [Lb Fb]. pose proof (csize_nonneg a) as Na. pose proof (csize_nonneg b) as Nb.
  assert (E : length a = length b) by congruence.
  rewrite csize_zapp by exact E. rewrite !run_loops_dispatch by lia.
  rewrite (emits_split 0 (csize a) (csize a + csize b)) by lia.
  assert (Lz : length (zapp a b) = nin) by (rewrite zapp_length; lia).
  assert (Fz : Forall (fun x => zlen x = csize a + csize b) (zapp a b)) by (apply zapp_Forall; auto).
  rewrite (emits_ext 0 (csize a) _ (dispatch (ph k p a))).
  2:{ intros j s0 Hj. rewrite (Hon k p (zapp a b) (csize a + csize b) j) by (auto; lia).
      rewrite (Hon k p a (csize a) j) by (auto; lia). rewrite (onebar_zapp1 a b (csize a)) by auto. reflexivity. }
  destruct (emits 0 (csize a) (dispatch (ph k p a)) (s, repeat [] nout)) as [[s1 o1]|u] eqn:E1; cbn [bind]; [|reflexivity].
  apply emits_len with (n := nout) in E1; [|rewrite repeat_length; lia].
  rewrite (emits_app nout) by exact E1. rewrite run_loops_dispatch by lia.
  replace (emits (csize a) (csize a + csize b) (dispatch (ph k p (zapp a b))) (s1, repeat [] nout))
    with (emits 0 (csize b) (dispatch (ph k (p + csize a) b)) (s1, repeat [] nout)); [reflexivity|].
  symmetry. unfold emits. replace (csize a + csize b) with (csize b + csize a) by lia. rewrite <- (Z.add_0_l (csize a)) at 1.
  rewrite for_shift. apply for_ext. intros j [s0 o0] Hj.
  rewrite (Hon k p (zapp a b) (csize a + csize b) (j + csize a)) by (auto; lia).
  rewrite (Hon k (p + csize a) b (csize b) j) by (auto; lia). rewrite (onebar_zapp2 a b (csize a)) by (auto; lia).
  replace (j + csize a - csize a) with j by lia. replace (p + csize a + j) with (p + (j + csize a)) by lia. reflexivity.
Qed.

Theorem feed_whole {K S} nin nout (ph : K -> Z -> list (list T) -> loops S) k p s chunks :
  (1 <= nin)%nat -> online nin ph -> Forall (chunk_ok nin) chunks ->
  feed (mkrun nout ph) nout {| progress := p; core := (k, s) |} chunks =
  let* (s', o) := run_loops nout (csize (glue nin chunks)) (ph k p (glue nin chunks)) s in
  Ok ({| progress := p + csize (glue nin chunks); core := (k, s') |}, o).
Proof.
  intros Hn Hon Hc. revert p s. induction Hc as [|c cs H Hcs IH]; intros p s; cbn [feed glue].
  - replace (csize (repeat [] nin)) with 0 by (destruct nin; reflexivity).
    rewrite run_loops_dispatch by lia. unfold emits. rewrite for_nil by lia. cbn [bind]. rewrite Z.add_0_r. reflexivity.
  - rewrite (online_app nin nout ph) by (auto using glue_ok). unfold mkrun at 1. cbn [core progress].
    destruct (run_loops nout (csize c) (ph k p c) s) as [[s1 o1]|u] eqn:E; cbn [bind]; [|reflexivity].
    rewrite IH. destruct (run_loops nout (csize (glue nin cs)) (ph k (p + csize c) (glue nin cs)) s1) as [[s2 o2]|u]; cbn [bind]; [|reflexivity].
    rewrite csize_zapp by (rewrite glue_length by auto; apply H). rewrite Z.add_assoc. reflexivity.
Qed.

(** ** Batch and stream in lock step *)
(** What one bar may write: nothing to any output, or one value to each. *)
Definition emitted (nout : nat) (b : bool) (e : list (list T)) : Prop :=
  length e = nout /\ Forall (fun l => zlen l = if b then 1 else 0) e.

Lemma zapp_emitted nout n b o e : length o = nout -> Forall (fun l => zlen l = n) o -> emitted nout b e ->
  length (zapp o e) = nout /\ Forall (fun l => zlen l = n + if b then 1 else 0) (zapp o e).
Proof.
  intros H1 H2 [H3 H4]. split; [rewrite zapp_length; lia|]. apply zapp_Forall; auto; congruence.
Qed.
Lemma Forall_repeat {X} (P : X -> Prop) x n : P x -> Forall P (repeat x n).
Proof. intros H. apply Forall_forall. intros y Hy. apply repeat_spec in Hy. subst. exact H. Qed.

Lemma emits_sim {S1 S2} (R : Z -> S1 -> S2 -> Prop) (b1 : body S1) (b2 : body S2) nout st size s1 s2 :
  0 <= size -> 0 <= st -> R 0 s1 s2 ->
  (forall i s1 s2, 0 <= i < size -> R i s1 s2 ->
    wp (b1 i s1) (fun r1 => wp (b2 i s2) (fun r2 =>
      snd r1 = snd r2 /\ emitted nout (st <=? i) (snd r1) /\ R (i + 1) (fst r1) (fst r2)))) ->
  exists s1' s2' o,
    emits 0 size b1 (s1, repeat [] nout) = Ok (s1', o) /\ emits 0 size b2 (s2, repeat [] nout) = Ok (s2', o) /\
    R size s1' s2' /\ length o = nout /\ Forall (fun l => zlen l = Z.max 0 (size - st)) o.
Proof.
  intros Hs Hst H0 Hstep.
  apply (zind (fun m => exists s1' s2' o,
    emits 0 m b1 (s1, repeat [] nout) = Ok (s1', o) /\ emits 0 m b2 (s2, repeat [] nout) = Ok (s2', o) /\
    R m s1' s2' /\ length o = nout /\ Forall (fun l => zlen l = Z.max 0 (m - st)) o) 0 size Hs).
  - exists s1, s2, (repeat [] nout). unfold emits. rewrite !for_nil by lia. repeat split; auto; [apply repeat_length|].
    apply Forall_repeat. rewrite zlen_nil. lia.
  - intros m Hm (a & c & o & E1 & E2 & HR & Ho & Hf). specialize (Hstep m a c ltac:(lia) HR).
    unfold emits in *. rewrite !for_snoc by lia. rewrite E1, E2. cbn [bind].
    destruct (b1 m a) as [[a' e1]|u]; cbn [wp] in Hstep; [|contradiction].
    destruct (b2 m c) as [[c' e2]|u]; cbn [wp fst snd] in Hstep; [|contradiction].
    destruct Hstep as (-> & He & HR'). cbn [bind]. exists a', c', (zapp o e2).
    destruct (zapp_emitted nout _ _ o e2 Ho Hf He) as [G1 G2]. repeat split; auto.
    eapply Forall_impl; [|exact G2]. intros l Hl. cbn beta in Hl. destruct (st <=? m) eqn:E; lia.
Qed.

(** The batch function [f] and the loops [ph] of a stream decide alike on the options and
    write the same values, for every whole series satisfying [ok]. *)
Definition sim {K S} (nin nout : nat) (os : optspec) (ok : list (list T) -> Prop)
    (start : startfn) (f : batchfn) (new : newfn (stream (K * S))) (ph : K -> Z -> list (list T) -> loops S) : Prop :=
  forall options v, os options v ->
    match v with
    | Accept st => start options = Ok st /\ 0 <= st /\
      exists k s0, new options = Ok (OKAY, Some {| progress := - st; core := (k, s0) |}) /\
      forall size inputs, wf nin size inputs -> ok inputs ->
        exists s' outs, f size inputs options = Ok (OKAY, outs) /\
          run_loops nout size (ph k (- st) inputs) s0 = Ok (s', outs) /\
          length outs = nout /\ Forall (fun o => zlen o = Z.max 0 (size - st)) outs
    | Reject => new options = Ok (INVALID_OPTION, None) /\
        forall size inputs, wf nin size inputs -> f size inputs options = Ok (INVALID_OPTION, repeat [] nout)
    | Outside => True
    end.

Section Consequences.
Context {K S : Type} (nin nout : nat) (os : optspec) (ok : list (list T) -> Prop)
  (start : startfn) (f : batchfn) (new : newfn (stream (K * S))) (ph : K -> Z -> list (list T) -> loops S).
Hypothesis Hsim : sim nin nout os ok start f new ph.
Hypothesis Hon : online nin ph.

Lemma sim_stream_if : stream_is_batch_if nin nout (accepted os) ok f new (mkrun nout ph).
Proof.
  intros options chunks [st Hd] Hn Hc Hok Hsz.
  destruct (Hsim options _ Hd) as (Hst & Hst0 & k & s0 & Hnew & Hrun).
  destruct (Hrun _ _ (chunk_wf nin _ (glue_ok _ _ Hc) Hsz) Hok) as (s' & outs & H1 & H2 & H3 & H4).
  exists outs, {| progress := - st; core := (k, s0) |}. eexists.
  repeat split; [exact H1|exact Hnew|].
  rewrite (feed_whole nin) by auto. rewrite H2. reflexivity.
Qed.

Lemma sim_progress_if : progress_ok_if nin nout (accepted os) ok start new (mkrun nout ph) progress.
Proof.
  intros options chunks [st Hd] Hn Hc Hok Hsz.
  destruct (Hsim options _ Hd) as (Hst & Hst0 & k & s0 & Hnew & Hrun).
  destruct (Hrun _ _ (chunk_wf nin _ (glue_ok _ _ Hc) Hsz) Hok) as (s' & outs & H1 & H2 & H3 & H4).
  exists {| progress := - st; core := (k, s0) |}, st. do 2 eexists.
  rewrite (feed_whole nin) by auto. rewrite H2. cbn [bind progress].
  repeat split; [exact Hnew|exact Hst|cbn; lia| |exact H3].
  cbn [progress]. eapply Forall_impl; [|exact H4]. intros o Ho. cbn beta in *. lia.
Qed.

Lemma sim_contract : contract_on ok nin nout os start f.
Proof.
  intros size inputs options v Hwf Hv Hok. specialize (Hsim options v Hv). destruct v as [st| |]; [|apply Hsim; exact Hwf|exact I].
  destruct Hsim as (Hst & Hst0 & k & s0 & Hnew & Hrun). split; [exact Hst|].
  destruct (Hrun _ _ Hwf Hok) as (s' & outs & H1 & H2 & H3 & H4). exists outs. auto.
Qed.

Lemma sim_options : same_options nin nout os ok f new.
Proof.
  intros size inputs options v Hwf Hok Hv. specialize (Hsim options v Hv). destruct v as [st| |]; [| |exact I].
  - destruct Hsim as (Hst & Hst0 & k & s0 & Hnew & Hrun).
    destruct (Hrun _ _ Hwf Hok) as (s' & outs & H1 & _). split; eauto.
  - destruct Hsim as [H1 H2]. split; auto.
Qed.

(** The later bars, one list per series. *)
Lemma prefix_split n1 n2 a b : Forall2 prefix_of a b -> Forall (fun l => zlen l = n1) a -> Forall (fun l => zlen l = n2) b ->
  exists c, length c = length a /\ b = zapp a c /\ Forall (fun l : list T => zlen l = n2 - n1) c.
Proof.
  induction 1 as [|x y a b [t Hxy] Hab IH]; intros Ha Hb.
  - exists []. repeat split; constructor.
  - apply Forall_inv_cons in Ha as [Ha1 Ha2]. apply Forall_inv_cons in Hb as [Hb1 Hb2].
    destruct (IH Ha2 Hb2) as (c & Hc1 & Hc2 & Hc3). exists (t :: c). cbn. repeat split; [congruence|congruence|].
    constructor; [|exact Hc3]. subst y. rewrite zlen_app in Hb1. lia.
Qed.

Lemma sim_causal : (1 <= nin)%nat -> causal_on nin (accepted os) ok f.
Proof.
  intros Hn size1 size2 a b options Ha Hb Hab [st Hd] Ho1 Ho2.
  destruct (Hsim options _ Hd) as (Hst & Hst0 & k & s0 & Hnew & Hrun).
  destruct (Hrun _ _ Ha Ho1) as (s1 & o1 & A1 & A2 & A3 & A4).
  destruct (Hrun _ _ Hb Ho2) as (s2 & o2 & B1 & B2 & B3 & B4).
  exists o1, o2. split; [exact A1|]. split; [exact B1|].
  destruct Ha as (La & Fa & Sa), Hb as (Lb & Fb & Sb).
  destruct (prefix_split size1 size2 a b Hab Fa Fb) as (c & Lc & Eb & Fc).
  assert (Ca : csize a = size1) by (destruct a; cbn in *; [lia|inversion Fa; auto]).
  assert (Cc : csize c = size2 - size1) by (destruct c; cbn in *; [lia|inversion Fc; auto]).
  assert (Cb : csize b = size2) by (destruct b; cbn in *; [lia|inversion Fb; auto]).
  rewrite <- Cb in B2. rewrite Eb in B2. rewrite (online_app nin nout ph) in B2.
  2: exact Hon. 2: split; [exact La|rewrite Ca; exact Fa]. 2: split; [lia|rewrite Cc; exact Fc].
  rewrite Ca, A2 in B2. cbn [bind] in B2.
  destruct (run_loops nout (csize c) (ph k (- st + size1) c) s1) as [[s3 o3]|u] eqn:E; cbn [bind] in B2; [|discriminate].
  injection B2 as _ <-. apply zapp_prefix.
  rewrite zapp_length in B3. rewrite run_loops_dispatch in E by apply csize_nonneg.
  apply emits_len with (n := nout) in E; [lia|rewrite repeat_length; lia].
Qed.
End Consequences.

(** Ways to obtain the last part of [sim] for a batch function made of loops. *)
Lemma sim_loops {S1 S2} (R : Z -> S1 -> S2 -> Prop) (l1 : loops S1) (l2 : loops S2) nout st size s1 s2 m :
  m = (let* (_, o) := run_loops nout size l1 s1 in Ok (OKAY, o)) ->
  0 <= size -> 0 <= st -> R 0 s1 s2 ->
  (forall i s1 s2, 0 <= i < size -> R i s1 s2 ->
    wp (dispatch l1 i s1) (fun r1 => wp (dispatch l2 i s2) (fun r2 =>
      snd r1 = snd r2 /\ emitted nout (st <=? i) (snd r1) /\ R (i + 1) (fst r1) (fst r2)))) ->
  exists s' outs, m = Ok (OKAY, outs) /\ run_loops nout size l2 s2 = Ok (s', outs) /\
    length outs = nout /\ Forall (fun o => zlen o = Z.max 0 (size - st)) outs.
Proof.
  intros -> Hs Hst H0 Hstep.
  destruct (emits_sim R (dispatch l1) (dispatch l2) nout st size s1 s2 Hs Hst H0 Hstep) as (a & b & o & E1 & E2 & _ & H1 & H2).
  rewrite !run_loops_dispatch by lia. rewrite E1, E2. exists b, o. auto.
Qed.

Lemma sim_same {S1} (I : Z -> S1 -> Prop) (l1 l2 : loops S1) nout st size s1 m :
  m = (let* (_, o) := run_loops nout size l1 s1 in Ok (OKAY, o)) ->
  0 <= size -> 0 <= st -> I 0 s1 ->
  (forall i s, 0 <= i < size -> I i s -> dispatch l2 i s = dispatch l1 i s /\
    wp (dispatch l1 i s) (fun r => emitted nout (st <=? i) (snd r) /\ I (i + 1) (fst r))) ->
  exists s' outs, m = Ok (OKAY, outs) /\ run_loops nout size l2 s1 = Ok (s', outs) /\
    length outs = nout /\ Forall (fun o => zlen o = Z.max 0 (size - st)) outs.
Proof.
  intros Hm Hs Hst H0 Hstep. apply (sim_loops (fun i a b => a = b /\ I i a) l1 l2 nout st size s1 s1 m Hm Hs Hst); [auto|].
  intros i a b Hi [<- HI]. destruct (Hstep i a Hi HI) as [E H]. rewrite E.
  destruct (dispatch l1 i a) as [r|u]; [|exact H]. cbn [wp] in *. destruct H. auto.
Qed.

(** The same for a batch function that returns early on series of at most [st] bars. *)
Lemma sim_loops_guard {S1 S2} (R : Z -> S1 -> S2 -> Prop) (l1 : loops S1) (l2 : loops S2) nout st size s1 s2 m :
  m = (if size <=? st then Ok (OKAY, repeat [] nout) else let* (_, o) := run_loops nout size l1 s1 in Ok (OKAY, o)) ->
  0 <= size -> 0 <= st -> R 0 s1 s2 ->
  (forall i s1 s2, 0 <= i < size -> R i s1 s2 ->
    wp (dispatch l1 i s1) (fun r1 => wp (dispatch l2 i s2) (fun r2 =>
      snd r1 = snd r2 /\ emitted nout (st <=? i) (snd r1) /\ R (i + 1) (fst r1) (fst r2)))) ->
  exists s' outs, m = Ok (OKAY, outs) /\ run_loops nout size l2 s2 = Ok (s', outs) /\
    length outs = nout /\ Forall (fun o => zlen o = Z.max 0 (size - st)) outs.
Proof.
  intros -> Hs Hst H0 Hstep.
  destruct (sim_loops R l1 l2 nout st size s1 s2 _ eq_refl Hs Hst H0 Hstep) as (s' & outs & E1 & E2 & E3 & E4).
  exists s', outs. destruct (size <=? st) eqn:E; [|auto].
  split; [|auto]. do 2 f_equal. rewrite <- E3. clear - E4 E. induction E4 as [|o outs Ho _ IH]; [reflexivity|]. cbn [length repeat].
  f_equal; [|exact IH]. destruct o; [reflexivity|]. exfalso. rewrite zlen_cons in Ho. pose proof (zlen_nonneg o).
  apply Z.leb_le in E. lia.
Qed.

(** ** Run functions written differently *)
(** [run] does what [run'] does on every stream made by [new] from options in [dom]. *)
Definition same_feed {St} (nin nout : nat) (dom : list T -> Prop) (new : newfn St) (run run' : runfn St) : Prop :=
  forall options st chunks, dom options -> new options = Ok (OKAY, Some st) -> Forall (chunk_ok nin) chunks ->
    feed run nout st chunks = feed run' nout st chunks.
Lemma same_feed_stream {St} nin nout dom ok f (new : newfn St) run run' : same_feed nin nout dom new run run' ->
  stream_is_batch_if nin nout dom ok f new run' -> stream_is_batch_if nin nout dom ok f new run.
Proof.
  intros Hf H options chunks Hd Hn Hc Ho Hs. destruct (H options chunks Hd Hn Hc Ho Hs) as (outs & st & st' & H1 & H2 & H3).
  exists outs, st, st'. rewrite (Hf options) by assumption. auto.
Qed.
Lemma same_feed_progress {St} nin nout dom ok start (new : newfn St) run run' prog : same_feed nin nout dom new run run' ->
  progress_ok_if nin nout dom ok start new run' prog -> progress_ok_if nin nout dom ok start new run prog.
Proof.
  intros Hf H options chunks Hd Hn Hc Ho Hs. destruct (H options chunks Hd Hn Hc Ho Hs) as (st & sz & st' & outs & H1 & H2 & H3 & H4).
  exists st, sz, st', outs. rewrite (Hf options) by assumption. auto.
Qed.
(** By an invariant of the stream object. *)
Lemma same_feed_inv {St} (J : St -> Prop) nin nout (dom : list T -> Prop) (new : newfn St) run run' :
  (forall options st, dom options -> new options = Ok (OKAY, Some st) -> J st) ->
  (forall st c, J st -> chunk_ok nin c -> run st (csize c) c = run' st (csize c) c /\
     forall cd st' o, run' st (csize c) c = Ok (cd, st', o) -> J st') ->
  same_feed nin nout dom new run run'.
Proof.
  intros H0 Hstep options st chunks Hd Hn Hc. apply H0 in Hn; [|exact Hd]. revert st Hn.
  induction Hc as [|c cs H Hcs IH]; intros st Hst; cbn [feed]; [reflexivity|].
  destruct (Hstep st c Hst H) as [E HJ]. rewrite E.
  destruct (run' st (csize c) c) as [[[cd st'] o]|u]; cbn [bind]; [|reflexivity].
  rewrite (IH st') by (apply (HJ cd st' o); reflexivity). reflexivity.
Qed.

End S.
Arguments Build_loops {A S}. Arguments bounded {A S}. Arguments final {A S}.

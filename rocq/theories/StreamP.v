(** Proof automation for streams. *)
From Verif Require Export Tactics Stream RingP.

Ltac untuple :=
  repeat match goal with
  | |- context[let (_, _) := ?q in _] => is_var q; destruct q
  | H : context[let (_, _) := ?q in _] |- _ => is_var q; destruct q
  end.

(** [online]: each body reads its inputs at the current bar only. *)
Ltac online_tac ph :=
  let p := fresh "p" in let j := fresh "j" in
  intros ? p ? ? j ? ? ? ?; lists; unfold dispatch, ph; cbn [onebar map];
  untuple; cbn [dispatch' bounded final]; untuple;
  repeat match goal with |- context[0 <? ?c - (p + j)] => replace (0 <? c - (p + j)) with (j <? c - p) by lia end;
  repeat match goal with
  | |- context[rd ?x j] => rewrite (rd_zf x j) by lia
  | |- context[rd [?v] 0] => change (rd [v] 0) with (Ok v)
  end;
  cbn [bind]; try reflexivity.

(** Shape of a ring buffer, all that safety needs. *)
Definition rok {A : Arith} (r : ring) (M : Z) : Prop := exists h, ring_ok r M h.

Section S.
Context {A : Arith}.
Lemma wp_ring_new M (Q : ring -> Prop) : 0 < M -> (forall r, ring_new M = Ok r -> rok r M -> Q r) -> wp (ring_new M) Q.
Proof. intros H HQ. destruct (ring_new_ok M H) as (r & E & Hr). rewrite E. apply HQ; [exact E|]. eexists; exact Hr. Qed.
Lemma wp_ring_get r M k (Q : T -> Prop) : rok r M -> 0 <= k < M -> (forall x, ring_get r k = Ok x -> Q x) -> wp (ring_get r k) Q.
Proof. intros [h H] Hk HQ. rewrite (ring_get_ok r M h) by auto. apply HQ. apply (ring_get_ok r M h); auto. Qed.
Lemma wp_ring_cur r M (Q : T -> Prop) : rok r M -> (forall x, ring_cur r = Ok x -> Q x) -> wp (ring_cur r) Q.
Proof. intros [h H] HQ. rewrite (ring_cur_ok r M h) by auto. apply HQ. apply (ring_cur_ok r M h); auto. Qed.
Lemma wp_ring_set r M x (Q : ring -> Prop) : rok r M -> (forall r', ring_set r x = Ok r' -> rok r' M -> ring_cur r' = Ok x -> Q r') -> wp (ring_set r x) Q.
Proof.
  intros [h H] HQ. destruct (ring_set_ok r M h x H) as (r' & E & Hr). rewrite E. cbn. apply HQ; [exact E|eexists; exact Hr|].
  rewrite (ring_cur_ok r' M _ Hr). reflexivity.
Qed.
Lemma rok_step r M : rok r M -> rok (ring_step r) M.
Proof. intros [h H]. eexists. apply ring_step_ok, H. Qed.
Lemma rd_micro_ok l i : 0 <= i < zlen l -> exists x, rd l i = Ok (x : T).
Proof. intros H. eexists. apply rd_zf, H. Qed.

(** ** A ring that is set and stepped once per bar *)
(** Value [j] of a series, 0 before its beginning (as a fresh ring buffer reads). *)
Definition zp (l : list T) (j : Z) : T := if j <? 0 then #0 else zf l j.
Lemma zp_pos l j : 0 <= j -> zp l j = zf l j.
Proof. intros H. unfold zp. replace (j <? 0) with false by lia. reflexivity. Qed.
Lemma zp_neg l j : j < 0 -> zp l j = #0.
Proof. intros H. unfold zp. replace (j <? 0) with true by lia. reflexivity. Qed.
Lemma zp_snoc l v j : j < zlen l -> zp (l ++ [v]) j = zp l j.
Proof. intros H. unfold zp. destruct (j <? 0) eqn:E; [reflexivity|]. unfold zf. rewrite zn_app1 by lia. reflexivity. Qed.
Lemma zp_last l v : zp (l ++ [v]) (zlen l) = v.
Proof. rewrite zp_pos by apply zlen_nonneg. unfold zf. apply zn_snoc. Qed.

(** Before bar [i]: offset k >= 1 holds what was set k bars ago. *)
Definition hist (r : ring) (M : Z) (g : Z -> T) (i : Z) : Prop :=
  exists h, ring_ok r M h /\ forall k, 1 <= k < M -> h k = g (i - k).
(** After bar [i] was set: offset 0 as well. *)
Definition full (r : ring) (M : Z) (g : Z -> T) (i : Z) : Prop :=
  exists h, ring_ok r M h /\ forall k, 0 <= k < M -> h k = g (i - k).

Lemma hist_rok r M g i : hist r M g i -> rok r M. Proof. intros (h & H & _). eexists; exact H. Qed.
Lemma full_rok r M g i : full r M g i -> rok r M. Proof. intros (h & H & _). eexists; exact H. Qed.
Lemma hist_ext r M g g' i : (forall k, 1 <= k < M -> g (i - k) = g' (i - k)) -> hist r M g i -> hist r M g' i.
Proof. intros E (h & H & Hh). exists h. split; [exact H|]. intros k Hk. rewrite Hh, E by lia. reflexivity. Qed.
Lemma hist_new M g : 0 < M -> (forall j, j < 0 -> g j = #0) -> exists r, ring_new M = Ok r /\ hist r M g 0.
Proof.
  intros H Hg. destruct (ring_new_ok M H) as (r & E & Hr). exists r. split; [exact E|]. eexists; split; [exact Hr|].
  intros k Hk. cbn beta. rewrite Hg by lia. reflexivity.
Qed.
Lemma hist_of_ok r M g : ring_ok r M (fun _ => #0) -> (forall j, j < 0 -> g j = #0) -> hist r M g 0.
Proof. intros H Hg. eexists; split; [exact H|]. intros k Hk. cbn beta. rewrite Hg by lia. reflexivity. Qed.
Lemma hist_get r M g i k : hist r M g i -> 1 <= k < M -> ring_get r k = Ok (g (i - k)).
Proof. intros (h & H & Hh) Hk. rewrite (ring_get_ok r M h) by (auto; lia). rewrite Hh by lia. reflexivity. Qed.
Lemma full_get r M g i k : full r M g i -> 0 <= k < M -> ring_get r k = Ok (g (i - k)).
Proof. intros (h & H & Hh) Hk. rewrite (ring_get_ok r M h) by (auto; lia). rewrite Hh by lia. reflexivity. Qed.
Lemma full_cur r M g i : full r M g i -> ring_cur r = Ok (g i).
Proof.
  intros (h & H & Hh). rewrite (ring_cur_ok r M h H). rewrite Hh by (destruct H; lia). rewrite Z.sub_0_r. reflexivity.
Qed.
Lemma hist_set r M g i v : hist r M g i -> v = g i -> exists r', ring_set r v = Ok r' /\ full r' M g i.
Proof.
  intros (h & H & Hh) ->. destruct (ring_set_ok r M h (g i) H) as (r' & E & Hr). exists r'. split; [exact E|].
  eexists; split; [exact Hr|]. intros k Hk. cbn beta. destruct (k =? 0) eqn:Ek; [f_equal; lia|apply Hh; lia].
Qed.
Lemma hist_step r M g i : full r M g i -> hist (ring_step r) M g (i + 1).
Proof.
  intros (h & H & Hh). eexists. split; [apply ring_step_ok, H|]. intros k Hk. cbn beta.
  replace (k =? 0) with false by lia. rewrite Hh by lia. f_equal. lia.
Qed.
Lemma wp_hist_set r M g i v (Q : ring -> Prop) : hist r M g i -> v = g i -> (forall r', full r' M g i -> Q r') -> wp (ring_set r v) Q.
Proof. intros H E HQ. destruct (hist_set r M g i v H E) as (r' & Er & Hr). rewrite Er. apply HQ, Hr. Qed.
Lemma wp_hist_get r M g i k (Q : T -> Prop) : hist r M g i -> 1 <= k < M -> Q (g (i - k)) -> wp (ring_get r k) Q.
Proof. intros H Hk HQ. rewrite (hist_get r M g i) by auto. exact HQ. Qed.
Lemma wp_full_get r M g i k (Q : T -> Prop) : full r M g i -> 0 <= k < M -> Q (g (i - k)) -> wp (ring_get r k) Q.
Proof. intros H Hk HQ. rewrite (full_get r M g i) by auto. exact HQ. Qed.
Lemma wp_full_cur r M g i (Q : T -> Prop) : full r M g i -> Q (g i) -> wp (ring_cur r) Q.
Proof. intros H HQ. rewrite (full_cur r M g i) by auto. exact HQ. Qed.

(** The same when the values set are collected in a list. *)
Lemma wp_hist_push r M a i v (Q : ring -> Prop) : hist r M (zp a) i -> zlen a = i ->
  (forall r', full r' M (zp (a ++ [v])) i -> Q r') -> wp (ring_set r v) Q.
Proof.
  intros H Ha HQ. apply (wp_hist_set r M (zp (a ++ [v])) i); [| |exact HQ].
  - apply (hist_ext r M (zp a)); [|exact H]. intros k Hk. rewrite zp_snoc by lia. reflexivity.
  - rewrite <- Ha, zp_last. reflexivity.
Qed.

Lemma zp_push a i v : zlen a = i -> zp (a ++ [v]) i = v.
Proof. intros <-. apply zp_last. Qed.

(** A loop that only computes. *)
Lemma for_trec {S} lo hi (f : Z -> S -> res S) (g : Z -> S -> S) s :
  (forall j s, lo <= j < hi -> f j s = Ok (g j s)) -> for_ lo hi f s = Ok (trec g lo hi s).
Proof.
  intros H. destruct (Z.le_gt_cases lo hi) as [L|L]; [|rewrite for_nil, trec_nil by lia; reflexivity].
  apply (zind (fun m => m <= hi -> for_ lo m f s = Ok (trec g lo m s)) lo hi L).
  - intros _. rewrite for_nil, trec_nil by lia. reflexivity.
  - intros m Hm IH _. rewrite for_snoc, trec_snoc, IH by lia. cbn [bind]. apply H. lia.
  - lia.
Qed.
Lemma wp_for_trec {S} lo hi (f : Z -> S -> res S) (g : Z -> S -> S) s (Q : S -> Prop) :
  (forall j s, lo <= j < hi -> f j s = Ok (g j s)) -> Q (trec g lo hi s) -> wp (for_ lo hi f s) Q.
Proof. intros H HQ. rewrite (for_trec lo hi f g) by exact H. exact HQ. Qed.

(** ** A loop appending to the output as consecutive loops *)
Lemma collect {S} nout lo size (g : Z -> S -> res (S * list (list T))) s (f : Z -> S * list (list T) -> res (S * list (list T))) :
  0 <= lo -> (forall i s o, lo <= i < size -> f i (s, o) = let* (s', e) := g i s in Ok (s', zapp o e)) ->
  for_ lo size f (s, repeat [] nout) =
  run_loops nout size {| bounded := [(lo, fun _ s => Ok (s, repeat [] nout))]; final := g |} s.
Proof.
  intros H0 Hf. unfold run_loops. cbn [bounded final phases].
  assert (E : emits 0 (Z.max 0 (Z.min lo size)) (fun _ s => Ok (s, repeat [] nout)) (s, repeat [] nout) = Ok (s, repeat [] nout)).
  { apply (zind (fun m => emits 0 m (fun _ s => Ok (s, repeat [] nout)) (s, repeat [] nout) = Ok (s, repeat [] nout)) 0); [lia| |].
    - unfold emits. apply for_nil. lia.
    - intros m Hm IH. unfold emits in *. rewrite for_snoc by lia. rewrite IH. cbn [bind].
      rewrite zapp_nil_l by (rewrite repeat_length; lia). reflexivity. }
  rewrite E. cbn [bind]. unfold emits.
  destruct (Z.le_gt_cases lo size) as [L|L].
  - replace (Z.max 0 (Z.min lo size)) with lo by lia. apply for_ext. intros i [s0 o0] Hi. apply Hf. exact Hi.
  - rewrite !for_nil by lia. reflexivity.
Qed.
(** One output, no other state. *)
Lemma collect1 lo size (g : Z -> res T) (f : Z -> list T -> res (list T)) :
  0 <= lo -> (forall i o, lo <= i < size -> f i o = let* v := g i in Ok (o ++ [v])) ->
  (let* out := for_ lo size f [] in Ok (OKAY, [out])) =
  let* (_, o) := run_loops 1 size {| bounded := [(lo, fun _ (s : unit) => Ok (s, [[]]))];
    final := fun i s => let* v := g i in Ok (s, [[v]]) |} tt in Ok (OKAY, o).
Proof.
  intros H0 Hf. change [[]] with (repeat (@nil T) 1).
  rewrite <- (collect 1 lo size _ tt (fun i '(s, o) => let* v := g i in Ok (s, zapp o [[v]]))).
  2: exact H0. 2:{ intros i s o Hi. rewrite bind_assoc. reflexivity. }
  unfold for_. assert (G : forall n i o, lo <= i -> i + Z.of_nat n <= Z.max lo size ->
    (let* out := iter n i f o in Ok (OKAY, [out])) =
    let* (_, o) := iter n i (fun i '(s, o) => let* v := g i in Ok (s, zapp o [[v]])) (tt, [o]) in Ok (OKAY, o)).
  { induction n as [|n IH]; intros i o Hi Hb; cbn [iter bind]; [reflexivity|].
    rewrite Hf by lia. destruct (g i) as [v|u]; cbn [bind]; [|reflexivity]. cbn [zapp]. apply IH; lia. }
  apply G; lia.
Qed.
(** One output and a state. *)
Lemma collect2 {S} lo size (g : Z -> S -> res (S * T)) s (f : Z -> S * list T -> res (S * list T)) :
  0 <= lo -> (forall i s o, lo <= i < size -> f i (s, o) = let* (s', v) := g i s in Ok (s', o ++ [v])) ->
  (let* (_, out) := for_ lo size f (s, []) in Ok (OKAY, [out])) =
  let* (_, o) := run_loops 1 size {| bounded := [(lo, fun _ (s : S) => Ok (s, [[]]))];
    final := fun i s => let* (s', v) := g i s in Ok (s', [[v]]) |} s in Ok (OKAY, o).
Proof.
  intros H0 Hf. change [[]] with (repeat (@nil T) 1).
  rewrite <- (collect 1 lo size _ s (fun i '(s, o) => let* (s', v) := g i s in Ok (s', zapp o [[v]]))).
  2: exact H0. 2:{ intros i s' o Hi. rewrite bind_assoc. apply bind_ext. intros [a b]. reflexivity. }
  unfold for_. assert (G : forall n i s o, lo <= i -> i + Z.of_nat n <= Z.max lo size ->
    (let* (_, out) := iter n i f (s, o) in Ok (OKAY, [out])) =
    let* (_, o) := iter n i (fun i '(s, o) => let* (s', v) := g i s in Ok (s', zapp o [[v]])) (s, [o]) in Ok (OKAY, o)).
  { clear s. induction n as [|n IH]; intros i s o Hi Hb; cbn [iter bind]; [reflexivity|].
    rewrite Hf by lia. destruct (g i s) as [[s' v]|u]; cbn [bind]; [|reflexivity]. cbn [zapp]. apply IH; lia. }
  apply G; lia.
Qed.

(** ** Values written by loops *)
Lemma loops_tab {S1} (I : Z -> S1 -> Prop) (l : loops S1) (Fs : list (Z -> T)) st size s :
  0 <= size -> 0 <= st -> I 0 s ->
  (forall i s, 0 <= i < size -> I i s ->
    wp (dispatch l i s) (fun r => snd r = (if st <=? i then map (fun F => [F (i - st)]) Fs else map (fun _ => []) Fs) /\ I (i + 1) (fst r))) ->
  exists s', run_loops (length Fs) size l s = Ok (s', map (fun F => tab 0 (size - st) F) Fs) /\ I size s'.
Proof.
  intros Hs Hst H0 Hstep. rewrite run_loops_dispatch by lia.
  apply (zind (fun m => exists s', emits 0 m (dispatch l) (s, repeat [] (length Fs)) = Ok (s', map (fun F => tab 0 (m - st) F) Fs) /\ I m s') 0 size Hs).
  - exists s. unfold emits. rewrite for_nil by lia. split; [|exact H0]. do 2 f_equal.
    clear - Hst. induction Fs as [|F Fs IH]; cbn; [reflexivity|]. rewrite IH, tab_nil by lia. reflexivity.
  - intros m Hm (s1 & E & HI). specialize (Hstep m s1 ltac:(lia) HI). unfold emits in *. rewrite for_snoc by lia.
    rewrite E. cbn [bind]. destruct (dispatch l m s1) as [[s2 e]|u]; cbn [wp fst snd] in Hstep; [|contradiction].
    destruct Hstep as [-> HI2]. cbn [bind]. exists s2. split; [|exact HI2]. do 2 f_equal.
    destruct (st <=? m) eqn:Em; clear - Em Hst; induction Fs as [|F Fs IH]; cbn [map zapp]; try reflexivity; rewrite IH; f_equal.
    + replace (m + 1 - st) with (m - st + 1) by lia. rewrite tab_snoc by lia. reflexivity.
    + rewrite app_nil_r, !tab_nil by lia. reflexivity.
Qed.

Lemma sim_tab {S1} (I : Z -> S1 -> Prop) (l : loops S1) (Fs : list (Z -> T)) st size s m :
  m = Ok (OKAY, map (fun F => tab 0 (size - st) F) Fs) -> 0 <= size -> 0 <= st -> I 0 s ->
  (forall i s, 0 <= i < size -> I i s ->
    wp (dispatch l i s) (fun r => snd r = (if st <=? i then map (fun F => [F (i - st)]) Fs else map (fun _ => []) Fs) /\ I (i + 1) (fst r))) ->
  exists s' outs, m = Ok (OKAY, outs) /\ run_loops (length Fs) size l s = Ok (s', outs) /\
    length outs = length Fs /\ Forall (fun o => zlen o = Z.max 0 (size - st)) outs.
Proof.
  intros Hm Hs Hst H0 Hstep. destruct (loops_tab I l Fs st size s Hs Hst H0 Hstep) as (s' & E & _).
  exists s'. eexists. repeat split; [exact Hm|exact E|apply map_length|].
  apply Forall_forall. intros o Ho. apply in_map_iff in Ho as (F & <- & _). rewrite zlen_tab. lia.
Qed.
End S.

(** Normalise [zp]. *)
Ltac zph := repeat match goal with H : context[zp ?l ?k] |- _ => rewrite (zp_pos l k) in H by zl end.
Ltac zpn := repeat match goal with
  | |- context[zp ?l ?j] => first [rewrite (zp_pos l j) by zl | rewrite (zp_neg l j) by zl] end.

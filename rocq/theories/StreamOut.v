(** What every value written by a group of loops satisfies. *)
From Verif Require Export StreamP.
Section S.
Context {A : Arith}.
(** Output number k satisfies the k-th predicate, value by value. *)
Definition outs_ok (Ps : list (T -> Prop)) (o : list (list T)) : Prop := Forall2 (fun P l => Forall P l) Ps o.
Lemma outs_ok_nil Ps : outs_ok Ps (repeat [] (length Ps)).
Proof. induction Ps as [|P Ps IH]; cbn; constructor; [constructor|exact IH]. Qed.
Lemma outs_ok_zapp Ps a b : outs_ok Ps a -> outs_ok Ps b -> outs_ok Ps (zapp a b).
Proof.
  intros H. revert b. induction H as [|P l Ps a Hl Ha IH]; intros b Hb; inversion Hb; subst; cbn; constructor.
  - apply Forall_app; split; assumption.
  - apply IH; assumption.
Qed.
Lemma loops_outs {S1} (I : Z -> S1 -> Prop) Ps (l : loops S1) size s s' outs :
  0 <= size -> I 0 s ->
  (forall i s r, 0 <= i < size -> I i s -> dispatch l i s = Ok r -> outs_ok Ps (snd r) /\ I (i + 1) (fst r)) ->
  run_loops (length Ps) size l s = Ok (s', outs) -> outs_ok Ps outs.
Proof.
  intros Hs H0 Hstep. rewrite run_loops_dispatch by lia. unfold emits.
  assert (G : forall s' outs, for_ 0 size (fun i '(s, o) => let* (s', e) := dispatch l i s in Ok (s', zapp o e)) (s, repeat [] (length Ps)) = Ok (s', outs) -> outs_ok Ps outs /\ I size s'); [|intros E; apply (G _ _ E)].
  apply (zind (fun m => forall s' outs, for_ 0 m (fun i '(s, o) => let* (s', e) := dispatch l i s in Ok (s', zapp o e)) (s, repeat [] (length Ps)) = Ok (s', outs) -> outs_ok Ps outs /\ I m s') 0 size Hs).
  - intros s1 o1. rewrite for_nil by lia. intros E. injection E; intros <- <-. split; [apply outs_ok_nil|exact H0].
  - intros m Hm IH s1 o1. rewrite for_snoc by lia.
    destruct (for_ 0 m _ _) as [[s2 o2]|u]; cbn [bind]; [|discriminate]. destruct (IH s2 o2 eq_refl) as [P1 P2].
    destruct (dispatch l m s2) as [[s3 e]|u] eqn:E; cbn [bind]; [|discriminate]. intros Eq. injection Eq; intros <- <-.
    destruct (Hstep m s2 (s3, e) ltac:(lia) P2 E) as [Q1 Q2]. cbn [fst snd] in *. split; [apply outs_ok_zapp; assumption|exact Q2].
Qed.
(** The same without knowing that the loop body succeeds. *)
Lemma for_inv {S1} (I : Z -> S1 -> Prop) lo hi (f : Z -> S1 -> res S1) s s' : lo <= hi -> I lo s ->
  (forall i s s', lo <= i < hi -> I i s -> f i s = Ok s' -> I (i + 1) s') -> for_ lo hi f s = Ok s' -> I hi s'.
Proof.
  intros L H0 Hs. apply (zind (fun m => forall s', for_ lo m f s = Ok s' -> I m s') lo hi L).
  - intros s1. rewrite for_nil by lia. intros E. injection E; intros <-. exact H0.
  - intros m Hm IH s1. rewrite for_snoc by lia. destruct (for_ lo m f s) as [s2|u]; cbn [bind]; [|discriminate]. apply Hs; [lia|apply IH; reflexivity].
Qed.
(** Bar by bar: nothing before bar [st], then one value per output and bar, the one of output k at bar i
    satisfying the k-th predicate at i. *)
Definition series_ok (Ps : list (Z -> T -> Prop)) (st size : Z) (outs : list (list T)) : Prop :=
  Forall2 (fun (P : Z -> T -> Prop) o => zlen o = Z.max 0 (size - st) /\ forall j, 0 <= j < zlen o -> P (st + j) (zf o j)) Ps outs.
Definition bar_ok (Ps : list (Z -> T -> Prop)) (st i : Z) (e : list (list T)) : Prop :=
  if i <? st then e = repeat [] (length Ps) else Forall2 (fun (P : Z -> T -> Prop) e => exists v, e = [v] /\ P i v) Ps e.
Lemma series_ok_nil Ps st : 0 <= st -> series_ok Ps st 0 (repeat [] (length Ps)).
Proof. intros H. induction Ps as [|P Ps IH]; cbn; constructor; [|exact IH]. split; [rewrite zlen_nil; lia|intros j Hj; exfalso; unfold zlen in Hj; cbn in Hj; lia]. Qed.
Lemma series_ok_snoc Ps st i o e : 0 <= i -> series_ok Ps st i o -> bar_ok Ps st i e -> series_ok Ps st (i + 1) (zapp o e).
Proof.
  intros Hi H. unfold bar_ok. destruct (i <? st) eqn:E.
  - intros ->. rewrite zapp_nil_r; [|clear E; induction H; cbn; lia]. induction H as [|P l Ps o [L F] H IH]; constructor; [|exact IH].
    split; [lia|exact F].
  - intros B. revert e B. induction H as [|P l Ps o [L F] H IH]; intros e B; inversion_clear B; cbn; constructor; [|apply IH; assumption].
    match goal with K : exists v, _ |- _ => destruct K as (v & -> & Pv) end. rewrite zlen_app. split; [unfold zlen in *; cbn [length]; lia|].
    intros j Hj. change (zlen [v]) with 1 in Hj. destruct (Z.eq_dec j (zlen l)) as [->|N].
    + replace (zf (l ++ [v]) (zlen l)) with v by (unfold zf; rewrite zn_snoc; reflexivity). replace (st + zlen l) with i by lia. exact Pv.
    + replace (zf (l ++ [v]) j) with (zf l j) by (unfold zf; rewrite zn_app1 by lia; reflexivity). apply F. lia.
Qed.
Lemma loops_nth {S1} (I : Z -> S1 -> Prop) Ps st (l : loops S1) size s : 0 <= size -> 0 <= st -> I 0 s ->
  (forall i s, 0 <= i < size -> I i s -> wp (dispatch l i s) (fun r => bar_ok Ps st i (snd r) /\ I (i + 1) (fst r))) ->
  exists s' outs, run_loops (length Ps) size l s = Ok (s', outs) /\ series_ok Ps st size outs.
Proof.
  intros Hs Ht H0 Hstep. rewrite run_loops_dispatch by lia. unfold emits.
  cut (exists s' outs, for_ 0 size (fun i '(s, o) => let* (s', e) := dispatch l i s in Ok (s', zapp o e)) (s, repeat [] (length Ps)) = Ok (s', outs) /\ series_ok Ps st size outs /\ I size s').
  { intros (s' & outs & H1 & H2 & _). eauto. }
  apply (zind (fun m => exists s' outs, for_ 0 m (fun i '(s, o) => let* (s', e) := dispatch l i s in Ok (s', zapp o e)) (s, repeat [] (length Ps)) = Ok (s', outs) /\ series_ok Ps st m outs /\ I m s') 0 size Hs).
  - exists s, (repeat [] (length Ps)). rewrite for_nil by lia. split; [reflexivity|]. split; [apply series_ok_nil; lia|exact H0].
  - intros m Hm (s1 & o1 & E & N & Hi). rewrite for_snoc by lia. rewrite E. cbn [bind].
    specialize (Hstep m s1 Hm Hi). destruct (dispatch l m s1) as [[s2 e]|u]; [|contradiction]. destruct Hstep as [B I2]. cbn [fst snd bind] in *.
    exists s2, (zapp o1 e). split; [reflexivity|]. split; [apply series_ok_snoc; [lia|assumption|assumption]|exact I2].
Qed.
End S.

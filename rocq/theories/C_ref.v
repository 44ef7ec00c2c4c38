(** Reference implementations against their indicators: any arithmetic. *)
From Verif Require Export M_ref M_stream8 StreamP Fun_tr Fun_osc C_stream3.

(** On accepted options and well-formed series that satisfy [ok], both are defined, succeed and
    write the same. *)
Definition same_outputs {A : Arith} (nin : nat) (dom : list T -> Prop) (ok : Z -> list (list T) -> list T -> Prop)
    (f g : batchfn) : Prop :=
  forall size inputs options, wf nin size inputs -> dom options -> ok size inputs options ->
    exists outs, f size inputs options = Ok (OKAY, outs) /\ g size inputs options = Ok (OKAY, outs).
(** The same code twice: no condition at all. *)
Definition same_code {A : Arith} (f g : batchfn) : Prop :=
  forall size inputs options, f size inputs options = g size inputs options.

Definition any_series {A : Arith} (size : Z) (inputs : list (list T)) (options : list T) : Prop := True.

(** Two loops in step. *)
Lemma for_rel {S1 S2} (R : Z -> S1 -> S2 -> Prop) lo hi f g a b : lo <= hi -> R lo a b ->
  (forall i a b, lo <= i < hi -> R i a b -> wp (f i a) (fun a' => wp (g i b) (R (i + 1) a'))) ->
  exists a' b', for_ lo hi f a = Ok a' /\ for_ lo hi g b = Ok b' /\ R hi a' b'.
Proof.
  intros H H0 Hs. apply (zind (fun m => exists a' b', for_ lo m f a = Ok a' /\ for_ lo m g b = Ok b' /\ R m a' b') lo hi H).
  - exists a, b. rewrite !for_nil by lia. auto.
  - intros m Hm (a' & b' & E1 & E2 & Hr). specialize (Hs m a' b' Hm Hr). rewrite !for_snoc by lia. rewrite E1, E2. cbn [bind].
    destruct (f m a') as [a2|u]; cbn [wp] in Hs; [|contradiction]. destruct (g m b') as [b2|u]; cbn [wp] in Hs; [|contradiction].
    exists a2, b2. auto.
Qed.

Section C.
Context {A : Arith} {L : IntLaws A}.
Definition dom_int (lo hi : Z) (options : list T) : Prop := exists n, lo <= n <= hi /\ options = [#n].

Lemma batch_vs_for {S1 S2} (R : Z -> S1 -> list (list T) -> S2 -> Prop) nout size (l : loops S1) s
    (g : Z -> S2 -> res S2) b0 (k : S2 -> res (code * list (list T))) :
  0 <= size -> R 0 s (repeat [] nout) b0 ->
  (forall i s o b, 0 <= i < size -> R i s o b -> wp (dispatch l i s) (fun r => wp (g i b) (fun b' => R (i + 1) (fst r) (zapp o (snd r)) b'))) ->
  (forall s o b, R size s o b -> k b = Ok (OKAY, o)) ->
  exists outs, batch_loops nout size l s = Ok (OKAY, outs) /\ (let* b := for_ 0 size g b0 in k b) = Ok (OKAY, outs).
Proof.
  intros H H0 Hs Hk. unfold batch_loops. rewrite run_loops_dispatch by exact H. unfold emits.
  destruct (for_rel (fun i (a : S1 * list (list T)) b => R i (fst a) (snd a) b) 0 size
    (fun i '(s, o) => let* (s', e) := dispatch l i s in Ok (s', zapp o e)) g (s, repeat [] nout) b0 H H0) as ([s' o'] & b' & E1 & E2 & HR).
  { intros i [s1 o1] b Hi HR. specialize (Hs i s1 o1 b Hi HR). destruct (dispatch l i s1) as [[s2 e]|u]; cbn [wp] in Hs; [|contradiction]. exact Hs. }
  exists o'. rewrite E1, E2. cbn [bind]. split; [reflexivity|]. apply (Hk s'). exact HR.
Qed.

Lemma mgdyn_ref_same : same_code ti_mgdyn ti_mgdyn_ref. Proof. intros size inputs options. reflexivity. Qed.
Lemma gf1_ref_same : same_code ti_gf1 ti_gf1_ref. Proof. intros size inputs options. reflexivity. Qed.
Lemma gf2_ref_same : same_code ti_gf2 ti_gf2_ref. Proof. intros size inputs options. reflexivity. Qed.
Lemma gf3_ref_same : same_code ti_gf3 ti_gf3_ref. Proof. intros size inputs options. reflexivity. Qed.
Lemma gf4_ref_same : same_code ti_gf4 ti_gf4_ref. Proof. intros size inputs options. reflexivity. Qed.
Lemma pwma_ref_same : same_code ti_pwma ti_pwma_ref. Proof. intros size inputs options. reflexivity. Qed.

(** ahma *)
Lemma ahma_ref_same : same_outputs 1 (dom_int 1 INT_MAX) any_series ti_ahma ti_ahma_ref.
Proof.
  intros size inputs options (? & ? & ?) (n & Hn & ->) _. lists. unfold ti_ahma, ti_ahma_ref.
  rewrite !cast_of_Z, flt_of_Z by zl. cbn [bind]. replace (n <? 1) with false by lia.
  apply (batch_vs_for (fun i a o b => o = [a] /\ a = fst b /\ zlen a = i /\ snd b = (i <=? n))).
  - lia.
  - cbn [fst snd]. repeat split; lia.
  - intros i a o [b f] Hi (E1 & E2 & Hlen & E3). cbn [fst snd] in *. subst o a f. unfold dispatch. cbn [dispatch' bounded final].
    rewrite flt_of_Z by zl. destruct (i <? n) eqn:E.
    + replace (i <=? n) with true by lia. cbn [andb]. wps. cbn [fst snd zapp]. repeat split; zl.
    + rewrite Bool.andb_false_r. wps; try zl. cbn [fst snd zapp]. repeat split; zl.
  - intros a o [b f] (E1 & E2 & _). cbn [fst snd] in *. subst. reflexivity.
Qed.

Lemma same_eq (f g : res (code * list (list T))) : f = g -> wp f (fun r => fst r = OKAY) ->
  exists outs, f = Ok (OKAY, outs) /\ g = Ok (OKAY, outs).
Proof. intros <- H. destruct f as [[c o]|u]; cbn in H; [|contradiction]. subst. eauto. Qed.

(** hwma *)
Definition dom_to_int (lo hi : Z) (options : list T) : Prop := exists o n, options = [o] /\ to_int o = Some n /\ lo <= n <= hi.
Lemma hwma_ref_same : same_outputs 1 (dom_to_int 7 13) any_series ti_hwma ti_hwma_ref.
Proof.
  intros size inputs options (? & ? & ?) (o & n & -> & Ho & Hn) _. lists. apply same_eq.
  - unfold ti_hwma, ti_hwma_ref, cast. rewrite Ho. cbn [bind]. rewrite ck_ok by zl. reflexivity.
  - unfold ti_hwma, cast. rewrite Ho. cbn [bind]. rewrite ck_ok by zl. cbn [bind].
    replace ((n <? 7) || (n >? 13))%bool with false by lia.
    assert (E : exists c, rd (@hwma_tables A) (n - 7) = Ok c /\ zlen c = 13).
    { assert (n = 7 \/ n = 8 \/ n = 9 \/ n = 10 \/ n = 11 \/ n = 12 \/ n = 13) as Hc by lia.
      repeat (destruct Hc as [->|Hc]; [eexists; split; reflexivity|]). subst. eexists; split; reflexivity. }
    destruct E as (c & -> & Hc). cbn [bind].
    wps. apply (wp_for_max (fun _ _ => True)); [exact I| |intros; wps; reflexivity].
    intros i out Hi _. wps. apply (wp_for_max (fun _ _ => True)); [exact I| |intros; wps; exact I].
    intros. wps; exact I.
Qed.

(** swma: the table is the sine of the reference for the first twelve weights. *)
Definition swma_same (n : Z) : Prop := forall j, 0 <= j < n -> rd (@swma_table A) (Z.rem j 12) = Ok (libm Lsin (#(j + 1) .* PI ./ #6)).
Lemma swma_same_12 : swma_same 12.
Proof.
  intros j Hj. assert (Hc : j = 0 \/ j = 1 \/ j = 2 \/ j = 3 \/ j = 4 \/ j = 5 \/ j = 6 \/ j = 7 \/ j = 8 \/ j = 9 \/ j = 10 \/ j = 11) by lia.
  repeat (destruct Hc as [->|Hc]; [reflexivity|]). subst. reflexivity.
Qed.
Lemma swma_ref_eq size x o n : zlen x = size -> 0 <= size <= INT_MAX -> to_int o = Some n -> 1 <= n < INT_MAX -> Z.rem n 6 <> 0 -> Z.rem (n + 1) 6 <> 0 -> swma_same n ->
  exists outs, ti_swma size [x] [o] = Ok (OKAY, outs) /\ ti_swma_ref size [x] [o] = Ok (OKAY, outs).
Proof.
  intros Hx Hs Ho Hn H6 H7 HT. unfold ti_swma, ti_swma_ref, swma_reject, cast. rewrite Ho. cbn [bind].
  replace (n <? 1) with false by lia. replace (Z.rem n 6 =? 0) with false by lia. rewrite ck_ok by zl. cbn [bind].
  replace (Z.rem (n + 1) 6 =? 0) with false by lia.
  set (c := fun j => libm Lsin (#(j + 1) .* PI ./ #6)). assert (HT' : forall j, 0 <= j < n -> rd (@swma_table A) (Z.rem j 12) = Ok (c j)) by exact HT.
  unfold swma_denom. rewrite (for_trec 0 n _ (fun j d => d .+ c j)) by (intros; rewrite HT' by lia; reflexivity). cbn [bind].
  set (F := fun i => trec (fun j s => s .+ c j .* zf x (i - j)) 0 n #0 ./ trec (fun j d => d .+ c j) 0 n #0).
  rewrite (for_ext (n - 1) size _ (fun i out => Ok (out ++ [F i]))).
  2:{ intros i out Hi. rewrite (for_trec 0 n _ (fun j s => s .+ c j .* zf x (i - j))); [reflexivity|].
      intros j s Hj. rewrite HT' by lia. rewrite rd_zf by lia. reflexivity. }
  rewrite (for_ext (n - 1) size (fun i out => let* (numer, denom) := _ in _) (fun i out => Ok (out ++ [F i]))).
  2:{ intros i out Hi. rewrite (for_trec 0 n _ (fun j v => (fst v .+ c j .* zf x (i - j), snd v .+ c j))).
      - rewrite (trec_pair (fun j s => s .+ c j .* zf x (i - j)) (fun j d => d .+ c j)). reflexivity.
      - intros j [s d] Hj. rewrite rd_zf by lia. reflexivity. }
  apply same_eq; [reflexivity|]. wps. apply (wp_for_max (fun _ _ => True)); [exact I|intros; wps; exact I|intros; wps; reflexivity].
Qed.
(** Periods the indicator accepts, of at most 12 bars. *)
Definition dom_swma (options : list T) : Prop := exists o n, options = [o] /\ to_int o = Some n /\ In n [1; 2; 3; 4; 7; 8; 9; 10].
Lemma swma_ref_same : same_outputs 1 dom_swma any_series ti_swma ti_swma_ref.
Proof.
  intros size inputs options (? & ? & ?) (o & n & -> & Ho & Hn) _. lists. apply (swma_ref_eq _ _ _ n); try assumption; try lia; cbn in Hn.
  - zl.
  - intuition subst; discriminate.
  - intuition subst; discriminate.
  - intros j Hj. apply swma_same_12. lia.
Qed.

(** atr *)
Lemma atr_ref_ok : same_outputs 3 (dom_to_int 1 INT_MAX) any_series ti_atr ti_atr_ref.
Proof.
  intros size inputs options (? & ? & ?) (o & n & -> & Ho & Hn) _. lists.
  rewrite (atr_ref_same _ _ _ _ _ n) by (assumption || lia). rewrite (atr_fun _ _ _ _ _ n) by (assumption || lia). eauto.
Qed.

(** hf: the reference is defined, with the same result, whenever the indicator is *)
Lemma batch_refine {S1} nout size (l l' : loops S1) s r : 0 <= size ->
  (forall i s r, 0 <= i < size -> dispatch l i s = Ok r -> dispatch l' i s = Ok r) ->
  batch_loops nout size l s = Ok r -> batch_loops nout size l' s = Ok r.
Proof.
  intros H Hs. unfold batch_loops. rewrite !run_loops_dispatch by exact H. unfold emits.
  set (f := fun i '(s, o) => let* (s', e) := dispatch l i s in Ok (s', zapp o e)).
  set (g := fun i '(s, o) => let* (s', e) := dispatch l' i s in Ok (s', zapp o e)).
  assert (E : forall r, for_ 0 size f (s, repeat [] nout) = Ok r -> for_ 0 size g (s, repeat [] nout) = Ok r).
  { apply (zind (fun m => forall r, for_ 0 m f (s, repeat [] nout) = Ok r -> for_ 0 m g (s, repeat [] nout) = Ok r) 0 size H).
    - intros r0. rewrite !for_nil by lia. auto.
    - intros m Hm IH r0. rewrite !for_snoc by lia. destruct (for_ 0 m f (s, repeat [] nout)) as [[s1 o1]|u] eqn:E1; cbn [bind]; [|discriminate].
      rewrite (IH _ eq_refl). cbn [bind]. unfold f, g. destruct (dispatch l m s1) as [[s2 e]|u] eqn:E2; cbn [bind]; [|discriminate].
      rewrite (Hs m s1 _ Hm E2). auto. }
  destruct (for_ 0 size f (s, repeat [] nout)) as [x|u] eqn:Ef; cbn [bind]; [|discriminate]. rewrite (E _ eq_refl). auto.
Qed.
Lemma hf_ref_refine size inputs options r : 0 <= size -> ti_hf size inputs options = Ok r -> ti_hf_ref size inputs options = Ok r.
Proof.
  intros Hs. unfold ti_hf, ti_hf_ref. destruct inputs as [|x [|]], options as [|o0 [|o1 [|]]]; auto.
  destruct (cast o0) as [k|]; cbn [bind]; [|auto]. destruct (k <? 1); [auto|]. destruct (o1 .< #0); [auto|].
  destruct (ck (2 * k + 1)) as [n|] eqn:En; cbn [bind]; [|discriminate].
  apply batch_refine; [exact Hs|]. intros i s r' Hi. unfold dispatch. cbn [dispatch' bounded final].
  destruct (i <? 2 * k); [auto|]. destruct (rd x i); cbn [bind]; [|auto]. destruct (ms_insert _ _) as [ms|]; cbn [bind]; [|auto].
  unfold hf_out, median_deviation. destruct (rd ms k) as [m|]; cbn [bind]; [|auto]. rewrite bind_assoc. destruct (check _ _); cbn [bind]; [|discriminate].
  destruct (nth_elem _ _); cbn [bind]; auto.
Qed.
End C.

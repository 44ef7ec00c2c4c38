(** The values written by the ranking indicators rmf, hf, hfsma, hfema. *)
From Verif Require Import StreamOut C_stream8.
From Coq Require Import ZifyBool Permutation Sorting.Sorted.

Section F.
Context {A : Arith} {IL : IntLaws A}.
Context (good : T -> Prop) (RL : RankLaws A good (fun x => x)).
Context (good' : T -> Prop) (OL' : OrdLaws A good') (DL : forall x y, good x -> good y -> good' (fabs (x .- y))).

Lemma batch_nth {S1} (I : Z -> S1 -> Prop) Ps st (l : loops S1) size s : 0 <= size -> 0 <= st -> I 0 s ->
  (forall i s, 0 <= i < size -> I i s -> wp (dispatch l i s) (fun r => bar_ok Ps st i (snd r) /\ I (i + 1) (fst r))) ->
  exists outs, batch_loops (length Ps) size l s = Ok (OKAY, outs) /\ series_ok Ps st size outs.
Proof.
  intros Hs Ht H0 Hstep. destruct (loops_nth I Ps st l size s Hs Ht H0 Hstep) as (s' & outs & E & N). exists outs. split; [|exact N].
  unfold batch_loops. rewrite E. reflexivity.
Qed.
Lemma batch_nth1 {S1} (I : Z -> S1 -> Prop) (P : Z -> T -> Prop) st (l : loops S1) size s : 0 <= size -> 0 <= st -> I 0 s ->
  (forall i s, 0 <= i < size -> I i s -> wp (dispatch l i s) (fun r => (if i <? st then snd r = [[]] else exists v, snd r = [[v]] /\ P i v) /\ I (i + 1) (fst r))) ->
  exists y, batch_loops 1 size l s = Ok (OKAY, [y]) /\ zlen y = Z.max 0 (size - st) /\ forall j, 0 <= j < zlen y -> P (st + j) (zf y j).
Proof.
  intros Hs Ht H0 Hstep. destruct (batch_nth I [P] st l size s Hs Ht H0) as (outs & E & N).
  - intros i s1 Hi H1. specialize (Hstep i s1 Hi H1). destruct (dispatch l i s1) as [[s2 e]|u]; cbn [wp] in *; [|exact Hstep]. destruct Hstep as [B I2]. split; [|exact I2].
    unfold bar_ok. cbn [fst snd] in *. destruct (i <? st); [exact B|]. destruct B as (v & -> & Pv). constructor; [eauto|constructor].
  - inversion N; subst. match goal with K : Forall2 _ [] _ |- _ => inversion K; subst end. eexists. split; [exact E|]. assumption.
Qed.

(** ** hf *)
Lemma hf_values size x o t k : to_int o = Some k -> 1 <= k -> 2 * k + 1 <= INT_MAX -> (t .< #0) = false -> zlen x = size -> Forall good x ->
  exists y, ti_hf size [x] [o; t] = Ok (OKAY, [y]) /\ zlen y = Z.max 0 (size - 2 * k) /\
  forall j, 0 <= j < zlen y -> exists m d, mad k (tab j (j + 2 * k + 1) (zf x)) m d /\
    zf y j = if fabs (zf x (j + 2 * k) .- m) .< t .* lit 14826 4 .* d then zf x (j + 2 * k) else m.
Proof.
  intros Ho Hk Hm Ht Hx G. pose proof (Forall_zf good _ G) as GX. pose proof (zlen_nonneg x).
  unfold ti_hf. unfold cast. rewrite Ho. cbn [bind]. replace (k <? 1) with false by lia. rewrite Ht. rewrite ck_ok by zl. cbn [bind].
  match goal with |- context [batch_loops 1 size ?l ?s] => destruct (batch_nth1 (fun (i : Z) (a : list T) => ranks good (fun x => x) a (tab (Z.max 0 (i - 2 * k)) i (zf x)))
    (fun i v => exists m d, mad k (tab (i - 2 * k) (i + 1) (zf x)) m d /\ v = if fabs (zf x i .- m) .< t .* lit 14826 4 .* d then zf x i else m) (2 * k) l size s)
    as (y & E & L & V) end.
  - lia.
  - lia.
  - rewrite tab_nil by lia. exact (ranks_nil good _).
  - intros i ms Hi W. unfold dispatch. cbn [dispatch' bounded final]. rewrite !rd_zf by lia. cbn [bind].
    destruct (ranks_in good _ RL (zf x) (Z.max 0 (i - 2 * k)) i ms ltac:(lia) (GX i ltac:(lia)) W) as (ms' & Es & W').
    rewrite !Es. cbn [bind]. destruct (i <? 2 * k) eqn:E4; cbn [wp fst snd].
    + split; [reflexivity|]. replace (Z.max 0 (i + 1 - 2 * k)) with (Z.max 0 (i - 2 * k)) by lia. assumption.
    + replace (Z.max 0 (i - 2 * k)) with (i - 2 * k) in * by lia.
      destruct (mad_ok good _ RL good' OL' DL k ms' (zf x) (i - 2 * k) (i + 1) ltac:(lia) ltac:(lia) W') as (m & d & Em & Ed & M).
      unfold hf_out. rewrite Em. cbn [bind]. rewrite Ed. cbn [bind]. rewrite rd_zf by lia. cbn [bind].
      destruct (ranks_out good _ RL (zf x) (i - 2 * k) (i + 1) ms' ltac:(lia) (GX (i - 2 * k) ltac:(lia)) W') as (m2 & E5 & W2). rewrite E5. cbn [bind wp fst snd].
      split; [eexists; split; [reflexivity|]; exists m, d; split; [apply M; reflexivity|reflexivity]|].
      replace (Z.max 0 (i + 1 - 2 * k)) with (i - 2 * k + 1) by lia. assumption.
  - exists y. split; [exact E|]. split; [exact L|]. intros j Hj. specialize (V j Hj).
    replace (2 * k + j - 2 * k) with j in V by lia. replace (2 * k + j + 1) with (j + 2 * k + 1) in V by lia. replace (2 * k + j) with (j + 2 * k) in V by lia. exact V.
Qed.

(** ** hfsma *)
Lemma hfsma_values p size x o o' t k : to_int o = Some p -> to_int o' = Some k -> 1 <= p -> 1 <= k -> 2 * k + 1 <= INT_MAX -> p - 1 + 2 * k <= INT_MAX ->
  (t .< #0) = false -> zlen x = size -> (forall i, p - 1 <= i < size -> good (hs_at p x i)) ->
  exists y, ti_hfsma size [x] [o; o'; t] = Ok (OKAY, [y]) /\ zlen y = Z.max 0 (size - (p - 1 + 2 * k)) /\
  forall j, 0 <= j < zlen y -> exists m d, mad k (tab (j + p - 1) (j + p + 2 * k) (hs_at p x)) m d /\
    zf y j = let c := hs_at p x (j + p - 1 + k) in if fabs (c .- m) .<= t .* lit 14826 4 .* d then c else m.
Proof.
  intros Ho Ho' Hp Hk Hm Hm2 Ht Hx GX. pose proof (zlen_nonneg x).
  unfold ti_hfsma. unfold cast. rewrite Ho, Ho'. cbn [bind]. replace (p <? 1) with false by lia. replace (k <? 1) with false by lia. rewrite Ht. rewrite !ck_ok by zl. cbn [bind].
  destruct (ring_new_ok (2 * k + 1) ltac:(lia)) as (rp & -> & Hrp). cbn [bind].
  match goal with |- context [batch_loops 1 size ?l ?s] => destruct (batch_nth1 (fun (i : Z) (a : T * list T * ring) => let '(sum, ms, sm) := a in
      sum = hs_sum p x i /\ ranks good (fun x => x) ms (tab (Z.max (p - 1) (i - 2 * k)) i (hs_at p x)) /\
      (i <= p - 1 -> ring_ok sm (2 * k + 1) (fun _ => #0)) /\ (p - 1 <= i -> hist sm (2 * k + 1) (hs_g p x) i))
    (fun i v => exists m d, mad k (tab (i - 2 * k) (i + 1) (hs_at p x)) m d /\ v = let c := hs_at p x (i - k) in if fabs (c .- m) .<= t .* lit 14826 4 .* d then c else m) (p - 1 + 2 * k) l size s)
    as (y & E & L & V) end.
  - lia.
  - lia.
  - split; [reflexivity|]. split; [rewrite tab_nil by lia; exact (ranks_nil good _)|]. split; [intros _; exact Hrp|]. intros _. apply hist_fresh; [exact Hrp|].
    intros j Hj. unfold hs_g. replace (j <? p - 1) with true by lia. reflexivity.
  - intros i [[sum ms] sm] Hi (-> & W & R0 & R1). unfold dispatch. cbn [dispatch' bounded final]. rewrite !rd_zf by lia. cbn [bind].
    destruct (i <? p - 1) eqn:E5; cbn [wp fst snd].
    + replace (i <? p - 1 + 2 * k) with true by lia. split; [reflexivity|]. split; [rewrite hs_sum_snoc by lia; rewrite E5; reflexivity|].
      rewrite tab_nil in W by lia. rewrite tab_nil by lia. split; [exact W|]. split; [intros _; apply ring_step_fresh, R0; lia|].
      intros _. apply hist_fresh; [apply ring_step_fresh, R0; lia|]. intros j Hj. unfold hs_g. replace (j <? p - 1) with true by lia. reflexivity.
    + change ((hs_sum p x i .+ zf x i) ./ #p) with (hs_at p x i).
      destruct (ranks_in good _ RL (hs_at p x) (Z.max (p - 1) (i - 2 * k)) i ms ltac:(lia) (GX i ltac:(lia)) W) as (ms' & Es & W').
      destruct (hist_set sm (2 * k + 1) (hs_g p x) i (hs_at p x i) (R1 ltac:(lia))) as (s' & E6 & F2); [unfold hs_g; rewrite E5; reflexivity|].
      rewrite !Es. cbn [bind]. rewrite !E6. cbn [bind]. rewrite rd_zf by lia. cbn [bind].
      assert (ES : hs_sum p x i .+ zf x i .- zf x (i - p + 1) = hs_sum p x (i + 1)) by (rewrite hs_sum_snoc by lia; rewrite E5; reflexivity).
      destruct (i <? p - 1 + 2 * k) eqn:E7; cbn [wp fst snd].
      * split; [reflexivity|]. split; [exact ES|]. replace (Z.max (p - 1) (i + 1 - 2 * k)) with (Z.max (p - 1) (i - 2 * k)) by lia.
        split; [assumption|]. split; [lia|]. intros _. apply hist_step; assumption.
      * replace (Z.max (p - 1) (i - 2 * k)) with (i - 2 * k) in * by lia.
        destruct (mad_ok good _ RL good' OL' DL k ms' (hs_at p x) (i - 2 * k) (i + 1) ltac:(lia) ltac:(lia) W') as (m & d & Em & Ed & M).
        unfold hfs_out. rewrite !Em. cbn [bind]. rewrite !Ed. cbn [bind]. rewrite !(full_get _ _ _ _ _ F2) by lia. cbn [bind].
        rewrite ?rd_zf by lia. cbn [bind].
        assert (G : forall j, p - 1 <= j -> hs_g p x j = hs_at p x j) by (intros j Hj; unfold hs_g; replace (j <? p - 1) with false by lia; reflexivity).
        rewrite !G by lia.
        destruct (ranks_out good _ RL (hs_at p x) (i - 2 * k) (i + 1) ms' ltac:(lia) (GX (i - 2 * k) ltac:(lia)) W') as (m2 & E8 & W2). rewrite !E8. cbn [bind wp fst snd].
        split; [eexists; split; [reflexivity|]; exists m, d; split; [apply M; reflexivity|reflexivity]|]. split; [exact ES|].
        replace (Z.max (p - 1) (i + 1 - 2 * k)) with (i - 2 * k + 1) by lia. split; [assumption|]. split; [lia|]. intros _. apply hist_step; assumption.
  - exists y. split; [exact E|]. split; [exact L|]. intros j Hj. specialize (V j Hj).
    replace (p - 1 + 2 * k + j - 2 * k) with (j + p - 1) in V by lia. replace (p - 1 + 2 * k + j + 1) with (j + p + 2 * k) in V by lia. replace (p - 1 + 2 * k + j - k) with (j + p - 1 + k) in V by lia. exact V.
Qed.

(** ** hfema *)
Lemma hfema_values p size x o o' t k : to_int o = Some p -> to_int o' = Some k -> 1 <= p -> 1 <= k -> 2 * k + 1 <= INT_MAX ->
  (t .< #0) = false -> zlen x = size -> (forall i, 0 <= i < size -> good (he_at p x i)) ->
  exists y, ti_hfema size [x] [o; o'; t] = Ok (OKAY, [y]) /\ zlen y = Z.max 0 (size - 2 * k) /\
  forall j, 0 <= j < zlen y -> exists m d, mad k (tab j (j + 2 * k + 1) (he_at p x)) m d /\
    zf y j = let c := he_at p x (j + k) in if fabs (c .- m) .<= t .* lit 14826 4 .* d then c else m.
Proof.
  intros Ho Ho' Hp Hk Hm Ht Hx GX. pose proof (zlen_nonneg x).
  unfold ti_hfema. unfold cast. rewrite Ho, Ho'. cbn [bind]. replace (p <? 1) with false by lia. replace (k <? 1) with false by lia. rewrite Ht. rewrite !ck_ok by zl. cbn [bind].
  destruct (ring_new_ok (2 * k + 1) ltac:(lia)) as (rp & -> & Hrp). cbn [bind].
  match goal with |- context [batch_loops 1 size ?l ?s] => destruct (batch_nth1 (fun (i : Z) (a : option T * list T * ring) => let '(ema, ms, sm) := a in
      (1 <= i -> ema = Some (he_at p x (i - 1))) /\ ranks good (fun x => x) ms (tab (Z.max 0 (i - 2 * k)) i (he_at p x)) /\ hist sm (2 * k + 1) (he_g p x) i)
    (fun i v => exists m d, mad k (tab (i - 2 * k) (i + 1) (he_at p x)) m d /\ v = let c := he_at p x (i - k) in if fabs (c .- m) .<= t .* lit 14826 4 .* d then c else m) (2 * k) l size s)
    as (y & E & L & V) end.
  - lia.
  - lia.
  - split; [lia|]. split; [rewrite tab_nil by lia; exact (ranks_nil good _)|]. apply hist_of_ok; [exact Hrp|intros; unfold he_g; replace (_ <? 0) with true by lia; reflexivity].
  - intros i [[e ms] sm] Hi (He & W & R0). unfold dispatch. cbn [dispatch' bounded final]. rewrite !rd_zf by lia. cbn [bind].
    destruct (ranks_in good _ RL (he_at p x) (Z.max 0 (i - 2 * k)) i ms ltac:(lia) (GX i ltac:(lia)) W) as (ms' & Es & W').
    assert (G : forall j, 0 <= j -> he_g p x j = he_at p x j) by (intros j Hj; unfold he_g; replace (j <? 0) with false by lia; reflexivity).
    destruct (hist_set sm (2 * k + 1) (he_g p x) i (he_at p x i) R0) as (s' & E6 & F2); [symmetry; apply G; lia|].
    destruct (i <? 1) eqn:E5.
    + assert (i = 0) by lia. subst i. replace (zf x 0) with (he_at p x 0) by apply he_at_0. rewrite !E6. cbn [bind]. rewrite (full_cur _ _ _ _ F2). rewrite G by lia. cbn [bind]. rewrite Es. cbn [bind wp fst snd].
      replace (0 <? 2 * k) with true by lia. split; [reflexivity|]. split; [reflexivity|]. replace (Z.max 0 (0 + 1 - 2 * k)) with (Z.max 0 (0 - 2 * k)) by lia. split; [assumption|]. apply hist_step; assumption.
    + rewrite He by lia. unfold val. cbn [bind]. rewrite <- (he_at_S p x i) by lia. rewrite !E6. cbn [bind]. rewrite (full_cur _ _ _ _ F2). rewrite G by lia. cbn [bind]. rewrite !Es. cbn [bind].
      destruct (i <? 2 * k) eqn:E7; cbn [wp fst snd].
      * split; [reflexivity|]. split; [replace (i + 1 - 1) with i by lia; reflexivity|]. replace (Z.max 0 (i + 1 - 2 * k)) with (Z.max 0 (i - 2 * k)) by lia. split; [assumption|]. apply hist_step; assumption.
      * replace (Z.max 0 (i - 2 * k)) with (i - 2 * k) in * by lia.
        destruct (mad_ok good _ RL good' OL' DL k ms' (he_at p x) (i - 2 * k) (i + 1) ltac:(lia) ltac:(lia) W') as (m & d & Em & Ed & M).
        unfold hfs_out. rewrite !Em. cbn [bind]. rewrite !Ed. cbn [bind]. rewrite !(full_get _ _ _ _ _ F2) by lia. cbn [bind]. rewrite !G by lia.
        destruct (ranks_out good _ RL (he_at p x) (i - 2 * k) (i + 1) ms' ltac:(lia) (GX (i - 2 * k) ltac:(lia)) W') as (m2 & E8 & W2). rewrite !E8. cbn [bind wp fst snd].
        split; [eexists; split; [reflexivity|]; exists m, d; split; [apply M; reflexivity|reflexivity]|]. split; [replace (i + 1 - 1) with i by lia; reflexivity|].
        replace (Z.max 0 (i + 1 - 2 * k)) with (i - 2 * k + 1) by lia. split; [assumption|]. apply hist_step; assumption.
  - exists y. split; [exact E|]. split; [exact L|]. intros j Hj. specialize (V j Hj).
    replace (2 * k + j - 2 * k) with j in V by lia. replace (2 * k + j + 1) with (j + 2 * k + 1) in V by lia. replace (2 * k + j - k) with (j + k) in V by lia. exact V.
Qed.

(** ** rmf *)
Lemma sorted_unique l l' : rsorted l -> rsorted l' -> Forall good l -> Forall good l' -> Permutation l l' -> l = l'.
Proof.
  revert l'. induction l as [|u l IH]; intros l' S S' G G' P; [apply Permutation_nil in P; congruence|].
  destruct l' as [|v l']; [symmetry in P; apply Permutation_nil in P; discriminate|].
  inversion_clear S as [|? ? S1 S2]. inversion_clear S' as [|? ? S3 S4]. inversion_clear G as [|? ? G1 G2]. inversion_clear G' as [|? ? G3 G4].
  assert (u = v) as <-.
  { destruct (Permutation_in u P ltac:(left; reflexivity)) as [->|Hu]; [reflexivity|].
    destruct (Permutation_in v (Permutation_sym P) ltac:(left; reflexivity)) as [->|Hv]; [reflexivity|].
    rewrite Forall_forall in S2, S4. apply (rk_key A good _ RL u v G1 G3). auto. }
  f_equal. apply IH; try assumption. eapply Permutation_cons_inv; exact P.
Qed.
(** the median at bar i, and the value written *)
Definition rm_med (n : Z) (x : list T) (i : Z) : T := zf (fold_right ms_ins [] (tab (i - n + 1) (i + 1) (zf x))) (n / 2).
Definition rm_at (c : T) (n : Z) (x : list T) (i : Z) : T :=
  trec (fun j v => rmf_alpha c .* rm_med n x j .+ (#1 .- rmf_alpha c) .* v) n (i + 1) (rm_med n x (n - 1)).
Lemma ranks_sort ms w : ranks good (fun x => x) ms w -> Forall good w -> ms = fold_right ms_ins [] w.
Proof.
  intros (S & G & P) Gw. rewrite !map_id in P. destruct (sort_sorted good _ RL w Gw) as (S1 & S2 & S3).
  apply sorted_unique; try assumption. rewrite P, S3. reflexivity.
Qed.
Lemma tab_forall (P : T -> Prop) lo hi (f : Z -> T) : (forall i, lo <= i < hi -> P (f i)) -> Forall P (tab lo hi f).
Proof. intros H. apply Forall_forall. intros v Hv. unfold tab in Hv. apply in_map_iff in Hv as (n & <- & Hn). apply in_seq in Hn. apply H. lia. Qed.
Lemma rmf_values size x c m n : HalfLaw A -> (m .< #1) = false -> (c .< #1) = false -> to_int m = Some n -> 1 <= n -> Z.rem n 2 = 1 -> zlen x = size -> Forall good x ->
  exists y md, ti_rmf size [x] [c; m] = Ok (OKAY, [y]) /\ zlen y = Z.max 0 (size - (n - 1)) /\
  (forall j, 0 <= j < zlen y -> middle (n / 2) (tab j (j + n) (zf x)) (md j)) /\
  forall j, 0 <= j < zlen y -> zf y j = if j =? 0 then md 0 else rmf_alpha c .* md j .+ (#1 .- rmf_alpha c) .* zf y (j - 1).
Proof.
  intros HL Hm Hc Em Hn Hr Hx G. pose proof (Forall_zf good _ G) as GX. pose proof (zlen_nonneg x).
  unfold ti_rmf, ti_rmf_start. rewrite Hm, Hc. unfold cast at 1 2. rewrite Em. cbn [bind]. rewrite Hr. cbn [negb Z.eqb Pos.eqb].
  rewrite (to_int_pred m n Em Hn). cbn [bind].
  assert (Hd : n = 2 * (n / 2) + 1) by (rewrite Z.rem_mod_nonneg in Hr by lia; pose proof (Z.div_mod n 2); lia).
  match goal with |- context [batch_loops 1 size ?l ?s] => destruct (batch_nth1 (fun (i : Z) (a : option T * (list T * list T)) => let '(v, st) := a in
      (n <= i -> v = Some (rm_at c n x (i - 1))) /\ win good (fun x => x) st (zf x) (Z.max 0 (i - (n - 1))) i)
    (fun i v => v = rm_at c n x i) (n - 1) l size s) as (y & E & L & V) end.
  - lia.
  - lia.
  - split; [lia|]. split; cbn [fst snd]; rewrite tab_nil by lia; [exact (ranks_nil good _)|reflexivity].
  - intros i [v s] Hi (Hv & W). unfold dispatch. cbn [dispatch' bounded final]. rewrite !rd_zf by lia. cbn [bind].
    destruct (push_win good _ RL s (zf x) (Z.max 0 (i - (n - 1))) i ltac:(lia) (GX i ltac:(lia)) W) as (s' & Es & W'). rewrite !Es. cbn [bind].
    destruct (i <? n - 1) eqn:E3.
    + cbn [wp fst snd]. split; [reflexivity|]. split; [lia|]. replace (Z.max 0 (i + 1 - (n - 1))) with (Z.max 0 (i - (n - 1))) by lia. exact W'.
    + replace (Z.max 0 (i - (n - 1))) with (i - n + 1) in * by lia.
      rewrite !(median_win good _ m n s' (zf x) (i - n + 1) (i + 1) HL Em Hn ltac:(lia) W'). cbn [bind].
      destruct (pop_win good _ RL s' (zf x) (i - n + 1) (i + 1) ltac:(lia) (GX (i - n + 1) ltac:(lia)) W') as (s2 & E2' & W2). rewrite !E2'.
      assert (Ed : zf (fst s') (n / 2) = rm_med n x i).
      { unfold rm_med. rewrite <- (ranks_sort (fst s') _ (proj1 W')); [reflexivity|]. apply tab_forall. intros j Hj. apply GX. lia. }
      rewrite Ed. replace (Z.max 0 (i + 1 - (n - 1))) with (i - n + 1 + 1) by lia.
      destruct (i <? n - 1 + 1) eqn:E4.
      * assert (EA : rm_med n x i = rm_at c n x i) by (unfold rm_at; rewrite trec_nil by lia; f_equal; lia).
        cbn [bind wp fst snd]. split; [eexists; split; [reflexivity|exact EA]|]. split; [intros _; replace (i + 1 - 1) with i by lia; rewrite <- EA; reflexivity|exact W2].
      * rewrite Hv by lia. unfold val. cbn [bind wp fst snd].
        assert (EA : rmf_alpha c .* rm_med n x i .+ (#1 .- rmf_alpha c) .* rm_at c n x (i - 1) = rm_at c n x i).
        { unfold rm_at at 2. rewrite trec_snoc by lia. unfold rm_at. replace (i - 1 + 1) with i by lia. reflexivity. }
        rewrite EA. split; [eauto|]. split; [intros _; replace (i + 1 - 1) with i by lia; reflexivity|exact W2].
  - exists y, (fun j => rm_med n x (n - 1 + j)). split; [exact E|]. split; [exact L|]. split.
    + intros j Hj. unfold rm_med. replace (n - 1 + j - n + 1) with j by lia. replace (n - 1 + j + 1) with (j + n) by lia.
      assert (Gw : Forall good (tab j (j + n) (zf x))) by (apply tab_forall; intros i Hi; apply GX; lia).
      destruct (sort_sorted good _ RL _ Gw) as (S1 & S2 & S3). eapply middle_perm; [exact S3|]. apply (sorted_middle good); try assumption; [apply RL|lia|].
      unfold zlen. rewrite (Permutation_length S3). fold (zlen (tab j (j + n) (zf x))). rewrite zlen_tab. lia.
    + intros j Hj. rewrite (V j Hj). destruct (j =? 0) eqn:Ej.
      * unfold rm_at. rewrite trec_nil by lia. f_equal. lia.
      * rewrite (V (j - 1)) by lia. unfold rm_at at 1. rewrite trec_snoc by lia. unfold rm_at. do 2 f_equal. f_equal. lia.
Qed.
End F.

(** C23, C26, C30, C33-C35 and C42 for the indicators that rank the last prices: rmf, hf, hfsma,
    hfema. *)
From Coq Require Import String Floats.SpecFloat.
From Verif Require Import C_stream8 Rank64 Fun_rank RArith RSum F64 F64Ord F64Laws Properties_contracts Properties_stream Properties_stream3 Properties_stream4.
From Coq Require Import Reals Lra ZifyBool.
Open Scope Z_scope.

(** ** The streams *)
(** rmf: no NaN among the prices; hf: no NaN and no infinity; hfsma and hfema, one row for every
    averaging period p: no NaN and no infinity among the averages.  hfsma: p at most 2k+1. *)
Definition rmf_row {A : Arith} (good : T -> Prop) : srow :=
  SRow "rmf"%string 1 1 o_rmf (good_inputs good 1) _ ti_rmf_start ti_rmf ti_rmf_stream_new ti_rmf_stream_run progress.
Definition hf_rows {A : Arith} (good : T -> Prop) (p : Z) : list srow :=
  [ SRow "hf"%string 1 1 o_hf (good_inputs good 1) _ ti_hf_start ti_hf ti_hf_stream_new ti_hf_stream_run progress;
    SRow "hfsma"%string 1 1 (o_hfsma p false) (good_sma good p) _ ti_hfsma_start ti_hfsma ti_hfsma_stream_new ti_hfsma_stream_run progress;
    SRow "hfema"%string 1 1 (o_hfema p) (good_ema good p) _ ti_hfema_start ti_hfema ti_hfema_stream_new ti_hfema_stream_run progress ].
Lemma hf_rows_all {A : Arith} {IL : IntLaws A} good key good' p : RankLaws A good key -> OrdLaws A good' ->
  (forall x y, good x -> good y -> good' (fabs (x .- y))) -> Forall row_all (hf_rows good p).
Proof.
  intros RL OL' DL. unfold hf_rows. rows.
  all: first [exact (hf_sim good key RL good' OL' DL)|exact hf_online|exact (hfsma_sim good key RL good' OL' DL p)|exact hfsma_online
    |exact (hfema_sim good key RL good' OL' DL p)|exact hfema_online].
Qed.
Theorem C30_rank_partial : forall lm pw p, Forall (fun r => row_stream r /\ row_progress r /\ row_options r /\ row_causal r /\ row_safe r)
  (@rmf_row (F64 lm pw) not_nan :: @hf_rows (F64 lm pw) finite64 p).
Proof.
  intros lm pw p. eapply Forall_impl with (P := @row_all (F64 lm pw)); [intros r (H1 & H2 & H3 & H4 & H5 & _); auto|]. constructor.
  - apply row_intro; [repeat constructor|exact (@rmf_sim (F64 lm pw) _ _ (not_nan_rank lm pw) _ (half_F64 lm pw))|exact rmf_online].
  - exact (@hf_rows_all (F64 lm pw) _ _ _ _ p (finite_rank lm pw) (F64_ord lm pw) (finite_dev lm pw)).
Qed.
Print Assumptions C30_rank_partial.

(** Ordinary prices meet the conditions.  A spike is replaced by the median; the series in two
    chunks. *)
Lemma good_sma_check : let x := [dbl 1 0; dbl 2 0; dbl 9 0; dbl 3 0; dbl 2 0; dbl 25 1] in @good_sma F64c finite64 2 [x] /\ @good_ema F64c finite64 2 [x].
Proof.
  cbv zeta. unfold good_sma, good_ema. split; intros i Hi.
  - assert (Hj : 1 <= i < 6) by exact Hi; assert (H : In i [1; 2; 3; 4; 5]) by (cbn; lia); clear Hi Hj. cbn [In] in H. repeat destruct H as [<-|H]; [..|contradiction]; vm_compute; auto.
  - assert (Hj : 0 <= i < 6) by exact Hi; assert (H : In i [0; 1; 2; 3; 4; 5]) by (cbn; lia); clear Hi Hj. cbn [In] in H. repeat destruct H as [<-|H]; [..|contradiction]; vm_compute; auto.
Qed.
Example C30_rank_example :
  let x := [dbl 1 0; dbl 2 0; dbl 9 0; dbl 3 0; dbl 2 0; dbl 25 1] in let y := [dbl 2 0; dbl 3 0; dbl 2 0; dbl 25 1] in
  let z := [dbl 55 1; dbl 6 0; dbl 25 1] in
  accepted o_hf [dbl 1 0; dbl 2 0] /\ @good_inputs F64c finite64 1 [x] /\
  @ti_hf F64c 6 [x] [dbl 1 0; dbl 2 0] = Ok (OKAY, [y]) /\
  @stream_outputs F64c _ ti_hf_stream_new ti_hf_stream_run 1 [dbl 1 0; dbl 2 0] [[firstn 3 x]; [skipn 3 x]] = Some [y] /\
  accepted (o_hfsma 2 false) [dbl 2 0; dbl 1 0; dbl 2 0] /\ @good_sma F64c finite64 2 [x] /\
  @ti_hfsma F64c 6 [x] [dbl 2 0; dbl 1 0; dbl 2 0] = Ok (OKAY, [z]) /\
  @stream_outputs F64c _ ti_hfsma_stream_new ti_hfsma_stream_run 1 [dbl 2 0; dbl 1 0; dbl 2 0] [[firstn 3 x]; [skipn 3 x]] = Some [z].
Proof.
  cbv zeta. split; [exists 2, (dbl 1 0), 1, (dbl 2 0); vm_compute; auto|]. split; [repeat constructor|]. split; [vm_compute; reflexivity|]. split; [vm_compute; reflexivity|].
  split; [exists 3, (dbl 2 0), (dbl 1 0), 1, (dbl 2 0); vm_compute; auto|]. split; [apply good_sma_check|]. split; vm_compute; reflexivity.
Qed.
(** hfema and rmf: the batch call and the stream again agree and the values differ. *)
Example C30_rank_example2 :
  let x := [dbl 1 0; dbl 2 0; dbl 9 0; dbl 3 0; dbl 2 0; dbl 25 1] in
  accepted (o_hfema 2) [dbl 2 0; dbl 1 0; dbl 2 0] /\ @good_ema F64c finite64 2 [x] /\
  (exists a b c d, @ti_hfema F64c 6 [x] [dbl 2 0; dbl 1 0; dbl 2 0] = Ok (OKAY, [[a; b; c; d]]) /\ a <> b /\ b <> c /\ c <> d /\
   @stream_outputs F64c _ ti_hfema_stream_new ti_hfema_stream_run 1 [dbl 2 0; dbl 1 0; dbl 2 0] [[firstn 3 x]; [skipn 3 x]] = Some [[a; b; c; d]]) /\
  @accepted F64d o_rmf [dbl 12 0; dbl 3 0] /\ @good_inputs F64d not_nan 1 [x] /\
  (exists a b c d, @ti_rmf F64d 6 [x] [dbl 12 0; dbl 3 0] = Ok (OKAY, [[a; b; c; d]]) /\ a <> b /\ b <> c /\ c <> d /\
   @stream_outputs F64d _ ti_rmf_stream_new ti_rmf_stream_run 1 [dbl 12 0; dbl 3 0] [[firstn 3 x]; [skipn 3 x]] = Some [[a; b; c; d]]).
Proof.
  cbv zeta. split; [exists 2, (dbl 2 0), (dbl 1 0), 1, (dbl 2 0); vm_compute; auto|]. split; [apply good_sma_check|].
  split; [do 4 eexists; split; [vm_compute; reflexivity|]; split; [vm_compute; discriminate|]; split; [vm_compute; discriminate|]; split; [vm_compute; discriminate|vm_compute; reflexivity]|].
  split; [exists 2, (dbl 12 0), (dbl 3 0); vm_compute; auto|]. split; [repeat constructor; vm_compute; discriminate|].
  do 4 eexists; split; [vm_compute; reflexivity|]; split; [vm_compute; discriminate|]; split; [vm_compute; discriminate|]; split; [vm_compute; discriminate|vm_compute; reflexivity].
Qed.

(** Full statement: the same for every sma_period.  False: the stream keeps 2k+1 prices but reads
    the one sma_period-1 bars back. *)
Theorem C30_hfsma_refuted : exists options x v,
  @ti_hfsma F64c 6 [x] options = Ok (OKAY, [[v]]) /\
  @stream_failure F64c _ ti_hfsma_stream_new ti_hfsma_stream_run 1 options [[x]] = Some Assert.
Proof. exists [dbl 4 0; dbl 1 0; dbl 1 0], (ones 6). eexists. split; vm_compute; reflexivity. Qed.
Print Assumptions C30_hfsma_refuted.

(** ** C23: a NaN price *)
(** It is inserted into a std::multiset, whose order must be a strict weak order.  The same holds for
    the infinities in hf: their difference is NaN and the deviations go through std::nth_element. *)
Theorem C23_rank_refuted : exists x i,
  (exists options, @unsafe_call F64d 1 ti_rmf_start ti_rmf 3 [x] options /\ @ti_rmf F64d 3 [x] options = Ub BadOrder) /\
  (exists options, @unsafe_call F64c 1 ti_hf_start ti_hf 3 [x] options /\ @ti_hf F64c 3 [x] options = Ub BadOrder /\ @ti_hf F64c 3 [i] options = Ub BadOrder) /\
  (exists options, @unsafe_call F64c 1 ti_hfsma_start ti_hfsma 3 [x] options /\ @ti_hfsma F64c 3 [x] options = Ub BadOrder) /\
  (exists options, @unsafe_call F64c 1 ti_hfema_start ti_hfema 3 [x] options /\ @ti_hfema F64c 3 [x] options = Ub BadOrder).
Proof.
  exists [dbl 1 0; S754_nan; dbl 1 0], [dbl 1 0; S754_infinity false; S754_infinity false].
  split; [exists [dbl 12 0; dbl 3 0]; unsafe|]. split; [exists [dbl 1 0; dbl 1 0]; rewrite and_assoc_l; split; [unsafe|vm_compute; reflexivity]|].
  split; exists [dbl 1 0; dbl 1 0; dbl 1 0]; unsafe.
Qed.
Print Assumptions C23_rank_refuted.

(** ** C42: what the filters compute *)
(** [middle k w m]: m is one of the values w, at most k of them are less and at most k greater, so
    for 2k+1 values it is their median.  [mad k w m d]: m is the median of w and d the median of the
    distances from m. *)
(** hf keeps the newest price if it is nearer to the median of the last 2k+1 prices than t times
    1.4826 times the median deviation. *)
Definition hf_spec {A : Arith} (good : T -> Prop) : Prop := forall size x o t k,
  to_int o = Some k -> 1 <= k -> 2 * k + 1 <= INT_MAX -> (t .< #0) = false -> zlen x = size -> Forall good x ->
  exists y, ti_hf size [x] [o; t] = Ok (OKAY, [y]) /\ zlen y = Z.max 0 (size - 2 * k) /\
  forall j, 0 <= j < zlen y -> exists m d, mad k (tab j (j + 2 * k + 1) (zf x)) m d /\
    zf y j = if fabs (zf x (j + 2 * k) .- m) .< t .* lit 14826 4 .* d then zf x (j + 2 * k) else m.
Theorem C42_hf_exact : @hf_spec RA (fun _ => True).
Proof. exact (@hf_values RA _ RA_rank _ RA_ord (fun _ _ _ _ => I)). Qed.
Print Assumptions C42_hf_exact.
Theorem C42_hf_binary64 : forall lm pw, @hf_spec (F64 lm pw) (fun v => finite64 v /\ v <> S754_zero true).
Proof.
  intros lm pw. refine (@hf_values (F64 lm pw) _ (plain_rank lm pw _ _) not_nan (F64_ord lm pw) _).
  - intros v [H1 H2]. split; [exact (finite_not_nan v H1)|exact H2].
  - intros u v [H1 _] [H2 _]. apply finite_dev; assumption.
Qed.
Print Assumptions C42_hf_binary64.

(** rmf smooths the medians of the last n prices. *)
Definition rmf_spec {A : Arith} (good : T -> Prop) : Prop := forall size x c m n,
  (m .< #1) = false -> (c .< #1) = false -> to_int m = Some n -> 1 <= n -> Z.rem n 2 = 1 -> zlen x = size -> Forall good x ->
  let w := #2 .* Arith.PI ./ c in let a := (libm Lcos w .+ libm Lsin w .- #1) ./ libm Lcos w in
  exists y md, ti_rmf size [x] [c; m] = Ok (OKAY, [y]) /\ zlen y = Z.max 0 (size - (n - 1)) /\
  (forall j, 0 <= j < zlen y -> middle (n / 2) (tab j (j + n) (zf x)) (md j)) /\
  forall j, 0 <= j < zlen y -> zf y j = if j =? 0 then md 0 else a .* md j .+ (#1 .- a) .* zf y (j - 1).
Theorem C42_rmf_exact : @rmf_spec RA (fun _ => True).
Proof. intros size x c m n H1 H2 H3 H4 H5 H6 H7. exact (@rmf_values RA _ _ RA_rank (fun _ => True) (fun _ _ _ _ => I) size x c m n half_RA H1 H2 H3 H4 H5 H6 H7). Qed.
Theorem C42_rmf_binary64 : forall lm pw, @rmf_spec (F64 lm pw) plain.
Proof.
  intros lm pw size x c m n H1 H2 H3 H4 H5 H6 H7.
  exact (@rmf_values (F64 lm pw) _ _ (plain_rank lm pw plain (fun _ H => H)) (fun _ => True) (fun _ _ _ _ => I) size x c m n (half_F64 lm pw) H1 H2 H3 H4 H5 H6 H7).
Qed.
Print Assumptions C42_rmf_binary64.

(** hfsma, hfema: the same over the averages [e], with the middle average as the candidate and [<=]. *)
Definition rule (k : Z) (t : R) (e : Z -> R) (lo : Z) (v : R) : Prop := exists m d, @mad RA k (tab lo (lo + 2 * k + 1) e) m d /\
  v = if Rleb (Rabs (e (lo + k) - m)) (t * (14826 / 10000) * d) then e (lo + k) else m.
Lemma hs_sum_R p (x : list R) i : 1 <= p -> 0 <= i -> @hs_sum RA p x i = zsum (Z.max 0 (i - p + 1)) i (@zf RA x).
Proof.
  intros Hp Hi. apply (zind (fun i => @hs_sum RA p x i = zsum (Z.max 0 (i - p + 1)) i (@zf RA x)) 0 i Hi).
  - rewrite zsum_nil by lia. reflexivity.
  - intros m Hm IH. rewrite (@hs_sum_snoc RA) by lia. rewrite IH. cbn [fadd fsub RA]. destruct (m <? p - 1) eqn:E.
    + replace (Z.max 0 (m + 1 - p + 1)) with (Z.max 0 (m - p + 1)) by lia. rewrite zsum_snoc by lia. reflexivity.
    + replace (Z.max 0 (m - p + 1)) with (m - p + 1) by lia. replace (Z.max 0 (m + 1 - p + 1)) with (m - p + 1 + 1) by lia.
      assert (E1 : zsum (m - p + 1) (m + 1) (@zf RA x) = (zsum (m - p + 1) m (@zf RA x) + @zf RA x m)%R) by (apply zsum_snoc; lia).
      rewrite zsum_cons in E1 by lia. lra.
Qed.
Theorem C42_hfsma_exact : forall size (x : list R) o o' t p k,
  @to_int RA o = Some p -> @to_int RA o' = Some k -> 1 <= p -> 1 <= k -> 2 * k + 1 <= INT_MAX -> p - 1 + 2 * k <= INT_MAX -> (0 <= t)%R -> zlen x = size ->
  exists y, @ti_hfsma RA size [x] [o; o'; t] = Ok (OKAY, [y]) /\ zlen y = Z.max 0 (size - (p - 1 + 2 * k)) /\
  forall j, 0 <= j < zlen y -> rule k t (fun i => (zsum (i - p + 1) (i + 1) (@zf RA x) / IZR p)%R) (j + p - 1) (@zf RA y j).
Proof.
  intros size x o o' t p k H1 H2 H3 H4 H5 H6 H7 H8.
  destruct (@hfsma_values RA _ RA_rank _ RA_ord (fun _ _ _ _ => I) p size x o o' t k H1 H2 H3 H4 H5 H6) as (y & E & L & V).
  - cbn. destruct (Rltb_spec t 0); [lra|reflexivity].
  - exact H8.
  - intros; exact I.
  - exists y. split; [exact E|]. split; [exact L|]. intros j Hj. destruct (V j Hj) as (m & d & M & Ey). clear V.
    assert (G : forall i, p - 1 <= i -> @hs_at RA p x i = (zsum (i - p + 1) (i + 1) (@zf RA x) / IZR p)%R).
    { intros i Hi. unfold hs_at. rewrite hs_sum_R by lia. rewrite Z.max_r by lia. rewrite zsum_snoc by lia. reflexivity. }
    exists m, d. split.
    + replace (j + p - 1 + 2 * k + 1) with (j + p + 2 * k) by lia. rewrite <- (tab_ext _ _ (@hs_at RA p x)); [exact M|]. intros i Hi. apply G. lia.
    + rewrite <- G by lia. exact Ey.
Qed.
Print Assumptions C42_hfsma_exact.
Theorem C42_hfema_exact : forall size (x : list R) o o' t p k,
  @to_int RA o = Some p -> @to_int RA o' = Some k -> 1 <= p -> 1 <= k -> 2 * k + 1 <= INT_MAX -> (0 <= t)%R -> zlen x = size ->
  exists y (e : Z -> R), @ti_hfema RA size [x] [o; o'; t] = Ok (OKAY, [y]) /\ zlen y = Z.max 0 (size - 2 * k) /\
  e 0 = @zf RA x 0 /\ (forall i, 1 <= i < size -> e i = (e (i - 1)%Z + 2 / (1 + IZR p) * (@zf RA x i - e (i - 1)%Z))%R) /\
  forall j, 0 <= j < zlen y -> rule k t e j (@zf RA y j).
Proof.
  intros size x o o' t p k H1 H2 H3 H4 H5 H7 H8.
  destruct (@hfema_values RA _ RA_rank _ RA_ord (fun _ _ _ _ => I) p size x o o' t k H1 H2 H3 H4 H5) as (y & E & L & V).
  - cbn. destruct (Rltb_spec t 0); [lra|reflexivity].
  - exact H8.
  - intros; exact I.
  - exists y, (@he_at RA p x). split; [exact E|]. split; [exact L|]. split; [exact (@he_at_0 RA p x)|]. split; [|exact V].
    intros i Hi. rewrite (@he_at_S RA p x i) at 1 by lia. cbn. unfold Rdiv. lra.
Qed.
Print Assumptions C42_hfema_exact.
(** The hypotheses can be met: the values of C30_rank_example. *)
Example C42_example : let x := [dbl 1 0; dbl 2 0; dbl 9 0; dbl 3 0; dbl 2 0; dbl 25 1] in
  @to_int F64c (dbl 1 0) = Some 1 /\ @flt F64c (dbl 2 0) (@of_Z F64c 0) = false /\ Forall (fun v => finite64 v /\ v <> S754_zero true) x /\
  @mad F64c 1 [dbl 1 0; dbl 2 0; dbl 9 0] (dbl 2 0) (dbl 1 0) /\ @mad F64c 1 [dbl 3 0; dbl 2 0; dbl 25 1] (dbl 25 1) (dbl 5 1).
Proof.
  cbv zeta. split; [reflexivity|]. split; [reflexivity|]. split; [repeat constructor; vm_compute; discriminate|].
  split; repeat split; try (vm_compute; discriminate); vm_compute; auto 8.
Qed.

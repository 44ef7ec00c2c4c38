(** C44: the remaining batch moving averages and the two decay lines, in exact arithmetic.

    Reading guide: the formulas are in SpecR3.v ([ema1], [ema2], [ema3] and [last_sd] in SpecR2.v).
    The averages defined step by step are unfolded in [C44_recurrences]. *)
From Coq Require Import Reals Lra.
From Verif Require Import M_osc Fun_any Fun_basic Fun_exact Fun_batch1 Fun_batch2 Fun_batch3 Fun_batch4 Fun_batch5 RSum RArith Properties_basic Properties_value Properties_value2 Properties_batch1 Properties_batch2.
From Verif Require Export SpecR3.
Open Scope Z_scope.

(** ** The vocabulary *)
Theorem C44_recurrences :
  (forall p x, kama_at p x (p - 1) = zr x (p - 1) /\ forall i, p <= i -> kama_at p x i = (kama_at p x (i - 1) + kama_share p x i * (zr x i - kama_at p x (i - 1)))%R) /\
  (forall s g a x, vidya_at s g a x (g - 2) = zr x (g - 2) /\ forall i, g - 1 <= i -> vidya_at s g a x i = (vidya_at s g a x (i - 1) + vidya_share s g a x i * (zr x i - vidya_at s g a x (i - 1)))%R) /\
  (forall p x, let lag := (p - 1) / 2 in zlema_at p x (lag - 1) = zr x (lag - 1) /\
     forall i, lag <= i -> zlema_at p x i = (zlema_at p x (i - 1) + 2 / (IZR p + 1) * (zr x i + (zr x i - zr x (i - lag)%Z) - zlema_at p x (i - 1)))%R).
Proof.
  cbv zeta. repeat split; intros; unfold kama_at, vidya_at, zlema_at; try (rewrite trec_nil by lia; reflexivity).
  - rewrite trec_snoc by lia. rewrite Z.sub_add. reflexivity.
  - rewrite trec_snoc by lia. rewrite Z.sub_add. reflexivity.
  - cbv zeta. rewrite trec_snoc by lia. rewrite Z.sub_add. ring.
Qed.
Print Assumptions C44_recurrences.

(** ** The indicators *)
Theorem C44_dema : forall size x p, zlen x = size -> 0 <= size <= INT_MAX -> 1 <= p <= 1073741824 ->
  @ti_dema RA size [x] [IZR p] = Ok (OKAY, [tab (2 * p - 2) size (fun i => 2 * ema1 p x i - ema2 p x i)%R]).
Proof. intros size x p **. rewrite (demaR_fun size x _ p) by (try apply RA_int; zl). tabat. replace (2 * p - 2) with (2 * (p - 1)) in * by lia. reflexivity. Qed.
Print Assumptions C44_dema.
Theorem C44_tema : forall size x p, zlen x = size -> 0 <= size <= INT_MAX -> 1 <= p <= 715827883 ->
  @ti_tema RA size [x] [IZR p] = Ok (OKAY, [tab (3 * p - 3) size (fun i => 3 * ema1 p x i - 3 * ema2 p x i + ema3 p x i)%R]).
Proof. intros size x p **. rewrite (tema_fun size x _ p) by (try apply RA_int; zl). tabat. replace (3 * p - 3) with (3 * (p - 1)) in * by lia. reflexivity. Qed.
Print Assumptions C44_tema.
(** Periods below 3 have lag 0 and read before the series: [C26_zlema_refuted]. *)
Theorem C44_zlema_partial : forall size x p, zlen x = size -> 0 <= size <= INT_MAX -> 3 <= p <= INT_MAX ->
  @ti_zlema RA size [x] [IZR p] = Ok (OKAY, [tab ((p - 1) / 2 - 1) size (zlema_at p x)]).
Proof. intros size x p **. rewrite (zlemaR_fun size x _ p) by (try apply RA_int; zl). tabat. reflexivity. Qed.
Print Assumptions C44_zlema_partial.
Theorem C44_kama : forall size x p, zlen x = size -> 0 <= size <= INT_MAX -> 1 <= p <= INT_MAX ->
  @ti_kama RA size [x] [IZR p] = Ok (OKAY, [tab (p - 1) size (kama_at p x)]).
Proof. intros size x p **. rewrite (kama_fun size x _ p) by (try apply RA_int; zl). tabat. reflexivity. Qed.
Print Assumptions C44_kama.
(** One length is missing: a series of long - 1 bars is read past its end ([C25_vidya_refuted]). *)
Theorem C44_vidya_partial : forall size x s g a, zlen x = size -> 0 <= size <= INT_MAX -> 1 <= s <= g -> 2 <= g <= INT_MAX -> (0 <= a <= 1)%R -> size <> g - 1 ->
  @ti_vidya RA size [x] [IZR s; IZR g; a] = Ok (OKAY, [tab (g - 2) size (vidya_at s g a x)]).
Proof. intros size x s g a **. rewrite (vidya_fun size x _ _ a s g) by first [assumption|apply RA_int; zl|zl]. tabat. reflexivity. Qed.
Print Assumptions C44_vidya_partial.
(** Periods 1 and 2 run the simple average instead: the formula is the same. *)
Theorem C44_trima : forall size x p, zlen x = size -> 0 <= size <= INT_MAX -> 1 <= p <= 92679 ->
  @ti_trima RA size [x] [IZR p] = Ok (OKAY, [tab (p - 1) size (trima_at p x)]).
Proof.
  intros size x p Hx Hs Hp. destruct (Z.le_gt_cases 3 p).
  { rewrite (trima_fun size x _ p) by (try apply RA_int; zl). tabat. reflexivity. }
  assert (E : @ti_trima RA size [x] [IZR p] = if size <=? p - 1 then Ok (OKAY, [[]]) else @ti_sma RA size [x] [IZR p]).
  { unfold ti_trima, start_p1. unfold cast. rewrite (RA_int p) by zl. cbn [bind]. replace (p <? 1) with false by lia. unfold ck. replace ((INT_MIN <=? p - 1) && (p - 1 <=? INT_MAX))%bool with true by zl. cbn [bind]. replace (p <=? 2) with true by lia. reflexivity. }
  rewrite E. destruct (size <=? p - 1) eqn:Es. { rewrite tab_nil by lia. reflexivity. }
  rewrite (sma_fun size x _ p) by (try apply RA_int; zl). tabat.
  change (@T RA) with R in *. unfold mean, trima_at. rewrite Rsum_window, zlen_window by lia. assert (C : p = 1 \/ p = 2) by lia. destruct C as [-> | ->].
  - rewrite (zsum_cons 0), !(zsum_nil (0 + 1)) by lia. rewrite (zsum_cons k), (zsum_nil (k + 1)), (zsum_cons 0), (zsum_nil (0 + 1)) by lia. unfold triw. cbn. replace (k + 0 - 1 + 1 + 0) with k by lia. field.
  - rewrite (zsum_cons 0), (zsum_cons (0 + 1)), !(zsum_nil (0 + 1 + 1)) by lia. rewrite (zsum_cons k), (zsum_cons (k + 1)), (zsum_nil (k + 1 + 1)), (zsum_cons 0), (zsum_cons (0 + 1)), (zsum_nil (0 + 1 + 1)) by lia. unfold triw. cbn. replace (k + 1 - 2 + 1 + 0) with k by lia. replace (k + 1 - 2 + 1 + 1) with (k + 1) by lia. field.
Qed.
Print Assumptions C44_trima.
(** Period 1 divides by zero: [C26_hma_refuted].  Above 46340 the weights overflow. *)
Theorem C44_hma_partial : forall size x p, zlen x = size -> 0 <= size <= INT_MAX -> 2 <= p <= 46340 ->
  @ti_hma RA size [x] [IZR p] = Ok (OKAY, [tab (p + Z.sqrt p - 2) size (hma_at p x)]).
Proof. intros size x p **. rewrite (hma_fun size x _ p) by (try apply RA_int; zl). tabat. reflexivity. Qed.
Print Assumptions C44_hma_partial.
(** The recursive moving trend average, for any two sequences that follow its two equations.
    Period 1 takes the first bar twice: [C44_rmta_refuted]. *)
Theorem C44_rmta_partial : forall size x p beta (b r : Z -> R), zlen x = size -> 0 <= size <= INT_MAX -> 2 <= p <= INT_MAX ->
  b 0 = (beta * zr x 0 + zr x 0)%R -> r 0 = (beta * zr x 0 + (1 - beta) * (zr x 0 + b 0%Z))%R ->
  (forall i, 1 <= i < size -> b i = (beta * b (i - 1)%Z + zr x i)%R /\ r i = (beta * r (i - 1)%Z + (1 - beta) * (zr x i + b i - b (i - 1)%Z))%R) ->
  @ti_rmta RA size [x] [IZR p; beta] = Ok (OKAY, [tab (p - 1) size r]).
Proof.
  intros size x p beta b r Hx Hs Hp Hb Hr Hi. etransitivity; [apply (@rmta_fun RA _ size x _ beta p); try apply RA_int; zl|]. tabat.
  replace (k + p) with (k + (p - 1) + 1) by lia. set (n := k + (p - 1)). assert (Hn : 0 <= n < size) by lia. clearbody n.
  assert (G : trec (fun i : Z => @rmta_step RA (@fsub RA (@of_Z RA 1) beta) (@zf RA x i)) 1 (n + 1) (@rmta_init RA (@fsub RA (@of_Z RA 1) beta) (@zf RA x 0)) = (b n, r n)).
  { apply (zind (fun n => n < size -> trec (fun i : Z => @rmta_step RA (@fsub RA (@of_Z RA 1) beta) (@zf RA x i)) 1 (n + 1) (@rmta_init RA (@fsub RA (@of_Z RA 1) beta) (@zf RA x 0)) = (b n, r n)) 0 n); [lia| | |lia].
    - intros. rewrite trec_nil by lia. unfold rmta_init. toR. rewrite Hr, Hb. f_equal; ring.
    - intros m Hm IH Hl. rewrite trec_snoc by lia. rewrite IH by lia. unfold rmta_step. toR. destruct (Hi (m + 1) ltac:(lia)) as [E1 E2]. replace (m + 1 - 1) with m in * by lia. rewrite E2, E1. f_equal; ring. }
  rewrite G. reflexivity.
Qed.
Print Assumptions C44_rmta_partial.
Theorem C44_rmta_refuted : exists (b r : Z -> R), let x := [1]%R in let beta := (1 / 2)%R in
  b 0 = (beta * zr x 0 + zr x 0)%R /\ r 0 = (beta * zr x 0 + (1 - beta) * (zr x 0 + b 0%Z))%R /\ tab 0 1 r = [7 / 4]%R /\
  @ti_rmta RA 1 [x] [1%R; beta] = Ok (OKAY, [[3 / 2]%R]).
Proof.
  exists (fun _ => 3 / 2)%R, (fun _ => 7 / 4)%R. cbv zeta. split; [nums; lra|]. split; [nums; lra|]. split; [reflexivity|].
  unfold ti_rmta, ti_rmta_start, cast. rewrite (RA_int 1) by zl. nums. apply okl, consl; [|reflexivity]. apply consl; [|reflexivity]. field.
Qed.
Print Assumptions C44_rmta_refuted.

(** ** The decay lines: the highest of the earlier values, each lowered by its age. *)
Lemma decay_max_R d x : @decay_step RA d x = Rmax x d.
Proof. unfold decay_step. toR. destruct (Rltb_spec d x); unfold Rmax; destruct (Rle_dec x d); lra. Qed.
Theorem C44_decay : forall size x p, zlen x = size -> 0 <= size <= INT_MAX -> 1 <= p <= INT_MAX ->
  exists v, @ti_decay RA size [x] [IZR p] = Ok (OKAY, [tab 0 size v]) /\
  forall i, 0 <= i < size ->
    (forall j, 0 <= j <= i -> (zr x j - IZR (i - j) / IZR p <= v i)%R) /\ (exists j, 0 <= j <= i /\ v i = (zr x j - IZR (i - j) / IZR p)%R).
Proof.
  intros size x p Hx Hs Hp. eexists. split; [apply (@decay_fun RA size x _ p); try apply RA_int; zl|]. cbv beta. intros i Hi.
  apply (zind (fun i => (forall j, 0 <= j <= i -> (zr x j - IZR (i - j) / IZR p <= trec (fun i v => @decay_step RA (@fsub RA v (@fdiv RA (@of_Z RA 1) (@of_Z RA p))) (@zf RA x i)) 1 (i + 1) (@zf RA x 0))%R) /\
      (exists j, 0 <= j <= i /\ trec (fun i v => @decay_step RA (@fsub RA v (@fdiv RA (@of_Z RA 1) (@of_Z RA p))) (@zf RA x i)) 1 (i + 1) (@zf RA x 0) = (zr x j - IZR (i - j) / IZR p)%R)) 0 i); [lia| |].
  - rewrite trec_nil by lia. toR. split.
    + intros j Hj. replace j with 0 by lia. replace (0 - 0) with 0 by lia. unfold Rdiv. rewrite Rmult_0_l. lra.
    + exists 0. split; [lia|]. replace (0 - 0) with 0 by lia. unfold Rdiv. rewrite Rmult_0_l. lra.
  - intros n Hn [IH1 (j0 & Hj0 & IH2)]. lazymatch goal with IH : trec ?f 1 (n + 1) ?a = _ |- _ => set (V := trec f 1 (n + 1) a) in *; pose proof (trec_snoc f 1 (n + 1) a ltac:(lia)) as E; fold V in E; rewrite E; clear E end.
    clearbody V. rewrite decay_max_R. toR. change (@T RA) with R in *. 
    assert (S : forall j, (zr x j - IZR (n + 1 - j) / IZR p = zr x j - IZR (n - j) / IZR p - 1 / IZR p)%R).
    { intros j. replace (n + 1 - j) with (n - j + 1) by lia. rewrite plus_IZR. field. apply not_0_IZR. lia. }
    split.
    + intros j Hj. destruct (Z.eq_dec j (n + 1)) as [->|].
      * replace (n + 1 - (n + 1)) with 0 by lia. unfold Rdiv at 1. rewrite Rmult_0_l. pose proof (Rmax_l (zr x (n + 1)) (V - 1 / IZR p)). lra.
      * rewrite S. specialize (IH1 j ltac:(lia)). pose proof (Rmax_r (zr x (n + 1)) (V - 1 / IZR p)). lra.
    + unfold Rmax. destruct (Rle_dec (zr x (n + 1)) (V - 1 / IZR p)).
      * exists j0. split; [lia|]. rewrite S, IH2. reflexivity.
      * exists (n + 1). split; [lia|]. replace (n + 1 - (n + 1)) with 0 by lia. unfold Rdiv. rewrite Rmult_0_l. lra.
Qed.
Print Assumptions C44_decay.
Theorem C44_edecay : forall size x p, zlen x = size -> 0 <= size <= INT_MAX -> 1 <= p <= INT_MAX ->
  exists v, @ti_edecay RA size [x] [IZR p] = Ok (OKAY, [tab 0 size v]) /\
  forall i, 0 <= i < size ->
    (forall j, 0 <= j <= i -> (zr x j * (1 - 1 / IZR p) ^ Z.to_nat (i - j) <= v i)%R) /\ (exists j, 0 <= j <= i /\ v i = (zr x j * (1 - 1 / IZR p) ^ Z.to_nat (i - j))%R).
Proof.
  intros size x p Hx Hs Hp. eexists. split; [apply (@edecay_fun RA size x _ p); try apply RA_int; zl|]. cbv beta. intros i Hi.
  assert (Q : (0 <= 1 - 1 / IZR p)%R). { assert (1 <= IZR p)%R by (apply IZR_le; lia). assert (1 / IZR p <= 1)%R; [|lra]. apply (Rmult_le_reg_r (IZR p)); [lra|]. unfold Rdiv. rewrite Rmult_assoc, Rinv_l by lra. lra. }
  apply (zind (fun i => (forall j, 0 <= j <= i -> (zr x j * (1 - 1 / IZR p) ^ Z.to_nat (i - j) <= trec (fun i v => @decay_step RA (@fmul RA v (@fsub RA (@of_Z RA 1) (@fdiv RA (@of_Z RA 1) (@of_Z RA p)))) (@zf RA x i)) 1 (i + 1) (@zf RA x 0))%R) /\
      (exists j, 0 <= j <= i /\ trec (fun i v => @decay_step RA (@fmul RA v (@fsub RA (@of_Z RA 1) (@fdiv RA (@of_Z RA 1) (@of_Z RA p)))) (@zf RA x i)) 1 (i + 1) (@zf RA x 0) = (zr x j * (1 - 1 / IZR p) ^ Z.to_nat (i - j))%R)) 0 i); [lia| |].
  - rewrite trec_nil by lia. toR. split.
    + intros j Hj. replace j with 0 by lia. cbn. lra.
    + exists 0. split; [lia|]. cbn. lra.
  - intros n Hn [IH1 (j0 & Hj0 & IH2)]. lazymatch goal with IH : trec ?f 1 (n + 1) ?a = _ |- _ => set (V := trec f 1 (n + 1) a) in *; pose proof (trec_snoc f 1 (n + 1) a ltac:(lia)) as E; fold V in E; rewrite E; clear E end.
    clearbody V. rewrite decay_max_R. toR. change (@T RA) with R in *. set (q := (1 - 1 / IZR p)%R) in *.
    assert (S : forall j, j <= n -> (zr x j * q ^ Z.to_nat (n + 1 - j) = zr x j * q ^ Z.to_nat (n - j) * q)%R).
    { intros j Hj. replace (Z.to_nat (n + 1 - j)) with (S (Z.to_nat (n - j))) by lia. cbn [pow]. ring. }
    split.
    + intros j Hj. destruct (Z.eq_dec j (n + 1)) as [->|].
      * replace (n + 1 - (n + 1)) with 0 by lia. cbn [Z.to_nat pow]. pose proof (Rmax_l (zr x (n + 1)) (V * q)). lra.
      * rewrite S by lia. specialize (IH1 j ltac:(lia)). pose proof (Rmax_r (zr x (n + 1)) (V * q)). eapply Rle_trans; [apply Rmult_le_compat_r; [exact Q|exact IH1]|assumption].
    + unfold Rmax. destruct (Rle_dec (zr x (n + 1)) (V * q)).
      * exists j0. split; [lia|]. rewrite S, IH2 by lia. reflexivity.
      * exists (n + 1). split; [lia|]. replace (n + 1 - (n + 1)) with 0 by lia. cbn [Z.to_nat pow]. ring.
Qed.
Print Assumptions C44_edecay.

(** ** Facts about the formulas *)
(** The path is never shorter than the net change: the efficiency lies between 0 and 1, so kama's
    share lies between the squares of the two weights. *)
Lemma path_nonneg p x i : (0 <= path p x i)%R.
Proof. apply zsum_nonneg. intros. apply Rabs_pos. Qed.
Lemma path_net p x i : 1 <= p -> (Rabs (zr x i - zr x (i - p)) <= path p x i)%R.
Proof.
  intros Hp. apply (zind (fun p => Rabs (zr x i - zr x (i - p)) <= path p x i)%R 1 p); [lia| |].
  - unfold path. rewrite zsum_cons, zsum_nil by lia. replace (i - 1 + 1) with i by lia. lra.
  - intros n Hn IH. unfold path in *. rewrite zsum_cons by lia. replace (i - (n + 1) + 1) with (i - n) by lia.
    replace (i - (n + 1)) with (i - n - 1) by lia. pose proof (Rabs_triang (zr x i - zr x (i - n)) (zr x (i - n) - zr x (i - n - 1))) as Tr.
    replace (zr x i - zr x (i - n) + (zr x (i - n) - zr x (i - n - 1)))%R with (zr x i - zr x (i - n - 1))%R in Tr by ring. lra.
Qed.
Theorem C44_kama_share_range : forall p x i, 1 <= p -> (0 <= efficiency p x i <= 1)%R /\ (4 / 961 <= kama_share p x i <= 4 / 9)%R.
Proof.
  intros p x i Hp. pose proof (path_nonneg p x i). pose proof (path_net p x i Hp). assert (E : (0 <= efficiency p x i <= 1)%R).
  { unfold efficiency. destruct (Reqb_spec (path p x i) 0); [lra|]. pose proof (Rabs_pos (zr x i - zr x (i - p))). split; [apply Rmult_le_pos; [lra|left; apply Rinv_0_lt_compat; lra]|].
    apply (Rmult_le_reg_r (path p x i)); [lra|]. unfold Rdiv. rewrite Rmult_assoc, Rinv_l by lra. lra. }
  split; [exact E|]. unfold kama_share. cbv zeta. set (e := efficiency p x i) in *. clearbody e. split; nra.
Qed.
Print Assumptions C44_kama_share_range.
(** vidya divides by the long deviation only where it is not zero: prices that differ among the last
    s bars differ among the last g. *)
Lemma sd_zero p f i : 1 <= p -> last_sd p f i = 0%R -> forall j, i - p + 1 <= j <= i -> f j = last_mean p f i.
Proof.
  intros Hp Hz j Hj. unfold last_sd in Hz. set (m := last_mean p f i) in *. assert (P : (0 < IZR p)%R) by (apply IZR_lt; lia).
  assert (N : forall a b, (0 <= zsum a b (fun j => (f j - m) * (f j - m)))%R) by (intros; apply zsum_nonneg; intros; apply Rle_0_sqr).
  assert (Z0 : zsum (i - p + 1) (i + 1) (fun j => (f j - m) * (f j - m))%R = 0%R).
  { unfold last_mean in Hz. apply sqrt_eq_0 in Hz.
    - apply (Rmult_eq_reg_r (/ IZR p)); [unfold Rdiv in Hz; rewrite Hz; ring|apply Rinv_neq_0_compat; lra].
    - apply Rmult_le_pos; [apply N|left; apply Rinv_0_lt_compat; lra]. }
  rewrite (zsum_split (i - p + 1) j) in Z0 by lia. rewrite (zsum_cons j) in Z0 by lia. pose proof (N (i - p + 1) j). pose proof (N (j + 1) (i + 1)). nra.
Qed.
Theorem C44_vidya_divisor : forall s g f i, 1 <= s <= g -> last_sd g f i = 0%R -> last_sd s f i = 0%R.
Proof.
  intros s g f i Hs Hz. pose proof (sd_zero g f i ltac:(lia) Hz) as E. set (m := last_mean g f i) in *. clearbody m. assert (P : (0 < IZR s)%R) by (apply IZR_lt; lia).
  assert (Em : last_mean s f i = m). { unfold last_mean. rewrite (zsum_ext _ _ _ (fun _ => m)) by (intros; apply E; lia). rewrite zsum_const by lia. replace (i + 1 - (i - s + 1)) with s by lia. field. lra. }
  unfold last_sd. rewrite Em. unfold last_mean. rewrite (zsum_ext _ _ _ (fun _ => 0%R)) by (intros; rewrite E by lia; ring). rewrite zsum_const by lia. etransitivity; [|apply sqrt_0]. f_equal. field. lra.
Qed.
Print Assumptions C44_vidya_divisor.
(** Each of the window averages returns a constant series unchanged. *)
Lemma triw_pos p : 1 <= p -> (0 < zsum 0 p (triw p))%R.
Proof.
  intros Hp. rewrite zsum_cons by lia. assert (0 <= zsum (0 + 1) p (triw p))%R by (apply zsum_nonneg; intros; unfold triw; apply IZR_le; lia).
  assert (1 <= triw p 0)%R by (unfold triw; apply IZR_le; lia). lra.
Qed.
Lemma wma_const p f i c : 1 <= p -> (forall j, i - p < j <= i -> f j = c) -> wma_of p f i = c.
Proof.
  intros Hp Hf. assert (P : (1 <= IZR p)%R) by (apply IZR_le; lia). unfold wma_of. rewrite (zsum_ext _ _ _ (fun j => c * IZR (j - i + p))%R) by (intros; rewrite Hf by lia; ring). rewrite zsum_scal.
  assert (E : zsum (i - p + 1) (i + 1) (fun j => IZR (j - i + p)) = (IZR (p * (p + 1)) / 2)%R).
  { replace (i - p + 1) with (1 + (i - p)) by lia. replace (i + 1) with (p + 1 + (i - p)) by lia. rewrite (zsum_shift (i - p)). rewrite (zsum_ext _ _ _ IZR) by (intros; f_equal; lia).
    apply (zind (fun p => zsum 1 (p + 1) IZR = (IZR (p * (p + 1)) / 2)%R) 1 p); [lia| |].
    - rewrite zsum_cons, zsum_nil by lia. cbn. lra.
    - intros n Hn IH. rewrite zsum_snoc by lia. rewrite IH. rewrite !mult_IZR, !plus_IZR. field. }
  rewrite E. rewrite mult_IZR, plus_IZR. field. nra.
Qed.
Theorem C44_constant : forall p x i c, 2 <= p -> (forall j, 0 <= j <= i -> zr x j = c) ->
  (p - 1 <= i -> trima_at p x i = c) /\ (p + Z.sqrt p - 2 <= i -> hma_at p x i = c).
Proof.
  intros p x i c Hp Hc. assert (Q : 1 <= Z.sqrt p) by (change 1 with (Z.sqrt 1); apply Z.sqrt_le_mono; lia). assert (1 <= p / 2 <= p) by (pose proof (Z.div_mod p 2); pose proof (Z.mod_pos_bound p 2); lia). split; intros Hi.
  - unfold trima_at. pose proof (triw_pos p ltac:(lia)). rewrite (zsum_ext _ _ _ (fun j => c * triw p j)%R) by (intros; rewrite Hc by lia; ring). rewrite zsum_scal. field. lra.
  - unfold hma_at. apply wma_const; [lia|]. intros j Hj. rewrite !(wma_const _ _ _ c) by (try lia; intros; apply Hc; lia). ring.
Qed.
Print Assumptions C44_constant.

(** ** Cases *)
Example C44_dema_case : @ti_dema RA 4 [[1; 3; 2; 6]%R] [2%R] = Ok (OKAY, [[55 / 27; 449 / 81]%R]).
Proof. etransitivity; [apply (C44_dema 4 [1; 3; 2; 6]%R 2); r1|]. exB. Qed.
Example C44_tema_case : @ti_tema RA 5 [[1; 3; 2; 6; 5]%R] [2%R] = Ok (OKAY, [[1415 / 243; 3773 / 729]%R]).
Proof. etransitivity; [apply (C44_tema 5 [1; 3; 2; 6; 5]%R 2); r1|]. exB. Qed.
Example C44_zlema_case : @ti_zlema RA 5 [[1; 3; 2; 6; 5]%R] [5%R] = Ok (OKAY, [[3; 3; 5; 6]%R]).
Proof. etransitivity; [apply (C44_zlema_partial 5 [1; 3; 2; 6; 5]%R 5); r1|]. exB. Qed.
Example C44_kama_case : @ti_kama RA 4 [[1; 3; 2; 6]%R] [2%R] = Ok (OKAY, [[3; 228047 / 77841; 6519908819 / 1870130025]%R]).
Proof. etransitivity; [apply (C44_kama 4 [1; 3; 2; 6]%R 2); r1|]. exB. Qed.
Example C44_vidya_case : @ti_vidya RA 4 [[1; 3; 1; 3]%R] [2%R; 4%R; (1 / 2)%R] = Ok (OKAY, [[1; 2]%R]).
Proof.
  etransitivity; [apply (C44_vidya_partial 4 [1; 3; 1; 3]%R 2 4 (1 / 2)); r1|].
  assert (S : last_sd 2 (zr [1; 3; 1; 3]%R) 3 = 1%R /\ last_sd 4 (zr [1; 3; 1; 3]%R) 3 = 1%R).
  { unfold last_sd. split; etransitivity; try apply sqrt_1; f_equal; nums; field. }
  change (tab (4 - 2) 4 (vidya_at 2 4 (1 / 2) [1; 3; 1; 3]%R)) with [vidya_at 2 4 (1 / 2) [1; 3; 1; 3]%R 2; vidya_at 2 4 (1 / 2) [1; 3; 1; 3]%R 3]%R.
  unfold vidya_at. rewrite trec_nil by lia. rewrite trec_snoc, trec_nil by lia. unfold vidya_share. destruct S as [S1 S2]. rewrite S1, S2. destruct (Reqb_spec 1 0); [lra|]. apply okl, consl; [|reflexivity]. repeat apply consl; try reflexivity; nums; field.
Qed.
Example C44_trima_case : @ti_trima RA 5 [[1; 3; 2; 6; 5]%R] [4%R] = Ok (OKAY, [[17 / 6; 4]%R]).
Proof. etransitivity; [apply (C44_trima 5 [1; 3; 2; 6; 5]%R 4); r1|]. exB. Qed.
Example C44_trima_odd_case : @ti_trima RA 5 [[1; 3; 2; 6; 5]%R] [3%R] = Ok (OKAY, [[9 / 4; 13 / 4; 19 / 4]%R]).
Proof. etransitivity; [apply (C44_trima 5 [1; 3; 2; 6; 5]%R 3); r1|]. exB. Qed.
Example C44_hma_case : @ti_hma RA 5 [[1; 3; 2; 6; 5]%R] [4%R] = Ok (OKAY, [[539 / 90]%R]).
Proof. etransitivity; [apply (C44_hma_partial 5 [1; 3; 2; 6; 5]%R 4); r1|]. exB. Qed.
Example C44_rmta_case : @ti_rmta RA 3 [[1; 3; 2]%R] [2%R; (1 / 2)%R] = Ok (OKAY, [[7 / 2; 45 / 16]%R]).
Proof.
  etransitivity; [apply (C44_rmta_partial 3 [1; 3; 2]%R 2 (1 / 2) (zr [3 / 2; 15 / 4; 31 / 8]%R) (zr [7 / 4; 7 / 2; 45 / 16]%R)); r1|].
  all: try (nums; lra).
  - upto4; nums; split; lra.
  - exB.
Qed.
(** 5 decays by 1/2 per bar until 4.5 - 1 = 3.5 is overtaken by 7. *)
Example C44_decay_case : @ti_decay RA 4 [[5; 2; 3; 7]%R] [2%R] = Ok (OKAY, [[5; 9 / 2; 4; 7]%R]) /\ @ti_edecay RA 4 [[4; 1; 3; 1]%R] [2%R] = Ok (OKAY, [[4; 2; 3; 3 / 2]%R]).
Proof.
  split; [etransitivity; [apply (@decay_fun RA 4 [5; 2; 3; 7]%R 2%R 2); r1|]|etransitivity; [apply (@edecay_fun RA 4 [4; 1; 3; 1]%R 2%R 2); r1|]].
  all: try (apply (RA_int 2); zl). all: exB.
Qed.

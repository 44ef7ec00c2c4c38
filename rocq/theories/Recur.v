(** Limits of sequences that follow a linear recurrence. *)
From Verif Require Export SpecR5.
From Coq Require Import Reals List ZArith Lia Lra.
Import ListNotations.
Open Scope Z_scope.

Lemma tends_ext f g v N : (forall i, N <= i -> f i = g i) -> tends f v -> tends g v.
Proof. intros H Hf eps He. destruct (Hf eps He) as [M HM]. exists (Z.max N M). intros i Hi. rewrite <- H by lia. apply HM. lia. Qed.
Lemma tends_const c N f : (forall i, N <= i -> f i = c) -> tends f c.
Proof. intros H eps He. exists N. intros i Hi. rewrite H by lia. unfold Rminus. rewrite Rplus_opp_r, Rabs_R0. exact He. Qed.
Lemma tends_minus f v : tends f v <-> tends (fun i => f i - v)%R 0.
Proof. split; intros H eps He; destruct (H eps He) as [N HN]; exists N; intros i Hi; specialize (HN i Hi); [replace (f i - v - 0)%R with (f i - v)%R by ring|replace (f i - v)%R with (f i - v - 0)%R by ring]; exact HN. Qed.
Lemma tends_plus f g a b : tends f a -> tends g b -> tends (fun i => f i + g i)%R (a + b).
Proof.
  intros Hf Hg eps He. destruct (Hf (eps / 2)%R ltac:(lra)) as [N HN]. destruct (Hg (eps / 2)%R ltac:(lra)) as [M HM]. exists (Z.max N M). intros i Hi.
  replace (f i + g i - (a + b))%R with ((f i - a) + (g i - b))%R by ring. eapply Rle_lt_trans; [apply Rabs_triang|]. specialize (HN i ltac:(lia)). specialize (HM i ltac:(lia)). lra.
Qed.
Lemma tends_scal k f a : tends f a -> tends (fun i => k * f i)%R (k * a).
Proof.
  intros Hf eps He. assert (0 <= Rabs k)%R as Hk by apply Rabs_pos. destruct (Hf (eps / (Rabs k + 1))%R ltac:(apply Rdiv_lt_0_compat; lra)) as [N HN]. exists N. intros i Hi. specialize (HN i Hi).
  replace (k * f i - k * a)%R with (k * (f i - a))%R by ring. rewrite Rabs_mult.
  apply Rmult_lt_compat_l with (r := (Rabs k + 1)%R) in HN; [|lra]. replace ((Rabs k + 1) * (eps / (Rabs k + 1)))%R with eps in HN by (field; lra).
  pose proof (Rabs_pos (f i - a)). nra.
Qed.
Lemma tends_shift k f a : tends f a -> tends (fun i => f (i - k)) a.
Proof. intros Hf eps He. destruct (Hf eps He) as [N HN]. exists (N + k). intros i Hi. apply HN. lia. Qed.
Lemma tends_squeeze f g K N : (forall i, N <= i -> (Rabs (g i) <= K * Rabs (f i))%R) -> tends f 0 -> tends g 0.
Proof.
  intros H Hf eps He. assert (tends (fun i => K * f i)%R (K * 0)) as Hk by (apply tends_scal; exact Hf). destruct (Hk eps He) as [M HM].
  exists (Z.max N M). intros i Hi. specialize (HM i ltac:(lia)). specialize (H i ltac:(lia)). rewrite Rmult_0_r, Rminus_0_r in HM. rewrite Rminus_0_r. rewrite Rabs_mult in HM.
  pose proof (Rabs_pos (f i)). pose proof (Rle_abs K). nra.
Qed.

(** Every [L] bars a bound on the rest of the sequence shrinks by the factor [q]. *)
Lemma shrinking v q L N B : (0 <= q < 1)%R -> 0 <= L -> (0 <= B)%R -> (forall i, N <= i -> (Rabs (v i) <= B)%R) ->
  (forall n C, N <= n -> (forall j, n <= j -> (Rabs (v j) <= C)%R) -> forall j, n + L <= j -> (Rabs (v j) <= q * C)%R) -> tends v 0.
Proof.
  intros Hq HL HB H0 Hs eps He.
  assert (forall k j, N + Z.of_nat k * L <= j -> (Rabs (v j) <= q ^ k * B)%R) as Hk.
  { induction k as [|k IH]; intros j Hj. - cbn [pow]. rewrite Rmult_1_l. apply H0. lia.
    - cbn [pow]. rewrite Rmult_assoc. apply (Hs (N + Z.of_nat k * L)); [lia|exact IH|lia]. }
  destruct (pow_lt_1_zero q ltac:(rewrite Rabs_pos_eq; lra) (eps / (B + 1))%R ltac:(apply Rdiv_lt_0_compat; lra)) as [k HK].
  specialize (HK k (le_n k)). exists (N + Z.of_nat k * L). intros i Hi. rewrite Rminus_0_r. eapply Rle_lt_trans; [apply Hk; exact Hi|].
  assert (0 <= q ^ k)%R as Hp by (apply pow_le; lra). rewrite Rabs_pos_eq in HK by exact Hp.
  apply Rmult_lt_compat_l with (r := (B + 1)%R) in HK; [|lra]. replace ((B + 1) * (eps / (B + 1)))%R with eps in HK by (field; lra). nra.
Qed.

(** A contraction driven by something that dies out. *)
Lemma driven v u q N : (0 <= q < 1)%R -> (forall i, (0 <= v i)%R) -> (forall i, N <= i -> (v i <= q * v (i - 1)%Z + u i)%R) -> tends u 0 -> tends v 0.
Proof.
  intros Hq Hv Hr Hu eps He. set (d := (eps / 2 * (1 - q))%R). assert (0 < d)%R by (unfold d; nra).
  destruct (Hu d ltac:(assumption)) as [M0 HM0]. set (M := Z.max N M0).
  assert (forall i, M <= i -> (u i < d)%R) as HM. { intros i Hi. specialize (HM0 i ltac:(lia)). rewrite Rminus_0_r in HM0. apply Rabs_def2 in HM0. lra. }
  assert (forall k, (v (M + Z.of_nat k)%Z <= eps / 2 + q ^ k * v M)%R) as Hk.
  { induction k as [|k IH].
    - cbn [pow]. replace (M + Z.of_nat 0) with M by lia. lra.
    - pose proof (Hr (M + Z.of_nat (S k)) ltac:(lia)) as H1. pose proof (HM (M + Z.of_nat (S k)) ltac:(lia)) as H2.
      replace (M + Z.of_nat (S k) - 1) with (M + Z.of_nat k) in H1 by lia. cbn [pow]. unfold d in H2.
      assert (q * v (M + Z.of_nat k)%Z <= q * (eps / 2 + q ^ k * v M))%R by (apply Rmult_le_compat_l; lra). lra. }
  pose proof (Hv M) as HvM.
  destruct (pow_lt_1_zero q ltac:(rewrite Rabs_pos_eq; lra) (eps / 2 / (v M + 1))%R ltac:(apply Rdiv_lt_0_compat; lra)) as [k HK].
  exists (M + Z.of_nat k). intros i Hi. rewrite Rminus_0_r, Rabs_pos_eq by apply Hv.
  replace i with (M + Z.of_nat (Z.to_nat (i - M))) by lia. eapply Rle_lt_trans; [apply Hk|]. specialize (HK (Z.to_nat (i - M)) ltac:(lia)).
  assert (0 <= q ^ Z.to_nat (i - M))%R as Hp by (apply pow_le; lra). rewrite Rabs_pos_eq in HK by exact Hp.
  apply Rmult_lt_compat_l with (r := (v M + 1)%R) in HK; [|lra]. replace ((v M + 1) * (eps / 2 / (v M + 1)))%R with (eps / 2)%R in HK by (field; lra). nra.
Qed.
Lemma driven1 v u q N : (Rabs q < 1)%R -> (forall i, N <= i -> v i = (q * v (i - 1)%Z + u i)%R) -> tends u 0 -> tends v 0.
Proof.
  intros Hq Hr Hu. apply (tends_squeeze (fun i => Rabs (v i)) v 1 N). { intros i Hi. rewrite Rabs_Rabsolu. lra. }
  apply (driven _ (fun i => Rabs (u i)) (Rabs q) N).
  - split; [apply Rabs_pos|exact Hq].
  - intros i. apply Rabs_pos.
  - intros i Hi. rewrite (Hr i Hi). eapply Rle_trans; [apply Rabs_triang|]. rewrite Rabs_mult. lra.
  - apply (tends_squeeze u _ 1 0). { intros i Hi. rewrite Rabs_Rabsolu. lra. } exact Hu.
Qed.

(** Two complex poles of modulus [a]. *)
Definition norm2 (x y : R) : R := sqrt (x * x + y * y).
Lemma norm2_triang x y u v : (norm2 (x + u) (y + v) <= norm2 x y + norm2 u v)%R.
Proof.
  unfold norm2. set (p := (x * x + y * y)%R). set (q := (u * u + v * v)%R).
  assert (0 <= p)%R by (unfold p; nra). assert (0 <= q)%R by (unfold q; nra).
  pose proof (sqrt_pos p). pose proof (sqrt_pos q). pose proof (sqrt_sqrt p ltac:(assumption)) as Ep. pose proof (sqrt_sqrt q ltac:(assumption)) as Eq.
  assert (x * u + y * v <= sqrt p * sqrt q)%R.
  { rewrite <- sqrt_mult by assumption. apply Rsqr_incr_0_var; [|apply sqrt_pos]. unfold Rsqr. rewrite sqrt_sqrt by (apply Rmult_le_pos; assumption). unfold p, q.
    assert (0 <= (x * v - y * u) * (x * v - y * u))%R by apply Rle_0_sqr. nra. }
  apply Rsqr_incr_0_var; [|lra]. unfold Rsqr. rewrite sqrt_sqrt by (apply Rplus_le_le_0_compat; apply Rle_0_sqr). replace ((sqrt p + sqrt q) * (sqrt p + sqrt q))%R with (sqrt p * sqrt p + sqrt q * sqrt q + 2 * (sqrt p * sqrt q))%R by ring. rewrite Ep, Eq.
  assert (p = x * x + y * y)%R as Hp by reflexivity. assert (q = u * u + v * v)%R as Hq by reflexivity. clearbody p q. lra.
Qed.
Lemma two_poles e u a c s N : (0 <= a < 1)%R -> (c * c + s * s = 1)%R -> s <> 0%R ->
  (forall i, N <= i -> e i = (2 * a * c * e (i - 1)%Z - a * a * e (i - 2)%Z + u i)%R) -> tends u 0 -> tends e 0.
Proof.
  intros Ha Hc Hs Hr Hu.
  set (m := fun i => norm2 (s * e i) (c * e i - a * e (i - 1)%Z)).
  assert (Hm : tends m 0).
  { apply (driven m (fun i => Rabs (u i)) a N Ha).
    - intros i. apply sqrt_pos.
    - intros i Hi. unfold m. rewrite (Hr i Hi). set (b := (2 * a * c * e (i - 1)%Z - a * a * e (i - 2)%Z)%R).
      replace (s * (b + u i))%R with (s * b + s * u i)%R by ring. replace (c * (b + u i) - a * e (i - 1)%Z)%R with ((c * b - a * e (i - 1)%Z) + c * u i)%R by ring.
      eapply Rle_trans; [apply norm2_triang|]. apply Rplus_le_compat.
      + right. unfold norm2. transitivity (sqrt (a * a) * sqrt (s * e (i - 1)%Z * (s * e (i - 1)%Z) + (c * e (i - 1)%Z - a * e (i - 1 - 1)%Z) * (c * e (i - 1)%Z - a * e (i - 1 - 1)%Z)))%R.
        * rewrite <- sqrt_mult by (try apply Rplus_le_le_0_compat; apply Rle_0_sqr). f_equal. unfold b. replace (i - 1 - 1) with (i - 2) by lia. set (x := e (i - 1)). set (y := e (i - 2)).
          replace (s * (2 * a * c * x - a * a * y) * (s * (2 * a * c * x - a * a * y)))%R with (s * s * ((2 * a * c * x - a * a * y) * (2 * a * c * x - a * a * y)))%R by ring.
          replace (s * x * (s * x))%R with (s * s * (x * x))%R by ring. replace (s * s)%R with (1 - c * c)%R by lra. ring.
        * rewrite sqrt_square by lra. reflexivity.
      + right. unfold norm2. replace (s * u i * (s * u i) + c * u i * (c * u i))%R with ((c * c + s * s) * (u i * u i))%R by ring. rewrite Hc, Rmult_1_l. apply sqrt_Rsqr_abs.
    - apply (tends_squeeze u _ 1 0). { intros i Hi. rewrite Rabs_Rabsolu. lra. } exact Hu. }
  apply (tends_squeeze m e (/ Rabs s) N); [|exact Hm]. intros i Hi. assert (0 < Rabs s)%R by (apply Rabs_pos_lt; exact Hs).
  apply Rmult_le_reg_l with (Rabs s); [assumption|]. rewrite <- Rmult_assoc, Rinv_r, Rmult_1_l by lra.
  rewrite (Rabs_pos_eq (m i)) by apply sqrt_pos. rewrite <- Rabs_mult. unfold m, norm2. rewrite <- sqrt_Rsqr_abs. apply sqrt_le_1_alt. unfold Rsqr.
  assert (0 <= (c * e i - a * e (i - 1)%Z) * (c * e i - a * e (i - 1)%Z))%R by apply Rle_0_sqr. lra.
Qed.

(** ** Integer certificates *)
(** [row r f n] = r0 * f n + r1 * f (n-1) + ... *)
Fixpoint row (r : list Z) (f : Z -> R) (n : Z) : R := match r with [] => 0%R | c :: r' => (IZR c * f n + row r' f (n - 1))%R end.
Definition absum (r : list Z) : Z := fold_right (fun c s => Z.abs c + s) 0 r.
Fixpoint addrow (a b : list Z) : list Z := match a, b with x :: a', y :: b' => x + y :: addrow a' b' | _, _ => [] end.
(** The row for f (n + m + 1) from the row for f (n + m). *)
Definition nextrow (S : Z) (a r : list Z) : list Z := match r with [] => [] | c :: r' => addrow (map (Z.mul c) a) (map (Z.mul S) (r' ++ [0])) end.
(** Some power of the recurrence S * f (n+1) = a0 * f n + a1 * f (n-1) + ... has coefficients summing to at most 9/10. *)
Fixpoint decays (fuel : nat) (S : Z) (a r : list Z) (P : Z) : bool :=
  match fuel with O => false | Datatypes.S k => (10 * absum r <=? 9 * P) || decays k S a (nextrow S a r) (P * S) end.
Definition stable (S : Z) (a : list Z) : bool := decays 100 S a a S.

Lemma row_addrow a b f n : length a = length b -> row (addrow a b) f n = (row a f n + row b f n)%R.
Proof. revert b n. induction a as [|x a IH]; intros [|y b] n Hl; try discriminate; cbn [addrow row]; [ring|]. rewrite IH by (injection Hl; auto). rewrite plus_IZR. ring. Qed.
Lemma row_scal k a f n : row (map (Z.mul k) a) f n = (IZR k * row a f n)%R.
Proof. revert n. induction a as [|x a IH]; intros n; cbn [map row]; [ring|]. rewrite IH, mult_IZR. ring. Qed.
Lemma row_snoc0 a f n : row (a ++ [0]) f n = row a f n.
Proof. revert n. induction a as [|x a IH]; intros n; cbn [app row]; [lra|]. rewrite IH. reflexivity. Qed.
Lemma length_addrow a b : length a = length b -> length (addrow a b) = length b.
Proof. revert b. induction a as [|x a IH]; intros [|y b] Hl; try discriminate; cbn [addrow length]; [reflexivity|]. rewrite IH by (injection Hl; auto). reflexivity. Qed.
Lemma row_next S a r f n : length a = length r -> (IZR S * f (n + 1)%Z = row a f n)%R -> (IZR S * row r f (n + 1) = row (nextrow S a r) f n)%R /\ length (nextrow S a r) = length r.
Proof.
  intros Hl H. destruct r as [|c r]; cbn [nextrow row]. { split; [ring|reflexivity]. }
  assert (length (map (Z.mul c) a) = length (map (Z.mul S) (r ++ [0]))) as El by (rewrite !map_length, app_length; cbn [length] in *; lia).
  split.
  - rewrite row_addrow by exact El. rewrite !row_scal, row_snoc0. rewrite <- H. replace (n + 1 - 1) with n by lia. ring.
  - rewrite length_addrow by exact El. rewrite map_length, app_length. cbn [length]. lia.
Qed.
Lemma row_bound r f n C : (0 <= C)%R -> (forall j, n - Z.of_nat (length r) < j <= n -> (Rabs (f j) <= C)%R) -> (Rabs (row r f n) <= IZR (absum r) * C)%R.
Proof.
  intros HC. revert n. induction r as [|c r IH]; intros n H; cbn [row absum fold_right].
  - rewrite Rabs_R0. lra.
  - eapply Rle_trans; [apply Rabs_triang|]. fold (absum r). rewrite plus_IZR, Rmult_plus_distr_r. apply Rplus_le_compat.
    + rewrite Rabs_mult, <- abs_IZR. apply Rmult_le_compat_l; [apply IZR_le; lia|]. apply H. cbn [length]. lia.
    + apply IH. intros j Hj. apply H. cbn [length]. lia.
Qed.
Lemma decays_row fuel S a r P f N n0 m : 0 < S -> 0 < P -> length a = length r ->
  (forall n, N <= n -> (IZR S * f (n + 1)%Z = row a f n)%R) ->
  decays fuel S a r P = true -> (forall n, N <= n -> (IZR P * f (n + Z.of_nat m)%Z = row r f n)%R) -> n0 = length r ->
  exists m' r' P', (m <= m')%nat /\ 0 < P' /\ length r' = n0 /\ 10 * absum r' <= 9 * P' /\ forall n, N <= n -> (IZR P' * f (n + Z.of_nat m')%Z = row r' f n)%R.
Proof.
  intros HS HP Hl Hr Hd Hf ->. revert r P m HP Hl Hd Hf. induction fuel as [|k IH]; intros r P m HP Hl Hd Hf; cbn [decays] in Hd; [discriminate|].
  apply orb_prop in Hd. destruct Hd as [Hd|Hd].
  - exists m, r, P. repeat split; try assumption; lia.
  - assert (forall n, N <= n -> (IZR S * row r f (n + 1) = row (nextrow S a r) f n)%R /\ length (nextrow S a r) = length r) as Hn by (intros n Hn; apply row_next; auto).
    destruct (IH (nextrow S a r) (P * S) (Datatypes.S m)) as (m' & r' & P' & Hm & Hrest); [nia| |exact Hd| |].
    + rewrite (proj2 (Hn N ltac:(lia))). exact Hl.
    + intros n Hi. rewrite <- (proj1 (Hn n Hi)). rewrite <- Hf by lia. rewrite mult_IZR. replace (n + 1 + Z.of_nat m) with (n + Z.of_nat (Datatypes.S m)) by lia. ring.
    + exists m', r', P'. split; [lia|]. rewrite <- (proj2 (Hn N ltac:(lia))). exact Hrest.
Qed.
Lemma bounded_range f lo hi : exists C, (0 <= C)%R /\ forall j, lo <= j < hi -> (Rabs (f j) <= C)%R.
Proof.
  destruct (Z.le_gt_cases lo hi) as [H|H]; [|exists 0%R; split; [lra|lia]].
  pattern hi. apply (Zlt_lower_bound_ind _ lo); [|exact H]. clear hi H. intros hi IH Hh. destruct (Z.eq_dec hi lo) as [->|Hn]. { exists 0%R. split; [lra|lia]. }
  destruct (IH (hi - 1) ltac:(lia)) as (C & HC & Hb). exists (Rmax C (Rabs (f (hi - 1)%Z))). split; [eapply Rle_trans; [exact HC|apply Rmax_l]|].
  intros j Hj. destruct (Z.eq_dec j (hi - 1)) as [->|]; [apply Rmax_r|]. eapply Rle_trans; [apply Hb; lia|apply Rmax_l].
Qed.
Theorem stable_tends S a f N : 0 < S -> stable S a = true -> (forall n, N <= n -> (IZR S * f (n + 1)%Z = row a f n)%R) -> tends f 0.
Proof.
  intros HS Hd Hr. unfold stable in Hd.
  destruct (decays_row 100 S a a S f N (length a) 1 HS HS eq_refl Hr Hd) as (m & r' & P & Hm & HP & Hl' & Hc & Hf); [intros n Hn; apply Hr; exact Hn|reflexivity|].
  set (L := Z.of_nat (length a)) in *.
  assert (forall n C, N <= n -> (0 <= C)%R -> (forall j, n - L < j <= n -> (Rabs (f j) <= C)%R) -> (Rabs (f (n + Z.of_nat m)%Z) <= 9 / 10 * C)%R) as Step.
  { intros n C Hn HC Hb. assert (0 < IZR P)%R as HP' by (apply IZR_lt; lia). apply Rmult_le_reg_l with (IZR P); [exact HP'|].
    rewrite <- (Rabs_pos_eq (IZR P)) at 1 by lra. rewrite <- Rabs_mult, Hf by exact Hn. eapply Rle_trans; [apply (row_bound r' f n C HC)|].
    - rewrite Hl'. exact Hb.
    - apply IZR_le in Hc. rewrite !mult_IZR in Hc. nra. }
  destruct (bounded_range f (N - L) (N + Z.of_nat m)) as (C & HC & Hb).
  assert (forall i, N - L <= i -> (Rabs (f i) <= C)%R) as Bd.
  { intros i Hi. pattern i. apply (Zlt_lower_bound_ind _ (N - L)); [|exact Hi]. clear i Hi. intros i IH Hi. destruct (Z.lt_ge_cases i (N + Z.of_nat m)) as [H|H].
    - apply Hb. lia.
    - replace i with (i - Z.of_nat m + Z.of_nat m) by lia. eapply Rle_trans; [apply (Step (i - Z.of_nat m) C); [lia|exact HC|]|lra].
      intros j Hj. destruct (Z.lt_ge_cases j (N + Z.of_nat m)); [apply Hb; lia|]. apply IH; lia. }
  apply (shrinking f (9 / 10) (Z.of_nat m + L) N C); [lra|lia|exact HC| |].
  - intros i Hi. apply Bd. lia.
  - intros n D Hn HD j Hj. replace j with (j - Z.of_nat m + Z.of_nat m) by lia. apply Step; [lia| |].
    + eapply Rle_trans; [apply Rabs_pos|apply (HD n); lia].
    + intros k Hk. apply HD. lia.
Qed.

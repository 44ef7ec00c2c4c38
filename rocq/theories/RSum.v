(** Finite sums of reals over lists and integer ranges. *)
From Verif Require Export RArith Spec.
From Coq Require Import ZifyBool ZifyNat.
#[global] Open Scope Z_scope.

Fixpoint Rsum (l : list R) : R :=
  match l with [] => 0%R | x :: t => (x + Rsum t)%R end.

Definition zsum (lo hi : Z) (f : Z -> R) : R := Rsum (tab lo hi f).

Lemma Rsum_app l m : Rsum (l ++ m) = (Rsum l + Rsum m)%R.
Proof. induction l as [|x l IH]; cbn; [lra|]. rewrite IH. lra. Qed.
Lemma Rsum_snoc l x : Rsum (l ++ [x]) = (Rsum l + x)%R.
Proof. rewrite Rsum_app. cbn. lra. Qed.

Lemma zsum_nil lo hi f : hi <= lo -> zsum lo hi f = 0%R.
Proof. intros H. unfold zsum. rewrite tab_nil by lia. reflexivity. Qed.
Lemma zsum_snoc lo hi f : lo <= hi -> zsum lo (hi + 1) f = (zsum lo hi f + f hi)%R.
Proof. intros H. unfold zsum. rewrite tab_snoc by lia. apply Rsum_snoc. Qed.
Lemma zsum_split lo mid hi f : lo <= mid <= hi -> zsum lo hi f = (zsum lo mid f + zsum mid hi f)%R.
Proof. intros H. unfold zsum. rewrite (tab_split lo mid hi) by lia. apply Rsum_app. Qed.
Lemma zsum_one lo f : zsum lo (lo + 1) f = f lo.
Proof. rewrite zsum_snoc, zsum_nil by lia. lra. Qed.
Lemma zsum_cons lo hi f : lo < hi -> zsum lo hi f = (f lo + zsum (lo + 1) hi f)%R.
Proof. intros H. rewrite (zsum_split lo (lo + 1) hi), zsum_one by lia. reflexivity. Qed.
Lemma zsum_ext lo hi f g : (forall i, lo <= i < hi -> f i = g i) -> zsum lo hi f = zsum lo hi g.
Proof. intros H. unfold zsum. rewrite (tab_ext lo hi f g H). reflexivity. Qed.

Lemma zind (P : Z -> Prop) lo hi : lo <= hi -> P lo -> (forall n, lo <= n < hi -> P n -> P (n + 1)) -> P hi.
Proof.
  intros Hle H0 Hs. replace hi with (lo + Z.of_nat (Z.to_nat (hi - lo))) by lia.
  assert (Hn : (Z.to_nat (hi - lo) <= Z.to_nat (hi - lo))%nat) by lia.
  revert Hn. generalize (Z.to_nat (hi - lo)) at 1 3. intros n; induction n as [|n IH]; intros Hn.
  - replace (lo + Z.of_nat 0) with lo by lia. exact H0.
  - replace (lo + Z.of_nat (S n)) with (lo + Z.of_nat n + 1) by lia. apply Hs; [lia|]. apply IH; lia.
Qed.

Lemma zsum_plus lo hi f g : zsum lo hi (fun i => f i + g i)%R = (zsum lo hi f + zsum lo hi g)%R.
Proof.
  destruct (Z.le_gt_cases lo hi) as [L|L]; [|rewrite !zsum_nil by lia; lra].
  apply (zind (fun h => zsum lo h (fun i => f i + g i)%R = (zsum lo h f + zsum lo h g)%R) lo hi L).
  - rewrite !zsum_nil by lia. lra.
  - intros n Hn IH. rewrite !zsum_snoc by lia. rewrite IH. lra.
Qed.
Lemma zsum_scal lo hi c f : zsum lo hi (fun i => c * f i)%R = (c * zsum lo hi f)%R.
Proof.
  destruct (Z.le_gt_cases lo hi) as [L|L]; [|rewrite !zsum_nil by lia; lra].
  apply (zind (fun h => zsum lo h (fun i => c * f i)%R = (c * zsum lo h f)%R) lo hi L).
  - rewrite !zsum_nil by lia. lra.
  - intros n Hn IH. rewrite !zsum_snoc by lia. rewrite IH. lra.
Qed.
Lemma zsum_minus lo hi f g : zsum lo hi (fun i => f i - g i)%R = (zsum lo hi f - zsum lo hi g)%R.
Proof.
  rewrite (zsum_ext lo hi _ (fun i => f i + (-1) * g i)%R) by (intros; lra).
  rewrite zsum_plus, zsum_scal. lra.
Qed.
Lemma zsum_const lo hi c : lo <= hi -> zsum lo hi (fun _ => c) = (IZR (hi - lo) * c)%R.
Proof.
  intros L. apply (zind (fun h => zsum lo h (fun _ => c) = (IZR (h - lo) * c)%R) lo hi L).
  - rewrite zsum_nil by lia. replace (lo - lo) with 0 by lia. lra.
  - intros n Hn IH. rewrite zsum_snoc by lia. rewrite IH.
    replace (n + 1 - lo) with (n - lo + 1) by lia. rewrite plus_IZR. lra.
Qed.
Lemma zsum_nonneg lo hi f : (forall i, lo <= i < hi -> (0 <= f i)%R) -> (0 <= zsum lo hi f)%R.
Proof.
  intros H. destruct (Z.le_gt_cases lo hi) as [L|L]; [|rewrite zsum_nil by lia; lra].
  apply (zind (fun h => h <= hi -> (0 <= zsum lo h f)%R) lo hi L); [|..|lia].
  - intros _. rewrite zsum_nil by lia. lra.
  - intros n Hn IH _. rewrite zsum_snoc by lia. specialize (IH ltac:(lia)). specialize (H n ltac:(lia)). lra.
Qed.
Lemma zsum_le lo hi f g : (forall i, lo <= i < hi -> (f i <= g i)%R) -> (zsum lo hi f <= zsum lo hi g)%R.
Proof.
  intros H. enough (0 <= zsum lo hi (fun i => g i - f i))%R by (rewrite zsum_minus in *; lra).
  apply zsum_nonneg. intros i Hi. specialize (H i Hi). lra.
Qed.
Lemma zsum_shift d lo hi f : zsum (lo + d) (hi + d) f = zsum lo hi (fun i => f (i + d)).
Proof.
  unfold zsum, tab. f_equal. replace (hi + d - (lo + d)) with (hi - lo) by lia.
  apply map_ext. intros k. f_equal. lia.
Qed.

(** Windows as ranges. *)
Lemma window_tab {B} (d : B) k p (l : list B) : 0 <= k -> 0 <= p -> k + p <= zlen l ->
  window k p l = tab k (k + p) (zn d l).
Proof.
  intros Hk Hp Hl. apply (list_eq_zn d).
  - rewrite zlen_tab. unfold window, zlen in *. rewrite firstn_length, skipn_length. lia.
  - intros i Hi. unfold window, zlen in Hi. rewrite firstn_length, skipn_length in Hi.
    rewrite zn_tab by lia. unfold window, zn.
    rewrite <- (firstn_skipn (Z.to_nat k) l) at 2.
    rewrite app_nth2 by (rewrite firstn_length; unfold zlen in Hl; lia).
    rewrite firstn_length. unfold zlen in Hl.
    replace (Z.to_nat (k + i) - Nat.min (Z.to_nat k) (length l))%nat with (Z.to_nat i) by lia.
    rewrite <- (firstn_skipn (Z.to_nat p) (skipn (Z.to_nat k) l)) at 2.
    rewrite app_nth1 by (rewrite firstn_length, skipn_length; lia). reflexivity.
Qed.
Lemma Rsum_window k p l : 0 <= k -> 0 <= p -> k + p <= zlen l ->
  Rsum (window k p l) = zsum k (k + p) (zn 0%R l).
Proof. intros. rewrite (window_tab 0%R) by assumption. reflexivity. Qed.
Lemma zlen_window {B} k p (l : list B) : 0 <= k -> 0 <= p -> k + p <= zlen l -> zlen (window k p l) = p.
Proof. intros. unfold window, zlen in *. rewrite firstn_length, skipn_length. lia. Qed.

(** Rolling window. *)
Lemma zsum_roll i p f : 1 <= p -> zsum (i + 1 - p) (i + 1) f = (zsum (i - p) i f + f i - f (i - p)%Z)%R.
Proof.
  intros H. rewrite zsum_snoc by lia. rewrite (zsum_cons (i - p)) by lia.
  replace (i - p + 1) with (i + 1 - p) by lia. lra.
Qed.

(** Statistics of a list of reals. *)
Definition mean (l : list R) : R := (Rsum l / IZR (zlen l))%R.
(** population variance and mean absolute deviation *)
Definition popvar (l : list R) : R := mean (map (fun x => (x - mean l) * (x - mean l))%R l).
Definition meanabsdev (l : list R) : R := mean (map (fun x => Rabs (x - mean l)) l).

Lemma Rsum_map_plus {B} (f g : B -> R) l : Rsum (map (fun x => f x + g x)%R l) = (Rsum (map f l) + Rsum (map g l))%R.
Proof. induction l as [|x l IH]; cbn; [lra|]. rewrite IH. lra. Qed.
Lemma Rsum_map_scal {B} c (f : B -> R) l : Rsum (map (fun x => c * f x)%R l) = (c * Rsum (map f l))%R.
Proof. induction l as [|x l IH]; cbn; [lra|]. rewrite IH. lra. Qed.
Lemma Rsum_map_const {B} c (l : list B) : Rsum (map (fun _ => c) l) = (IZR (zlen l) * c)%R.
Proof. induction l as [|x l IH]; [cbn; lra|]. cbn [map Rsum]. rewrite IH, zlen_cons, plus_IZR. lra. Qed.
Lemma Rsum_map_nonneg {B} (f : B -> R) l : (forall x, 0 <= f x)%R -> (0 <= Rsum (map f l))%R.
Proof. intros H. induction l as [|x l IH]; cbn; [lra|]. specialize (H x). lra. Qed.
Lemma map_window {B C} (f : B -> C) k p l : map f (window k p l) = window k p (map f l).
Proof. unfold window. rewrite <- firstn_map, <- skipn_map. reflexivity. Qed.
Lemma map_id_R (l : list R) : map (fun x => x) l = l.
Proof. apply map_id. Qed.

(** Koenig-Huygens: variance = mean of squares minus squared mean. *)
Lemma popvar_alt l : l <> [] ->
  popvar l = (mean (map (fun x => x * x) l) - mean l * mean l)%R.
Proof.
  intros Hl. assert (Hn : (IZR (zlen l) <> 0)%R).
  { apply not_0_IZR. destruct l; [contradiction|]. rewrite zlen_cons. pose proof (zlen_nonneg l). lia. }
  unfold popvar. set (m := mean l). unfold mean. rewrite !zlen_map.
  rewrite (map_ext _ (fun x => x * x + ((-2 * m) * x + m * m))%R) by (intros; ring).
  rewrite Rsum_map_plus, Rsum_map_plus, Rsum_map_scal, Rsum_map_const, map_id.
  unfold m, mean. field. exact Hn.
Qed.
Lemma popvar_nonneg l : (0 <= popvar l)%R.
Proof.
  unfold popvar. set (m := mean l). unfold mean. rewrite zlen_map.
  destruct l as [|x l]; [cbn; lra|].
  assert (0 < IZR (zlen (x :: l)))%R by (apply IZR_lt; rewrite zlen_cons; pose proof (zlen_nonneg l); lia).
  apply Rmult_le_pos; [|left; apply Rinv_0_lt_compat; assumption].
  apply Rsum_map_nonneg. intros y. apply Rle_0_sqr.
Qed.

(** Mean of the [p] values from bar [k] with weights [w 0 .. w (p-1)] (oldest first). *)
Definition wavg (w : Z -> R) (k p : Z) (x : list R) : R :=
  (zsum 0 p (fun j => w j * zn 0 x (k + j)) / zsum 0 p w)%R.

(** Power sums. *)
Lemma zsum_id p : 0 <= p -> zsum 0 p (fun j => IZR (j + 1)) = (IZR p * (IZR p + 1) / 2)%R.
Proof.
  intros H. apply (zind (fun p => zsum 0 p (fun j => IZR (j + 1)) = (IZR p * (IZR p + 1) / 2)%R) 0 p H).
  - rewrite zsum_nil by lia. lra.
  - intros n Hn IH. rewrite zsum_snoc, IH by lia. rewrite plus_IZR. field.
Qed.
Lemma zsum_sq p : 0 <= p -> zsum 0 p (fun j => IZR ((j + 1) * (j + 1))) = (IZR p * (IZR p + 1) * (2 * IZR p + 1) / 6)%R.
Proof.
  intros H. apply (zind (fun p => zsum 0 p (fun j => IZR ((j + 1) * (j + 1))) = (IZR p * (IZR p + 1) * (2 * IZR p + 1) / 6)%R) 0 p H).
  - rewrite zsum_nil by lia. lra.
  - intros n Hn IH. rewrite zsum_snoc, IH by lia. rewrite mult_IZR, plus_IZR. field.
Qed.

(** ** Least squares *)

(** Squared error of the line a + b*t at the points (1, x_k), ..., (p, x_{k+p-1}). *)
Definition sse (a b : R) (k p : Z) (x : list R) : R :=
  zsum 0 p (fun j => (zn 0 x (k + j) - (a + b * IZR (j + 1))) ^ 2)%R.
(** (a, b) is the best line, and the only one. *)
Definition best_line (a b : R) (k p : Z) (x : list R) : Prop :=
  forall a' b', (a', b') <> (a, b) -> (sse a b k p x < sse a' b' k p x)%R.

Section LSQ.
Context (k p : Z) (x : list R) (Hp : 2 <= p).
Let S1 := zsum 0 p (fun j => IZR (j + 1)).
Let S2 := zsum 0 p (fun j => IZR ((j + 1) * (j + 1))).
Let Y := zsum 0 p (fun j => zn 0%R x (k + j)).
Let XY := zsum 0 p (fun j => zn 0 x (k + j) * IZR (j + 1))%R.
Let b := ((IZR p * XY - S1 * Y) / (IZR p * S2 - S1 * S1))%R.
Let a := ((Y - b * S1) / IZR p)%R.

Lemma det_pos : (0 < IZR p * S2 - S1 * S1)%R.
Proof.
  unfold S1, S2. rewrite zsum_id, zsum_sq by lia.
  assert (2 <= IZR p)%R by (apply IZR_le; lia).
  replace (IZR p * (IZR p * (IZR p + 1) * (2 * IZR p + 1) / 6) - IZR p * (IZR p + 1) / 2 * (IZR p * (IZR p + 1) / 2))%R
    with (IZR p * IZR p * (IZR p + 1) * (IZR p - 1) / 12)%R by field.
  apply Rmult_lt_0_compat; [|lra]. apply Rmult_lt_0_compat; [|lra]. apply Rmult_lt_0_compat; [|lra]. nra.
Qed.
Lemma normal1 : (Y = IZR p * a + b * S1)%R.
Proof. unfold a. field. apply not_0_IZR. lia. Qed.
Lemma normal2 : (XY = a * S1 + b * S2)%R.
Proof.
  unfold a, b. pose proof det_pos. field. split; [lra|apply not_0_IZR; lia].
Qed.
Lemma zsum_sq_pos da db : (da, db) <> (0%R, 0%R) -> (0 < zsum 0 p (fun j => (da + db * IZR (j + 1)) ^ 2))%R.
Proof.
  intros N. rewrite (zsum_cons 0 p), (zsum_cons (0 + 1) p) by lia.
  assert (0 <= zsum (0 + 1 + 1) p (fun j => (da + db * IZR (j + 1)) ^ 2))%R.
  { apply zsum_nonneg. intros. apply pow2_ge_0. }
  change (0 + 1) with 1. change (1 + 1) with 2. change (0 + 1 + 1) with 2 in *.
  destruct (Req_dec db 0) as [->|Nb].
  - assert (da <> 0)%R by (intros ->; apply N; reflexivity). nra.
  - assert (0 <= (da + db * 1) ^ 2)%R by apply pow2_ge_0. assert (0 <= (da + db * 2) ^ 2)%R by apply pow2_ge_0.
    destruct (Req_dec (da + db * 1) 0) as [E1|E1]; [|assert (0 < (da + db * 1) ^ 2)%R by nra; lra].
    assert (da + db * 2 <> 0)%R by lra. assert (0 < (da + db * 2) ^ 2)%R by nra. lra.
Qed.
Lemma lsq_best : best_line a b k p x.
Proof.
  intros a' b' N. unfold sse.
  assert (Hd := zsum_sq_pos (a' - a) (b' - b)). specialize (Hd ltac:(intros E; injection E; intros; apply N; f_equal; lra)).
  assert (E : (zsum 0 p (fun j => (zn 0 x (k + j)%Z - (a' + b' * IZR (j + 1)))^2) =
    zsum 0 p (fun j => (zn 0 x (k + j)%Z - (a + b * IZR (j + 1)))^2) + zsum 0 p (fun j => ((a' - a) + (b' - b) * IZR (j + 1)) ^ 2))%R).
  { rewrite (zsum_ext 0 p (fun j => (zn 0 x (k + j)%Z - (a' + b' * IZR (j + 1)))^2)%R
      (fun j => ((zn 0 x (k + j)%Z - (a + b * IZR (j + 1)))^2 + ((a' - a) + (b' - b) * IZR (j + 1)) ^ 2) +
         ((-2 * (a' - a)) * (zn 0 x (k + j)%Z + ((-a) + (- b) * IZR (j + 1))) + (-2 * (b' - b)) * (zn 0 x (k + j)%Z * IZR (j + 1) + ((-a) * IZR (j + 1) + (- b) * IZR ((j + 1) * (j + 1))))))%R)
      by (intros; rewrite mult_IZR; ring).
    rewrite !zsum_plus, !zsum_scal, !zsum_plus, !zsum_scal, zsum_const by lia. fold S1 S2 Y XY. rewrite Z.sub_0_r.
    rewrite normal1, normal2. ring. }
  rewrite E. lra.
Qed.
End LSQ.
(** Slope and value at 0 of the least-squares line of the window. *)
Definition lr_slope (k p : Z) (x : list R) : R :=
  let S1 := zsum 0 p (fun j => IZR (j + 1)) in
  ((IZR p * zsum 0 p (fun j => zn 0 x (k + j) * IZR (j + 1)) - S1 * zsum 0 p (fun j => zn 0 x (k + j)))
   / (IZR p * zsum 0 p (fun j => IZR ((j + 1) * (j + 1))) - S1 * S1))%R.
Definition lr_icept (k p : Z) (x : list R) : R :=
  ((zsum 0 p (fun j => zn 0%R x (k + j)) - lr_slope k p x * zsum 0 p (fun j => IZR (j + 1))) / IZR p)%R.
Lemma lr_best k p x : 2 <= p -> best_line (lr_icept k p x) (lr_slope k p x) k p x.
Proof. apply lsq_best. Qed.

(** Long-run behaviour of the recursive filters. *)
From Verif Require Export Recur.
From Coq Require Import Reals List ZArith Lia Lra.
Import ListNotations.
Open Scope Z_scope.

Lemma at0_ge f i : 0 <= i -> at0 f i = f i.
Proof. intros H. unfold at0. replace (i <? 0) with false by lia. reflexivity. Qed.
Lemma levels_tends x c : levels x c -> tends x c.
Proof. intros [m Hm]. apply (tends_const c m). exact Hm. Qed.

(** ** Every causal rule has a solution *)
Lemma causal_solution (F : Z -> (Z -> R) -> R) :
  (forall i g h, 0 <= i -> (forall j, j < i -> g j = h j) -> F i g = F i h) -> exists f, forall i, 0 <= i -> f i = F i f.
Proof.
  intros HF.
  set (ext := fix ext (k : nat) : Z -> R := match k with O => fun _ => 0%R | S k => fun j => if j =? Z.of_nat k then F j (ext k) else ext k j end).
  assert (Hst : forall k m j, j < Z.of_nat k -> (k <= m)%nat -> ext m j = ext k j).
  { intros k m j Hj Hm. induction Hm as [|m Hm IH]; [reflexivity|]. cbn [ext]. replace (j =? Z.of_nat m) with false by lia. exact IH. }
  exists (fun j => ext (S (Z.to_nat j)) j). intros i Hi. cbn [ext]. replace (i =? Z.of_nat (Z.to_nat i)) with true by lia.
  apply HF; [exact Hi|]. intros j Hj.
  assert (forall k j, j < 0 -> ext k j = 0%R) as Hneg. { induction k as [|k IH]; intros l Hl; [reflexivity|]. cbn [ext]. replace (l =? Z.of_nat k) with false by lia. apply IH. exact Hl. }
  destruct (Z.lt_ge_cases j 0) as [Hn|Hn].
  - rewrite Hneg by lia. replace (j =? Z.of_nat (Z.to_nat j)) with false by lia. rewrite Hneg by lia. reflexivity.
  - change (ext (Z.to_nat i) j = ext (S (Z.to_nat j)) j). apply Hst; lia.
Qed.

(** ** Super smoother and roof *)
Lemma smooth_angle : (0 < 1414 / 1000 * (314159 / 100000) / 10 < PI)%R.
Proof. pose proof PI2_1. lra. Qed.
Lemma smooth_a_lt : (0 <= smooth_a < 1)%R.
Proof.
  unfold smooth_a. split; [left; apply exp_pos|]. rewrite <- exp_0. apply exp_increasing. lra.
Qed.
Lemma ssmooth_tends x f c : (forall i, 0 <= i -> ssmooth_at x f i) -> tends x c -> tends f c.
Proof.
  intros Hf Hx. apply tends_minus. set (t := (1414 / 1000 * (314159 / 100000) / 10)%R).
  apply (two_poles _ (fun i => smooth_gain / 2 * (x i - c) + smooth_gain / 2 * (x (i - 1)%Z - c))%R smooth_a (cos t) (sin t) 2 smooth_a_lt).
  - pose proof (sin2_cos2 t) as H. unfold Rsqr in H. lra.
  - pose proof (sin_gt_0 t (proj1 smooth_angle) (proj2 smooth_angle)). lra.
  - intros i Hi. rewrite (Hf i ltac:(lia)) at 1. rewrite !at0_ge by lia. unfold smooth_gain, smooth_b. fold t. field.
  - replace 0%R with (smooth_gain / 2 * 0 + smooth_gain / 2 * 0)%R by ring. apply tends_plus; apply tends_scal.
    + exact (proj1 (tends_minus x c) Hx).
    + exact (tends_shift 1 _ 0%R (proj1 (tends_minus x c) Hx)).
Qed.

Lemma roof_beta : (0 < 1 - roof_alpha < 1)%R.
Proof.
  pose proof PI2_1 as HP. assert (0 < roof_w < PI / 2)%R as Hw by (unfold roof_w; lra).
  assert (0 < sin roof_w)%R as Hs by (apply sin_gt_0; lra). assert (0 < cos roof_w)%R as Hc by (apply cos_gt_0; lra).
  pose proof (sin2_cos2 roof_w) as E. unfold Rsqr in E. unfold roof_alpha. set (s := sin roof_w) in *. set (c := cos roof_w) in *.
  replace (1 - (c + s - 1) / c)%R with ((1 - s) / c)%R by (field; lra). split.
  - apply Rdiv_lt_0_compat; nra.
  - apply Rmult_lt_reg_r with c; [exact Hc|]. unfold Rdiv. rewrite Rmult_assoc, Rinv_l, Rmult_1_l, Rmult_1_r by lra. nra.
Qed.
Lemma highpass_tends x h c : (forall i, 0 <= i -> highpass_at x h i) -> tends x c -> tends h 0.
Proof.
  intros Hh Hx. pose proof roof_beta as Hb. set (b := (1 - roof_alpha)%R) in *.
  set (k := ((1 - roof_alpha / 2) * (1 - roof_alpha / 2))%R).
  assert (Rabs b < 1)%R by (rewrite Rabs_pos_eq; lra).
  set (u := fun i => (k * (x i - c) + ((-2 * k) * (x (i - 1)%Z - c) + k * (x (i - 2)%Z - c)))%R).
  assert (Hu : tends u 0).
  { replace 0%R with (k * 0 + ((-2 * k) * 0 + k * 0))%R by ring. apply tends_minus in Hx.
    apply tends_plus; [|apply tends_plus]; apply tends_scal; [exact Hx|apply (tends_shift 1 _ 0%R Hx)|apply (tends_shift 2 _ 0%R Hx)]. }
  apply (driven1 h (fun i => h i - b * h (i - 1)%Z)%R b 2); [assumption|intros i Hi; ring|].
  apply (driven1 _ u b 2); [assumption| |exact Hu].
  intros i Hi. rewrite (Hh i ltac:(lia)) at 1. rewrite !at0_ge by lia. unfold u. replace (i - 1 - 1) with (i - 2) by lia. fold b k. ring.
Qed.
Lemma roof_tends x h f c : (forall i, 0 <= i -> highpass_at x h i) -> (forall i, 0 <= i -> ssmooth_at h f i) -> tends x c -> tends f 0.
Proof. intros Hh Hf Hx. apply (ssmooth_tends h); [exact Hf|]. apply (highpass_tends x h c); assumption. Qed.

(** ** Laguerre filter *)
Lemma laguerre0_tends g x l c : (0 <= g < 1)%R -> (forall i, 0 <= i -> laguerre0_at g x l i) -> tends x c -> tends l c.
Proof.
  intros Hg Hl Hx. apply tends_minus. apply tends_minus in Hx. apply (driven1 _ (fun i => (1 - g) * (x i - c))%R g 1).
  - rewrite Rabs_pos_eq; lra.
  - intros i Hi. rewrite (Hl i ltac:(lia)) at 1. rewrite !at0_ge by lia. ring.
  - replace 0%R with ((1 - g) * 0)%R by ring. apply tends_scal. exact Hx.
Qed.
Lemma laguerre_tends g u l c : (0 <= g < 1)%R -> (forall i, 0 <= i -> laguerre_at g u l i) -> tends u c -> tends l c.
Proof.
  intros Hg Hl Hx. apply tends_minus. apply tends_minus in Hx. apply (driven1 _ (fun i => (- g) * (u i - c) + 1 * (u (i - 1)%Z - c))%R g 1).
  - rewrite Rabs_pos_eq; lra.
  - intros i Hi. rewrite (Hl i ltac:(lia)) at 1. rewrite !at0_ge by lia. ring.
  - replace 0%R with ((- g) * 0 + 1 * 0)%R by ring. apply tends_plus; apply tends_scal; [exact Hx|apply (tends_shift 1 _ 0%R Hx)].
Qed.
Lemma lf_tends g x l0 l1 l2 l3 c : (0 <= g < 1)%R ->
  (forall i, 0 <= i -> laguerre0_at g x l0 i /\ laguerre_at g l0 l1 i /\ laguerre_at g l1 l2 i /\ laguerre_at g l2 l3 i) -> tends x c ->
  tends (fun i => (l0 i + 2 * l1 i + 2 * l2 i + l3 i) / 6)%R c.
Proof.
  intros Hg Hl Hx. assert (T0 : tends l0 c) by (apply (laguerre0_tends g x); [exact Hg|apply Hl|exact Hx]).
  assert (T1 : tends l1 c) by (apply (laguerre_tends g l0); [exact Hg|apply Hl|exact T0]).
  assert (T2 : tends l2 c) by (apply (laguerre_tends g l1); [exact Hg|apply Hl|exact T1]).
  assert (T3 : tends l3 c) by (apply (laguerre_tends g l2); [exact Hg|apply Hl|exact T2]).
  apply (tends_ext (fun i => 1 / 6 * l0 i + (1 / 3 * l1 i + (1 / 3 * l2 i + 1 / 6 * l3 i)))%R _ _ 0). { intros i Hi. field. }
  replace c with (1 / 6 * c + (1 / 3 * c + (1 / 3 * c + 1 / 6 * c)))%R by field. repeat apply tends_plus; apply tends_scal; assumption.
Qed.

(** ** Regularised average: the energy alpha e^2 + lambda d^2 shrinks every two bars *)
Lemma rema_tends p lam x f c : (1 <= p)%R -> (0 <= lam)%R -> (forall i, 0 <= i -> rema_at p lam x f i) -> levels x c -> tends f c.
Proof.
  intros Hp Hl Hf [m Hm]. apply tends_minus. set (a := (2 / (1 + p))%R).
  assert (Ha : (0 < a <= 1)%R).
  { unfold a. split; [apply Rdiv_lt_0_compat; lra|]. apply Rmult_le_reg_r with (1 + p)%R; [lra|]. unfold Rdiv. rewrite Rmult_assoc, Rinv_l by lra. lra. }
  set (e := fun i => (f i - c)%R). set (d := fun i => (e i - e (i - 1)%Z)%R). set (E := fun i => (a * (e i * e i) + lam * (d i * d i))%R). set (N := Z.max m 2).
  assert (Hr : forall i, N <= i -> ((1 + lam) * d i = lam * d (i - 1)%Z - a * e (i - 1)%Z)%R).
  { intros i Hi. unfold d, e. rewrite (Hf i ltac:(lia)) at 1. replace (i =? 0) with false by lia. replace (i =? 1) with false by lia. rewrite (Hm i ltac:(lia)). fold a.
    replace (i - 1 - 1) with (i - 2) by lia. field. lra. }
  assert (HE : forall i, N <= i -> (E i + d i * d i <= E (i - 1)%Z)%R).
  { intros i Hi. pose proof (Hr i Hi) as H. unfold E. assert (Hei : e i = (e (i - 1)%Z + d i)%R) by (unfold d; ring).
    set (e1 := e (i - 1)) in *. set (d1 := d (i - 1)) in *. set (di := d i) in *. rewrite Hei.
    assert (0 <= lam * ((di - d1) * (di - d1)))%R by (apply Rmult_le_pos; [lra|apply Rle_0_sqr]). assert (0 <= (1 - a) * (di * di))%R by (apply Rmult_le_pos; [lra|apply Rle_0_sqr]).
    assert (X : (2 * di * (a * e1) = 2 * di * (lam * d1 - (1 + lam) * di))%R) by (f_equal; lra). lra. }
  assert (HE0 : forall i, (0 <= E i)%R). { intros i. unfold E. apply Rplus_le_le_0_compat; apply Rmult_le_pos; try lra; apply Rle_0_sqr. }
  set (K := (2 * (1 + lam) * (1 + lam) / a + lam)%R).
  assert (HK : (0 < K)%R). { unfold K. apply Rplus_lt_le_0_compat; [|lra]. apply Rdiv_lt_0_compat; nra. }
  assert (H2 : forall i, N + 1 <= i -> (E i <= K / (1 + K) * E (i - 2)%Z)%R).
  { intros i Hi. pose proof (HE i ltac:(lia)) as A1. pose proof (HE (i - 1) ltac:(lia)) as A2. replace (i - 1 - 1) with (i - 2) in A2 by lia.
    pose proof (Hr i ltac:(lia)) as H. unfold E in A1, A2 |- *. fold (E i) (E (i - 2)) in A1, A2 |- *.
    set (e1 := e (i - 1)) in *. set (d1 := d (i - 1)) in *. set (di := d i) in *.
    assert (Q0 : (0 <= di * di)%R) by apply Rle_0_sqr. assert (Q1 : (0 <= d1 * d1)%R) by apply Rle_0_sqr.
    set (G := (E (i - 2)%Z - E i)%R).
    assert (G1 : (di * di + d1 * d1 <= G)%R) by (unfold G; lra).
    assert (Hae : (a * e1 = lam * d1 - (1 + lam) * di)%R) by lra.
    assert (B1 : ((a * e1) * (a * e1) <= 2 * (1 + lam) * (1 + lam) * G)%R).
    { rewrite Hae. assert (0 <= (lam * d1 + (1 + lam) * di) * (lam * d1 + (1 + lam) * di))%R by apply Rle_0_sqr.
      assert (2 * (1 + lam) * (1 + lam) * (di * di + d1 * d1) <= 2 * (1 + lam) * (1 + lam) * G)%R by (apply Rmult_le_compat_l; [nra|exact G1]).
      assert (0 <= (1 + 2 * lam) * (d1 * d1))%R by (apply Rmult_le_pos; [lra|exact Q1]). lra. }
    assert (B2 : (a * (e1 * e1) <= 2 * (1 + lam) * (1 + lam) / a * G)%R).
    { apply Rmult_le_reg_l with a; [lra|]. replace (a * (2 * (1 + lam) * (1 + lam) / a * G))%R with (2 * (1 + lam) * (1 + lam) * G)%R by (field; lra). lra. }
    assert (B3 : (lam * (d1 * d1) <= lam * G)%R) by (apply Rmult_le_compat_l; lra).
    assert (B4 : (E i <= K * G)%R) by (unfold K; lra). unfold G in B4.
    apply Rmult_le_reg_l with (1 + K)%R; [lra|]. replace ((1 + K) * (K / (1 + K) * E (i - 2)%Z))%R with (K * E (i - 2)%Z)%R by (field; lra). lra. }
  assert (Hdec : forall i j, N - 1 <= i -> i <= j -> (E j <= E i)%R).
  { intros i j Hi Hij. pattern j. apply (Zlt_lower_bound_ind _ i); [|exact Hij]. clear j Hij. intros j IH Hj. destruct (Z.eq_dec j i) as [->|]; [lra|].
    eapply Rle_trans; [|apply (IH (j - 1)); lia]. pose proof (HE j ltac:(lia)). assert (0 <= d j * d j)%R by apply Rle_0_sqr. lra. }
  assert (TE : tends E 0).
  { apply (shrinking E (K / (1 + K)) 2 N (E N)).
    - split; [apply Rmult_le_pos; [lra|left; apply Rinv_0_lt_compat; lra]|]. apply Rmult_lt_reg_r with (1 + K)%R; [lra|]. unfold Rdiv. rewrite Rmult_assoc, Rinv_l by lra. lra.
    - lia.
    - apply HE0.
    - intros i Hi. rewrite Rabs_pos_eq by apply HE0. apply Hdec; lia.
    - intros n C Hn HC j Hj. rewrite Rabs_pos_eq by apply HE0. eapply Rle_trans; [apply H2; lia|]. apply Rmult_le_compat_l; [apply Rmult_le_pos; [lra|left; apply Rinv_0_lt_compat; lra]|].
      eapply Rle_trans; [apply Rle_abs|apply HC; lia]. }
  intros eps He. destruct (TE (a * (eps * eps))%R ltac:(apply Rmult_lt_0_compat; [lra|nra])) as [M HM]. exists M. intros i Hi. specialize (HM i Hi).
  rewrite !Rminus_0_r in *. rewrite Rabs_pos_eq in HM by apply HE0. unfold E in HM. fold (e i).
  assert (0 <= lam * (d i * d i))%R by (apply Rmult_le_pos; [lra|apply Rle_0_sqr]).
  assert (e i * e i < eps * eps)%R by (apply Rmult_lt_reg_l with a; lra). apply Rsqr_lt_abs_0 in H0. rewrite (Rabs_pos_eq eps) in H0 by lra. exact H0.
Qed.

(** ** Table filters *)
Definition pick (l : list Z) (j : nat) : Z := nth j l 0.
Definition slot_of (n : Z) : nat := Z.to_nat (n / 2 - 1).
Lemma entry_pick l n : entry l n = (IZR (pick l (slot_of n)) / 1000000)%R.
Proof. reflexivity. Qed.
Lemma slots (P : nat -> bool) k n : 2 <= n <= 2 * Z.of_nat k -> Z.even n = true -> forallb P (seq 0 k) = true -> P (slot_of n) = true.
Proof.
  intros Hn He Hf. rewrite forallb_forall in Hf. apply Hf. apply in_seq. unfold slot_of.
  apply Z.even_spec in He. destruct He as [q ->]. rewrite Z.mul_comm, Z.div_mul by lia. lia.
Qed.

Definition bf2_ok (j : nat) : bool := let a1 := pick bf2_A1_tbl j in let a2 := pick bf2_A2_tbl j in
  let b := pick bf2_B0_tbl j + pick bf2_B1_tbl j + pick bf2_B2_tbl j in
  (stable 1000000 [a1; a2] && (a1 + a2 <? 1000000) && (20000 * Z.abs (b - (1000000 - a1 - a2)) <=? 1000000 - a1 - a2))%bool.
Lemma bf2_all : forallb bf2_ok (seq 0 20) = true. Proof. vm_compute. reflexivity. Qed.
Definition bf3_ok (j : nat) : bool := let a1 := pick bf3_A1_tbl j in let a2 := pick bf3_A2_tbl j in let a3 := pick bf3_A3_tbl j in
  let b := pick bf3_B0_tbl j + pick bf3_B1_tbl j + pick bf3_B2_tbl j + pick bf3_B3_tbl j in
  (stable 1000000 [a1; a2; a3] && (a1 + a2 + a3 <? 1000000) && (3000 * Z.abs (b - (1000000 - a1 - a2 - a3)) <=? 1000000 - a1 - a2 - a3))%bool.
Lemma bf3_all : forallb bf3_ok (seq 0 20) = true. Proof. vm_compute. reflexivity. Qed.

Lemma micro_ratio a b k : 0 < b -> 0 < k -> k * Z.abs (a - b) <= b -> (Rabs (IZR a / IZR b - 1) <= 1 / IZR k)%R.
Proof.
  intros Hb Hk H. apply IZR_le in H. rewrite mult_IZR, abs_IZR, minus_IZR in H. apply IZR_lt in Hb, Hk.
  replace (IZR a / IZR b - 1)%R with ((IZR a - IZR b) * / IZR b)%R by (field; lra). rewrite Rabs_mult, (Rabs_pos_eq (/ IZR b)) by (left; apply Rinv_0_lt_compat; lra).
  apply Rmult_le_reg_l with (IZR k); [lra|]. apply Rmult_le_reg_r with (IZR b); [lra|]. replace (IZR k * (Rabs (IZR a - IZR b) * / IZR b) * IZR b)%R with (IZR k * Rabs (IZR a - IZR b))%R by (field; lra).
  replace (IZR k * (1 / IZR k) * IZR b)%R with (IZR b) by (field; lra). exact H.
Qed.
Ltac tables := rewrite !entry_pick in *; cbv beta zeta in *.

Lemma bf2_tends n x f c : 2 <= n <= 40 -> Z.even n = true -> (forall i, 0 <= i -> bf2_at n x f i) -> levels x c ->
  tends f (bf2_gain n * c)%R /\ (Rabs (bf2_gain n - 1) <= 1 / 20000)%R.
Proof.
  intros Hn He Hf [m Hm]. pose proof (slots bf2_ok 20 n ltac:(lia) He bf2_all) as H. unfold bf2_ok in H. cbv zeta in H.
  set (a1 := pick bf2_A1_tbl (slot_of n)) in *. set (a2 := pick bf2_A2_tbl (slot_of n)) in *.
  set (b0 := pick bf2_B0_tbl (slot_of n)) in *. set (b1 := pick bf2_B1_tbl (slot_of n)) in *. set (b2 := pick bf2_B2_tbl (slot_of n)) in *.
  apply andb_prop in H. destruct H as [H H3]. apply andb_prop in H. destruct H as [H1 H2]. apply Z.ltb_lt in H2. apply Z.leb_le in H3.
  assert (D : (IZR a1 + IZR a2 < 1000000)%R) by (rewrite <- plus_IZR; apply IZR_lt; exact H2).
  assert (G : bf2_gain n = (IZR (b0 + b1 + b2) / IZR (1000000 - a1 - a2))%R).
  { unfold bf2_gain. rewrite !entry_pick. fold a1 a2 b0 b1 b2. rewrite !plus_IZR, !minus_IZR. field. lra. }
  split.
  - apply tends_minus. apply (stable_tends 1000000 [a1; a2] _ (Z.max m 0 + 3)); [lia|exact H1|].
    intros i Hi. cbn [row]. rewrite (Hf (i + 1) ltac:(lia)) at 1. rewrite !at0_ge by lia. rewrite !Hm by lia. rewrite !entry_pick. fold a1 a2 b0 b1 b2.
    replace (i + 1 - 1) with i by lia. replace (i + 1 - 2) with (i - 1) by lia. rewrite G, !plus_IZR, !minus_IZR. field. lra.
  - rewrite G. apply micro_ratio; lia.
Qed.
Lemma bf3_tends n x f c : 2 <= n <= 40 -> Z.even n = true -> (forall i, 0 <= i -> bf3_at n x f i) -> levels x c ->
  tends f (bf3_gain n * c)%R /\ (Rabs (bf3_gain n - 1) <= 1 / 3000)%R.
Proof.
  intros Hn He Hf [m Hm]. pose proof (slots bf3_ok 20 n ltac:(lia) He bf3_all) as H. unfold bf3_ok in H. cbv zeta in H.
  set (a1 := pick bf3_A1_tbl (slot_of n)) in *. set (a2 := pick bf3_A2_tbl (slot_of n)) in *. set (a3 := pick bf3_A3_tbl (slot_of n)) in *.
  set (b0 := pick bf3_B0_tbl (slot_of n)) in *. set (b1 := pick bf3_B1_tbl (slot_of n)) in *. set (b2 := pick bf3_B2_tbl (slot_of n)) in *. set (b3 := pick bf3_B3_tbl (slot_of n)) in *.
  apply andb_prop in H. destruct H as [H H3]. apply andb_prop in H. destruct H as [H1 H2]. apply Z.ltb_lt in H2. apply Z.leb_le in H3.
  assert (D : (IZR a1 + IZR a2 + IZR a3 < 1000000)%R) by (rewrite <- !plus_IZR; apply IZR_lt; exact H2).
  assert (G : bf3_gain n = (IZR (b0 + b1 + b2 + b3) / IZR (1000000 - a1 - a2 - a3))%R).
  { unfold bf3_gain. rewrite !entry_pick. fold a1 a2 a3 b0 b1 b2 b3. rewrite !plus_IZR, !minus_IZR. field. lra. }
  split.
  - apply tends_minus. apply (stable_tends 1000000 [a1; a2; a3] _ (Z.max m 0 + 4)); [lia|exact H1|].
    intros i Hi. cbn [row]. rewrite (Hf (i + 1) ltac:(lia)) at 1. rewrite !at0_ge by lia. rewrite !Hm by lia. rewrite !entry_pick. fold a1 a2 a3 b0 b1 b2 b3.
    replace (i + 1 - 1) with i by lia. replace (i + 1 - 2) with (i - 1) by lia. replace (i + 1 - 3) with (i - 1 - 1) by lia. rewrite G, !plus_IZR, !minus_IZR. field. lra.
  - rewrite G. apply micro_ratio; lia.
Qed.

Definition gf1_ok (j : nat) : bool := let b := pick gf1_B0_tbl j in let a1 := pick gf1_A1_tbl j in (stable (b + a1) [a1] && (0 <? b + a1))%bool.
Lemma gf1_all : forallb gf1_ok (seq 0 20) = true. Proof. vm_compute. reflexivity. Qed.
Definition gf2_ok (j : nat) : bool := let b := pick gf2_B0_tbl j in let a1 := pick gf2_A1_tbl j in let a2 := pick gf2_A2_tbl j in (stable (b + a1 + a2) [a1; a2] && (0 <? b + a1 + a2))%bool.
Lemma gf2_all : forallb gf2_ok (seq 0 20) = true. Proof. vm_compute. reflexivity. Qed.
Definition gf4_ok (j : nat) : bool := let b := pick gf4_B0_tbl j in let a1 := pick gf4_A1_tbl j in let a2 := pick gf4_A2_tbl j in let a3 := pick gf4_A3_tbl j in let a4 := pick gf4_A4_tbl j in
  (stable (b + a1 + a2 + a3 + a4) [a1; a2; a3; a4] && (0 <? b + a1 + a2 + a3 + a4))%bool.
Lemma gf4_all : forallb gf4_ok (seq 0 15) = true. Proof. vm_compute. reflexivity. Qed.

Lemma gf1_tends n x f c : 2 <= n <= 40 -> Z.even n = true -> (forall i, 0 <= i -> gf1_at n x f i) -> levels x c -> tends f c.
Proof.
  intros Hn He Hf [m Hm]. pose proof (slots gf1_ok 20 n ltac:(lia) He gf1_all) as H. unfold gf1_ok in H. cbv zeta in H.
  set (b := pick gf1_B0_tbl (slot_of n)) in *. set (a1 := pick gf1_A1_tbl (slot_of n)) in *.
  apply andb_prop in H. destruct H as [H1 H2]. apply Z.ltb_lt in H2. assert (D : (0 < IZR b + IZR a1)%R) by (rewrite <- plus_IZR; apply IZR_lt; exact H2).
  apply tends_minus. apply (stable_tends (b + a1) [a1] _ (Z.max m 0 + 2)); [lia|exact H1|].
  intros i Hi. cbn [row]. rewrite (Hf (i + 1) ltac:(lia)) at 1. rewrite !at0_ge by lia. rewrite !Hm by lia. rewrite !entry_pick. fold b a1.
  replace (i + 1 - 1) with i by lia. rewrite !plus_IZR. field. lra.
Qed.
Lemma gf2_tends n x f c : 2 <= n <= 40 -> Z.even n = true -> (forall i, 0 <= i -> gf2_at n x f i) -> levels x c -> tends f c.
Proof.
  intros Hn He Hf [m Hm]. pose proof (slots gf2_ok 20 n ltac:(lia) He gf2_all) as H. unfold gf2_ok in H. cbv zeta in H.
  set (b := pick gf2_B0_tbl (slot_of n)) in *. set (a1 := pick gf2_A1_tbl (slot_of n)) in *. set (a2 := pick gf2_A2_tbl (slot_of n)) in *.
  apply andb_prop in H. destruct H as [H1 H2]. apply Z.ltb_lt in H2. assert (D : (0 < IZR b + IZR a1 + IZR a2)%R) by (rewrite <- !plus_IZR; apply IZR_lt; exact H2).
  apply tends_minus. apply (stable_tends (b + a1 + a2) [a1; a2] _ (Z.max m 0 + 3)); [lia|exact H1|].
  intros i Hi. cbn [row]. rewrite (Hf (i + 1) ltac:(lia)) at 1. rewrite !at0_ge by lia. rewrite !Hm by lia. rewrite !entry_pick. fold b a1 a2.
  replace (i + 1 - 1) with i by lia. replace (i + 1 - 2) with (i - 1) by lia. rewrite !plus_IZR. field. lra.
Qed.
Lemma gf3_tends x f c : (forall i, 0 <= i -> gf3_at x f i) -> levels x c -> tends f c.
Proof.
  intros Hf [m Hm]. apply tends_minus. apply (stable_tends 4 [1; 1; 1] _ (Z.max m 0 + 4)); [lia|vm_compute; reflexivity|].
  intros i Hi. cbn [row]. rewrite (Hf (i + 1) ltac:(lia)) at 1. rewrite !at0_ge by lia. rewrite !Hm by lia.
  replace (i + 1 - 1) with i by lia. replace (i + 1 - 2) with (i - 1) by lia. replace (i + 1 - 3) with (i - 1 - 1) by lia. field.
Qed.
Lemma gf4_tends n x f c : 2 <= n <= 30 -> Z.even n = true -> (forall i, 0 <= i -> gf4_at n x f i) -> levels x c -> tends f c.
Proof.
  intros Hn He Hf [m Hm]. pose proof (slots gf4_ok 15 n ltac:(lia) He gf4_all) as H. unfold gf4_ok in H. cbv zeta in H.
  set (b := pick gf4_B0_tbl (slot_of n)) in *. set (a1 := pick gf4_A1_tbl (slot_of n)) in *. set (a2 := pick gf4_A2_tbl (slot_of n)) in *.
  set (a3 := pick gf4_A3_tbl (slot_of n)) in *. set (a4 := pick gf4_A4_tbl (slot_of n)) in *.
  apply andb_prop in H. destruct H as [H1 H2]. apply Z.ltb_lt in H2. assert (D : (0 < IZR b + IZR a1 + IZR a2 + IZR a3 + IZR a4)%R) by (rewrite <- !plus_IZR; apply IZR_lt; exact H2).
  apply tends_minus. apply (stable_tends (b + a1 + a2 + a3 + a4) [a1; a2; a3; a4] _ (Z.max m 0 + 5)); [lia|exact H1|].
  intros i Hi. cbn [row]. rewrite (Hf (i + 1) ltac:(lia)) at 1. replace (i + 1 <? 5) with false by lia. rewrite !Hm by lia. rewrite !entry_pick. fold b a1 a2 a3 a4.
  replace (i + 1 - 1) with i by lia. replace (i + 1 - 2) with (i - 1) by lia. replace (i + 1 - 3) with (i - 1 - 1) by lia. replace (i + 1 - 4) with (i - 1 - 1 - 1) by lia. rewrite !plus_IZR. field. lra.
Qed.

(** ** gf4 with a period of 32 or more: a quadratic form of the last four outputs grows without end *)
Definition quad (v11 v12 v13 v14 v22 v23 v24 v33 v34 v44 a b c d : R) : R :=
  (v11 * (a * a) + v22 * (b * b) + v33 * (c * c) + v44 * (d * d) + 2 * (v12 * (a * b) + v13 * (a * c) + v14 * (a * d) + v23 * (b * c) + v24 * (b * d) + v34 * (c * d)))%R.
Definition form (n : Z) : R -> R -> R -> R -> R :=
  match n with
  | 32 => quad 1014 (-5093) (-3835) (-387) 16932 (-3635) (-701) (-162) 50 (-82)
  | 34 => quad 237 (-2485) (-2426) (-262) 8998 (-1794) (-370) (-440) (-9) (-91)
  | 36 => quad (-1900) 552 (-3238) (-424) 2923 847 57 (-2259) (-284) (-133)
  | 38 => quad (-2473) 1412 (-3486) (-481) 1080 1672 197 (-2940) (-393) (-151)
  | _ => quad (-2668) 1740 (-3577) (-508) 270 2033 263 (-3310) (-457) (-161)
  end.
Definition wide (n : Z) : Prop := n = 32 \/ n = 34 \/ n = 36 \/ n = 38 \/ n = 40.
Ltac squares a b c d :=
  pose proof (Rle_0_sqr a); pose proof (Rle_0_sqr b); pose proof (Rle_0_sqr c); pose proof (Rle_0_sqr d);
  pose proof (Rle_0_sqr (a + b)); pose proof (Rle_0_sqr (a - b)); pose proof (Rle_0_sqr (a + c)); pose proof (Rle_0_sqr (a - c));
  pose proof (Rle_0_sqr (a + d)); pose proof (Rle_0_sqr (a - d)); pose proof (Rle_0_sqr (b + c)); pose proof (Rle_0_sqr (b - c));
  pose proof (Rle_0_sqr (b + d)); pose proof (Rle_0_sqr (b - d)); pose proof (Rle_0_sqr (c + d)); pose proof (Rle_0_sqr (c - d)); unfold Rsqr in *.
Definition rate (n : Z) : R := if n =? 32 then (102 / 100)%R else (105 / 100)%R.
Lemma gf4_grows n a b c d : wide n ->
  let e := ((entry gf4_A1_tbl n * a + entry gf4_A2_tbl n * b + entry gf4_A3_tbl n * c + entry gf4_A4_tbl n * d)
             / (entry gf4_B0_tbl n + entry gf4_A1_tbl n + entry gf4_A2_tbl n + entry gf4_A3_tbl n + entry gf4_A4_tbl n))%R in
  (rate n * form n a b c d <= form n e a b c)%R.
Proof.
  intros Hn e. assert (X : forall k A1 A2 A3 A4 B S, wide k -> n = k -> S = B + A1 + A2 + A3 + A4 -> 0 < S ->
    pick gf4_B0_tbl (slot_of k) = B -> pick gf4_A1_tbl (slot_of k) = A1 -> pick gf4_A2_tbl (slot_of k) = A2 -> pick gf4_A3_tbl (slot_of k) = A3 -> pick gf4_A4_tbl (slot_of k) = A4 ->
    e = (IZR A1 / IZR S * a + IZR A2 / IZR S * b + IZR A3 / IZR S * c + IZR A4 / IZR S * d)%R).
  { intros k A1 A2 A3 A4 B S _ -> -> HS E0 E1 E2 E3 E4. unfold e. rewrite !entry_pick, E0, E1, E2, E3, E4. apply IZR_lt in HS. rewrite !plus_IZR in HS |- *. field. lra. }
  unfold rate. destruct Hn as [Hn|[Hn|[Hn|[Hn|Hn]]]].
  - rewrite (X 32 (2558316) (-2454368) (1046508) (167331) 16875 1334662 ltac:(unfold wide; lia) Hn eq_refl eq_refl eq_refl eq_refl eq_refl eq_refl eq_refl). clear X. subst n. cbn [Z.eqb Pos.eqb form]. clear e. unfold quad. squares a b c d. lra.
  - rewrite (X 34 (2625237) (-2584450) (1130799) (185538) 13953 1371077 ltac:(unfold wide; lia) Hn eq_refl eq_refl eq_refl eq_refl eq_refl eq_refl eq_refl). clear X. subst n. cbn [Z.eqb Pos.eqb form]. clear e. unfold quad. squares a b c d. lra.
  - rewrite (X 36 (2686378) (-2706235) (1211662) (203436) 11632 1406873 ltac:(unfold wide; lia) Hn eq_refl eq_refl eq_refl eq_refl eq_refl eq_refl eq_refl). clear X. subst n. cbn [Z.eqb Pos.eqb form]. clear e. unfold quad. squares a b c d. lra.
  - rewrite (X 38 (2742435) (-2820356) (1289107) (220956) 9770 1441912 ltac:(unfold wide; lia) Hn eq_refl eq_refl eq_refl eq_refl eq_refl eq_refl eq_refl). clear X. subst n. cbn [Z.eqb Pos.eqb form]. clear e. unfold quad. squares a b c d. lra.
  - rewrite (X 40 (2794000) (-2927413) (1363199) (238049) 8263 1476098 ltac:(unfold wide; lia) Hn eq_refl eq_refl eq_refl eq_refl eq_refl eq_refl eq_refl). clear X. subst n. cbn [Z.eqb Pos.eqb form]. clear e. unfold quad. squares a b c d. lra.
Qed.

(** Solutions, ranges and long-run behaviour of ahma, ehma, edcf, rvi, frama, hd and mama. *)
From Verif Require Import Fun_cycle.
From Verif Require Export SpecR6 Settle.
From Coq Require Import Reals List ZArith Lia Lra Bool.
Import ListNotations.
Open Scope Z_scope.

(** ** Solutions *)
Lemma causal_any {A} (d : A) first (F : Z -> (Z -> A) -> A) :
  (forall i g h, first <= i -> (forall j, j < i -> g j = h j) -> F i g = F i h) ->
  exists f, forall i, f i = if i <? first then d else F i f.
Proof.
  intros HF.
  set (ext := fix ext (k : nat) : Z -> A := match k with O => fun _ => d | S k => fun j => if j =? first + Z.of_nat k then F j (ext k) else ext k j end).
  assert (Hst : forall k m j, j < first + Z.of_nat k -> (k <= m)%nat -> ext m j = ext k j).
  { intros k m j Hj Hm. induction Hm as [|m Hm IH]; [reflexivity|]. cbn [ext]. replace (j =? first + Z.of_nat m) with false by lia. exact IH. }
  assert (forall k j, j < first -> ext k j = d) as Hneg. { induction k as [|k IH]; intros l Hl; [reflexivity|]. cbn [ext]. replace (l =? first + Z.of_nat k) with false by lia. apply IH. exact Hl. }
  exists (fun j => ext (S (Z.to_nat (j - first))) j). intros i. destruct (Z.ltb_spec i first) as [Hi|Hi]; [apply Hneg; exact Hi|].
  cbn [ext]. replace (i =? first + Z.of_nat (Z.to_nat (i - first))) with true by lia.
  apply HF; [exact Hi|]. intros j Hj. change (ext (Z.to_nat (i - first)) j = ext (S (Z.to_nat (j - first))) j).
  destruct (Z.lt_ge_cases j first) as [Hn|Hn]; [rewrite !Hneg by lia; reflexivity|]. apply Hst; lia.
Qed.

Record bar := Bar { b_smooth : R; b_detrend : R; b_I1 : R; b_Q1 : R; b_I2 : R; b_Q2 : R; b_Re : R; b_Im : R; b_period : R; b_avg : R }.
Definition hil (last : R) (now : R) (f : Z -> R) (i : Z) : R :=
  ((962 / 10000 * now + 5769 / 10000 * f (i - 2)%Z - 5769 / 10000 * f (i - 4)%Z - 962 / 10000 * f (i - 6)%Z) * (75 / 1000 * last + 54 / 100))%R.
Definition bar_next (circle : R) (x : Z -> R) (i : Z) (g : Z -> bar) : bar :=
  let last := b_period (g (i - 1)) in
  let sm := ((4 * x i + 3 * x (i - 1)%Z + 2 * x (i - 2)%Z + x (i - 3)%Z) / 10)%R in
  let de := hil last sm (fun j => b_smooth (g j)) i in
  let q1 := hil last de (fun j => b_detrend (g j)) i in
  let i1 := b_detrend (g (i - 3)) in
  let i2 := (2 / 10 * (i1 - hil last q1 (fun j => b_Q1 (g j)) i) + 8 / 10 * b_I2 (g (i - 1)%Z))%R in
  let q2 := (2 / 10 * (q1 + hil last i1 (fun j => b_I1 (g j)) i) + 8 / 10 * b_Q2 (g (i - 1)%Z))%R in
  let re := (2 / 10 * (i2 * b_I2 (g (i - 1)%Z) + q2 * b_Q2 (g (i - 1)%Z)) + 8 / 10 * b_Re (g (i - 1)%Z))%R in
  let im := (2 / 10 * (i2 * b_Q2 (g (i - 1)%Z) - q2 * b_I2 (g (i - 1)%Z)) + 8 / 10 * b_Im (g (i - 1)%Z))%R in
  let raw := if Reqb im 0 || Reqb re 0 then b_period (g (i - 2)) else (circle / atan (im / re))%R in
  let pe := (2 / 10 * within raw last + 8 / 10 * last)%R in
  Bar sm de i1 q1 i2 q2 re im pe (33 / 100 * pe + 67 / 100 * b_avg (g (i - 1)%Z))%R.
Lemma cycle_exists circle first x : exists c, forall i, cycle_at circle first x c i.
Proof.
  destruct (causal_any (Bar 0 0 0 0 0 0 0 0 0 0) first (bar_next circle x)) as [g Hg].
  { intros i g h Hi H. unfold bar_next, hil. rewrite (H (i - 1)), (H (i - 2)), (H (i - 3)), (H (i - 4)), (H (i - 6)) by lia. reflexivity. }
  exists (Cycle (fun i => b_smooth (g i)) (fun i => b_detrend (g i)) (fun i => b_I1 (g i)) (fun i => b_Q1 (g i)) (fun i => b_I2 (g i)) (fun i => b_Q2 (g i))
    (fun i => b_Re (g i)) (fun i => b_Im (g i)) (fun i => b_period (g i)) (fun i => b_avg (g i))).
  intros i. specialize (Hg i). unfold cycle_at. destruct (i <? first).
  - cbn [c_smooth c_detrend c_I1 c_Q1 c_I2 c_Q2 c_Re c_Im c_period c_avg]. rewrite Hg. repeat split; reflexivity.
  - cbn [c_smooth c_detrend c_I1 c_Q1 c_I2 c_Q2 c_Re c_Im c_period c_avg]. unfold hilbert. cbv zeta. rewrite Hg. repeat split; reflexivity.
Qed.
Lemma mama_exists fast slow x c : exists phase m f, forall i, mama_at fast slow x c phase m f i.
Proof.
  set (phase := fun i => if i <? 6 then 0%R else if Reqb (c_I1 c i) 0 then 0%R else atan (c_Q1 c i / c_I1 c i)).
  destruct (causal_any 0%R 6 (fun i g => let a := mama_alpha fast slow phase i in a * x i + (1 - a) * g (i - 1)%Z)%R) as [m Hm].
  { intros i g h Hi H. cbv zeta. rewrite H by lia. reflexivity. }
  destruct (causal_any 0%R 6 (fun i g => let a := mama_alpha fast slow phase i in a / 2 * m i + (1 - a / 2) * g (i - 1)%Z)%R) as [f Hf].
  { intros i g h Hi H. cbv zeta. rewrite H by lia. reflexivity. }
  exists phase, m, f. intros i. specialize (Hm i). specialize (Hf i). unfold mama_at. cbv zeta in *. destruct (i <? 6) eqn:E.
  - split; [unfold phase; rewrite E; reflexivity|]. split; assumption.
  - split; [unfold phase at 1; rewrite E; reflexivity|]. split; assumption.
Qed.
Lemma ahma_exists p x : 1 <= p -> exists f, forall i, 0 <= i -> ahma_at p x f i.
Proof.
  intros Hp. apply (causal_solution (fun i f => if (i <? p)%Z then x i else (f (i - 1)%Z + (x i - (f (i - 1)%Z + f (i - p)%Z) / 2) / IZR p)%R)).
  intros i g h Hi H. rewrite (H (i - 1)), (H (i - p)) by lia. reflexivity.
Qed.
Lemma frama_exists p avg h l : exists f, forall i, 0 <= i -> frama_at p avg h l f i.
Proof.
  apply (causal_solution (fun i f => let mid := ((h i + l i) / 2)%R in
    if (i <? p)%Z then mid else (frama_alpha p avg h l i * mid + (1 - frama_alpha p avg h l i) * f (i - 1)%Z)%R)).
  intros i g k Hi H. rewrite (H (i - 1)) by lia. reflexivity.
Qed.

(** ** A weighted step towards something that converges *)
Lemma step_tends (a x f : Z -> R) c k N : (0 < k <= 1)%R -> (forall i, N <= i -> (k <= a i <= 1)%R) ->
  (forall i, N <= i -> (f i = a i * x i + (1 - a i) * f (i - 1)%Z)%R) -> tends x c -> tends f c.
Proof.
  intros Hk Ha Hf Hx. apply tends_minus. apply (tends_squeeze (fun i => Rabs (f i - c)) _ 1 N). { intros i Hi. rewrite Rabs_Rabsolu. lra. }
  apply (driven _ (fun i => Rabs (x i - c)) (1 - k) N); [lra|intros; apply Rabs_pos| |].
  - intros i Hi. specialize (Ha i Hi). replace (f i - c)%R with (a i * (x i - c) + (1 - a i) * (f (i - 1)%Z - c))%R by (rewrite (Hf i Hi); ring).
    eapply Rle_trans; [apply Rabs_triang|]. rewrite !Rabs_mult, !(Rabs_pos_eq (a i)), !(Rabs_pos_eq (1 - a i)) by lra.
    pose proof (Rabs_pos (x i - c)). pose proof (Rabs_pos (f (i - 1)%Z - c)). nra.
  - apply tends_minus in Hx. apply (tends_squeeze (fun i => x i - c)%R _ 1 N); [|exact Hx]. intros i Hi. rewrite Rabs_Rabsolu. lra.
Qed.
Lemma mix a x y lo hi : (0 <= a <= 1)%R -> (lo <= x <= hi)%R -> (lo <= y <= hi)%R -> (lo <= a * x + (1 - a) * y <= hi)%R.
Proof. intros. split; nra. Qed.

(** ** hwma *)
Ltac rows := repeat match goal with |- context[map ?F (seq 0 ?n)] => let r := eval cbv [map seq Z.to_nat Z.sub Z.add Z.opp Z.of_nat Pos.of_succ_nat Pos.succ Pos.to_nat Pos.iter_op Nat.add henderson Z.eqb Pos.eqb nth] in (map F (seq 0 n)) in change (map F (seq 0 n)) with r end; cbn [Rsum].
Lemma hwma_const p x i c : 7 <= p <= 13 -> (forall j, i - p < j <= i -> x j = c) -> hwma_at p x i = c.
Proof.
  intros Hp Hx. unfold hwma_at. rewrite (zsum_ext 0 p _ (fun j => c * (IZR (nth (Z.to_nat j) (henderson p) 0%Z) / 1000))%R).
  2: { intros j Hj. rewrite Hx by lia. ring. }
  rewrite zsum_scal. transitivity (c * 1)%R; [|ring]. f_equal. clear Hx. revert p Hp. apply upto13; unfold zsum, tab; rows; lra.
Qed.
Definition henderson_lag (p : Z) : R := zsum 0 p (fun j => IZR (nth (Z.to_nat j) (henderson p) 0%Z) / 1000 * IZR j)%R.
Lemma hwma_line p a b i : 7 <= p <= 13 -> hwma_at p (fun j => a + b * IZR j)%R i = (a + b * (IZR i - henderson_lag p))%R.
Proof.
  intros Hp. unfold hwma_at, henderson_lag.
  rewrite (zsum_ext 0 p _ (fun j => (a + b * IZR i) * (IZR (nth (Z.to_nat j) (henderson p) 0%Z) / 1000) - b * (IZR (nth (Z.to_nat j) (henderson p) 0%Z) / 1000 * IZR j))%R).
  2: { intros j Hj. rewrite minus_IZR. ring. }
  rewrite zsum_minus, !zsum_scal. pose proof (hwma_const p (fun _ => 1%R) 0 1%R Hp ltac:(intros; reflexivity)) as E. unfold hwma_at in E.
  rewrite (zsum_ext 0 p (fun j => IZR (nth (Z.to_nat j) (henderson p) 0%Z) / 1000)%R (fun j => IZR (nth (Z.to_nat j) (henderson p) 0%Z) / 1000 * 1)%R) by (intros; ring).
  rewrite E. ring.
Qed.
Lemma henderson_lags : map henderson_lag [7; 8; 9; 10; 11; 12; 13] = map (fun t => t / 1000)%R [407; 1123; 1997; 2947; 3982; 4993; 6000]%R.
Proof.
  unfold map. repeat f_equal; unfold henderson_lag, zsum, tab; rows; lra.
Qed.

(** ** ahma *)
Lemma bounded_before (v : Z -> R) lo hi : exists B, (0 <= B)%R /\ forall i, lo <= i < hi -> (Rabs (v i) <= B)%R.
Proof.
  exists (zsum lo hi (fun i => Rabs (v i))). split; [apply zsum_nonneg; intros; apply Rabs_pos|]. intros i Hi.
  rewrite (zsum_split lo i hi), (zsum_cons i hi) by lia.
  pose proof (zsum_nonneg lo i (fun i => Rabs (v i)) ltac:(intros; apply Rabs_pos)). pose proof (zsum_nonneg (i + 1) hi (fun i => Rabs (v i)) ltac:(intros; apply Rabs_pos)). lra.
Qed.
Lemma walk (v : Z -> R) d n k : 0 <= k -> (forall j, n < j <= n + k -> (Rabs (v j - v (j - 1)%Z) <= d)%R) -> (Rabs (v (n + k)%Z - v n) <= IZR k * d)%R.
Proof.
  intros Hk. apply (zind (fun k => (forall j, n < j <= n + k -> (Rabs (v j - v (j - 1)%Z) <= d)%R) -> (Rabs (v (n + k)%Z - v n) <= IZR k * d)%R) 0 k); [lia| |].
  - intros _. rewrite Z.add_0_r, Rminus_diag_eq, Rabs_R0 by reflexivity. lra.
  - intros m Hm IH H. specialize (IH ltac:(intros; apply H; lia)). specialize (H (n + (m + 1)) ltac:(lia)). replace (n + (m + 1) - 1) with (n + m) in H by lia.
    rewrite plus_IZR. replace (v (n + (m + 1))%Z - v n)%R with ((v (n + (m + 1))%Z - v (n + m)%Z) + (v (n + m)%Z - v n))%R by ring. eapply Rle_trans; [apply Rabs_triang|]. lra.
Qed.
Lemma ahma_tends p x f c : 1 <= p -> (forall i, 0 <= i -> ahma_at p x f i) -> levels x c -> tends f c.
Proof.
  intros Hp Hf [m Hm]. apply tends_minus. set (v := fun i => (f i - c)%R). set (N := Z.max 0 m + p).
  assert (HP : (1 <= IZR p)%R) by (apply IZR_le; lia). set (k := (1 / (2 * IZR p))%R).
  assert (Hk : (0 < k <= 1 / 2)%R). { unfold k. split; [apply Rdiv_lt_0_compat; lra|]. apply Rmult_le_reg_r with (2 * IZR p)%R; [lra|]. unfold Rdiv. rewrite Rmult_assoc, Rinv_l by lra. lra. }
  assert (Kp : (k * IZR p = 1 / 2)%R) by (unfold k; field; lra).
  assert (Hv : forall i, N <= i -> v i = ((1 - k) * v (i - 1)%Z - k * v (i - p)%Z)%R).
  { intros i Hi. specialize (Hf i ltac:(lia)). unfold ahma_at in Hf. replace (i <? p) with false in Hf by lia. rewrite Hm in Hf by lia. unfold v. rewrite Hf at 1. unfold k. field. lra. }
  assert (Hd : forall C n, N <= n + p -> (forall j, n <= j -> (Rabs (v j) <= C)%R) -> forall j, n + p <= j -> (Rabs (v j - v (j - 1)%Z) <= 2 * k * C)%R).
  { intros C n Hn HC j Hj. rewrite (Hv j) by lia. replace ((1 - k) * v (j - 1)%Z - k * v (j - p)%Z - v (j - 1)%Z)%R with (- k * (v (j - 1)%Z + v (j - p)%Z))%R by ring.
    rewrite Rabs_mult, Rabs_Ropp, (Rabs_pos_eq k) by lra. pose proof (HC (j - 1) ltac:(lia)). pose proof (HC (j - p) ltac:(lia)). pose proof (Rabs_triang (v (j - 1)%Z) (v (j - p)%Z)). nra. }
  destruct (bounded_before v (N - p) N) as (B & HB & HB2).
  assert (H0 : forall i, N - p <= i -> (Rabs (v i) <= B)%R).
  { intros i Hi. destruct (Z.lt_ge_cases i N) as [L|L]; [apply HB2; lia|].
    assert (G : forall j, N - p <= j <= i -> (Rabs (v j) <= B)%R); [|apply G; lia].
    apply (zind (fun i => forall j, N - p <= j <= i -> (Rabs (v j) <= B)%R) (N - 1) i); [lia|intros; apply HB2; lia|].
    intros q Hq IH j Hj. destruct (Z.eq_dec j (q + 1)) as [->|]; [|apply IH; lia]. rewrite Hv by lia. pose proof (IH (q + 1 - 1) ltac:(lia)). pose proof (IH (q + 1 - p) ltac:(lia)).
    unfold Rminus at 1. eapply Rle_trans; [apply Rabs_triang|]. rewrite Rabs_Ropp, !Rabs_mult, (Rabs_pos_eq k), (Rabs_pos_eq (1 - k)) by lra. nra. }
  apply (shrinking v (1 - k * (1 + / IZR p))%R (2 * p) (N - p) B); [|lia|exact HB|exact H0|].
  - assert (0 < / IZR p <= 1)%R. { split; [apply Rinv_0_lt_compat; lra|]. rewrite <- Rinv_1. apply Rinv_le_contravar; lra. } split; nra.
  - intros n C Hn HC j Hj. assert (C0 : (0 <= C)%R) by (eapply Rle_trans; [apply Rabs_pos|apply (HC n); lia]).
    pose proof (walk v (2 * k * C) (j - p) (p - 1) ltac:(lia) ltac:(intros l Hl; apply (Hd C n); [lia|exact HC|lia])) as W.
    replace (j - p + (p - 1)) with (j - 1) in W by lia. rewrite (Hv j) by lia.
    replace ((1 - k) * v (j - 1)%Z - k * v (j - p)%Z)%R with ((1 - 2 * k) * v (j - 1)%Z + k * (v (j - 1)%Z - v (j - p)%Z))%R by ring.
    eapply Rle_trans; [apply Rabs_triang|]. rewrite !Rabs_mult, (Rabs_pos_eq k), (Rabs_pos_eq (1 - 2 * k)) by lra. pose proof (HC (j - 1) ltac:(lia)) as H1. rewrite minus_IZR in W.
    assert (W2 : (k * Rabs (v (j - 1)%Z - v (j - p)%Z) <= k * ((IZR p - 1) * (2 * k * C)))%R) by (apply Rmult_le_compat_l; lra).
    assert (H2 : ((1 - 2 * k) * Rabs (v (j - 1)%Z) <= (1 - 2 * k) * C)%R) by (apply Rmult_le_compat_l; lra).
    replace (1 - k * (1 + / IZR p))%R with (1 - k - 2 * k * k)%R. 2: { unfold k. field. lra. }
    replace (k * ((IZR p - 1) * (2 * k * C)))%R with (2 * k * (k * IZR p) * C - 2 * k * k * C)%R in W2 by ring. rewrite Kp in W2. nra.
Qed.

(** ** ehma *)
Lemma ema_tends q x c : (0 < q)%R -> tends x c -> tends (ema_run q x) c.
Proof.
  intros Hq Hx. apply tends_minus. set (a := (2 / (q + 1))%R).
  assert (Ha : (0 < a < 2)%R). { unfold a. split; [apply Rdiv_lt_0_compat; lra|]. apply Rmult_lt_reg_r with (q + 1)%R; [lra|]. unfold Rdiv. rewrite Rmult_assoc, Rinv_l by lra. lra. }
  apply (driven1 _ (fun i => a * (x i - c))%R (1 - a) 1).
  - apply Rabs_def1; lra.
  - intros i Hi. rewrite (ema_run_step q x i) by lia. fold a. ring.
  - replace 0%R with (a * 0)%R by ring. apply tends_scal. exact (proj1 (tends_minus x c) Hx).
Qed.
Lemma ehma_tends p x c : 1 <= p -> tends x c -> tends (ehma_at p x) c.
Proof.
  intros Hp Hx. assert (HP : (1 <= IZR p)%R) by (apply IZR_le; lia). apply ema_tends; [apply sqrt_lt_R0; lra|].
  replace c with (2 * c + -1 * c)%R by ring.
  apply (tends_ext (fun j => 2 * ema_run (IZR p / 2) x j + -1 * ema_run (IZR p) x j)%R _ _ 0); [intros; ring|]. apply tends_plus; apply tends_scal; apply ema_tends; lra || assumption.
Qed.

(** ** edcf *)
Lemma edcf_weight_nonneg p x i k : (0 <= edcf_weight p x i k)%R.
Proof. unfold edcf_weight. apply zsum_nonneg. intros. apply Rle_0_sqr. Qed.
Lemma edcf_range p x i lo hi : zsum 0 p (edcf_weight p x i) <> 0%R -> (forall k, 0 <= k < p -> (lo <= x (i - k)%Z <= hi)%R) -> (lo <= edcf_at p x i <= hi)%R.
Proof.
  intros Ht Hx. unfold edcf_at. cbv zeta. destruct (Reqb_spec (zsum 0 p (edcf_weight p x i)) 0) as [E|_]; [contradiction|].
  assert (P : (0 < zsum 0 p (edcf_weight p x i))%R). { pose proof (zsum_nonneg 0 p (edcf_weight p x i) ltac:(intros; apply edcf_weight_nonneg)). lra. }
  set (t := zsum 0 p (edcf_weight p x i)) in *.
  assert (L : (lo * t <= zsum 0 p (fun k => edcf_weight p x i k * x (i - k)%Z))%R).
  { unfold t. rewrite <- zsum_scal. apply zsum_le. intros k Hk. pose proof (edcf_weight_nonneg p x i k). specialize (Hx k Hk). nra. }
  assert (U : (zsum 0 p (fun k => edcf_weight p x i k * x (i - k)%Z) <= hi * t)%R).
  { unfold t. rewrite <- zsum_scal. apply zsum_le. intros k Hk. pose proof (edcf_weight_nonneg p x i k). specialize (Hx k Hk). nra. }
  split; apply Rmult_le_reg_r with t; try exact P; unfold Rdiv; rewrite ?Rmult_assoc, Rinv_l by lra; lra.
Qed.
Lemma edcf_flat p x i c : (forall j, i - 2 * p < j <= i -> x j = c) -> edcf_at p x i = 0%R.
Proof.
  intros Hx. unfold edcf_at. cbv zeta. rewrite (zsum_ext 0 p _ (fun _ => 0 * 0)%R).
  - rewrite zsum_scal, Rmult_0_l. destruct (Reqb_spec 0 0); [reflexivity|contradiction].
  - intros k Hk. unfold edcf_weight. rewrite (zsum_ext 1 p _ (fun _ => 0 * 0)%R); [rewrite zsum_scal; ring|]. intros l Hl. rewrite !Hx by lia. ring.
Qed.
Lemma edcf_one x i : edcf_at 1 x i = 0%R.
Proof.
  unfold edcf_at. cbv zeta. rewrite (zsum_ext 0 1 _ (fun _ => 0 * 0)%R).
  - rewrite zsum_scal, Rmult_0_l. destruct (Reqb_spec 0 0); [reflexivity|contradiction].
  - intros k Hk. unfold edcf_weight. rewrite zsum_nil by lia. ring.
Qed.

(** ** rvi *)
Lemma side_nonneg side e p x i : 1 <= e -> 1 <= p -> (0 <= side_avg side e p x i)%R.
Proof.
  intros He Hp. assert (HE : (1 <= IZR e)%R) by (apply IZR_le; lia). assert (HP : (1 <= IZR p)%R) by (apply IZR_le; lia).
  destruct (Z.lt_ge_cases i (p - 1)) as [L|L]; [rewrite side_warm by lia; lra|].
  apply (zind (fun i => (0 <= side_avg side e p x i)%R) (p - 2) i); [lia|rewrite side_warm by lia; lra|].
  intros m Hm IH. rewrite side_S by lia. cbv zeta. rewrite Z.add_simpl_r. destruct (eqb _ side); [|exact IH].
  set (v := side_avg side e p x m) in *. set (w := (above_line p x (m + 1) * above_line p x (m + 1) / IZR p)%R).
  assert (0 <= w)%R. { unfold w. apply Rmult_le_pos; [apply Rle_0_sqr|]. left. apply Rinv_0_lt_compat. lra. }
  assert (0 < 2 / (IZR e + 1) <= 1)%R. { split; [apply Rdiv_lt_0_compat; lra|]. apply Rmult_le_reg_r with (IZR e + 1)%R; [lra|]. unfold Rdiv. rewrite Rmult_assoc, Rinv_l by lra. lra. }
  set (a := (2 / (IZR e + 1))%R) in *. nra.
Qed.
Lemma rvi_range e p x i : 1 <= e -> 1 <= p -> (0 <= rvi_at e p x i <= 100)%R.
Proof.
  intros He Hp. unfold rvi_at. cbv zeta. pose proof (side_nonneg true e p x i He Hp). pose proof (side_nonneg false e p x i He Hp).
  set (g := side_avg true e p x i) in *. set (l := side_avg false e p x i) in *. destruct (Reqb_spec g 0) as [E|E]; [lra|].
  assert (0 < g + l)%R by lra. assert (0 <= g / (g + l) <= 1)%R; [|lra]. split.
  - apply Rmult_le_pos; [lra|]. left. apply Rinv_0_lt_compat. lra.
  - apply Rmult_le_reg_r with (g + l)%R; [lra|]. unfold Rdiv. rewrite Rmult_assoc, Rinv_l by lra. lra.
Qed.

(** ** frama *)
Lemma frama_alpha_range p avg h l i : (1 / 100 <= frama_alpha p avg h l i <= 1)%R.
Proof. unfold frama_alpha. split; [apply Rmin_glb; [lra|apply Rmax_l]|apply Rmin_l]. Qed.
Lemma frama_range p avg h l f lo hi i : (forall j, 0 <= j <= i -> frama_at p avg h l f j) -> (forall j, 0 <= j <= i -> (lo <= (h j + l j) / 2 <= hi)%R) ->
  1 <= p -> 0 <= i -> (lo <= f i <= hi)%R.
Proof.
  intros Hf Hx Hp Hi. revert Hf Hx. apply (zind (fun i => (forall j, 0 <= j <= i -> frama_at p avg h l f j) -> (forall j, 0 <= j <= i -> (lo <= (h j + l j) / 2 <= hi)%R) -> (lo <= f i <= hi)%R) 0 i); [lia| |].
  - intros Hf Hx. specialize (Hf 0 ltac:(lia)). unfold frama_at in Hf. replace (0 <? p) with true in Hf by lia. rewrite Hf. apply Hx. lia.
  - intros m Hm IH Hf Hx. specialize (IH ltac:(intros; apply Hf; lia) ltac:(intros; apply Hx; lia)). specialize (Hf (m + 1) ltac:(lia)). specialize (Hx (m + 1) ltac:(lia)).
    unfold frama_at in Hf. cbv zeta in Hf. rewrite Z.add_simpl_r in Hf. rewrite Hf. destruct (m + 1 <? p); [exact Hx|]. apply mix; [|exact Hx|exact IH].
    pose proof (frama_alpha_range p avg h l (m + 1)). lra.
Qed.
Lemma frama_tends p avg h l f c : (forall i, 0 <= i -> frama_at p avg h l f i) -> tends (fun i => (h i + l i) / 2)%R c -> tends f c.
Proof.
  intros Hf. apply (step_tends (frama_alpha p avg h l) (fun i => (h i + l i) / 2)%R f c (1 / 100)%R (Z.max 0 p)); [lra|intros; apply frama_alpha_range|].
  intros i Hi. specialize (Hf i ltac:(lia)). unfold frama_at in Hf. cbv zeta in Hf. replace (i <? p) with false in Hf by lia. exact Hf.
Qed.

(** ** hd *)
Lemma within_6 raw last : (6 <= within raw last <= 50)%R.
Proof. unfold within. split; [apply Rmin_glb; [apply Rmax_r|lra]|apply Rmin_r]. Qed.
Lemma cycle_range circle first x c : (forall i, cycle_at circle first x c i) -> forall i, first <= i -> (12 / 10 <= c_period c i <= 50 /\ 396 / 1000 <= c_avg c i <= 50)%R.
Proof.
  intros Hc i Hi. pose proof (cycle_in50 _ _ _ _ Hc i) as [[_ U1] [_ U2]]. pose proof (cycle_in50 _ _ _ _ Hc (i - 1)) as [[L1 _] [L2 _]].
  specialize (Hc i). unfold cycle_at in Hc. replace (i <? first) with false in Hc by lia. destruct Hc as (_ & _ & _ & _ & _ & _ & _ & _ & E1 & E2).
  pose proof (within_6 (if Reqb (c_Im c i) 0 || Reqb (c_Re c i) 0 then c_period c (i - 2)%Z else (circle / atan (c_Im c i / c_Re c i))%R) (c_period c (i - 1)%Z)). lra.
Qed.

(** ** mama *)
Lemma atan_range t : (- (PI / 2) < atan t < PI / 2)%R.
Proof. pose proof (atan_bound t). lra. Qed.
Lemma atan_sign t : (0 < t -> 0 < atan t)%R.
Proof. intros H. rewrite <- atan_0. apply atan_increasing. exact H. Qed.
Lemma atan_neg t : (t < 0 -> atan t < 0)%R.
Proof. intros H. rewrite <- atan_0. apply atan_increasing. exact H. Qed.
(** A full turn of 360 over an angle in radians is far outside the limits, so only its sign counts. *)
Lemma mama_within raw last s : (0 <= last <= 50)%R -> raw = (360 / atan s)%R -> s <> 0%R ->
  within raw last = if Rltb 0 s then Rmin 50 (Rmax 6 (15 / 10 * last)) else Rmax 6 (67 / 100 * last).
Proof.
  intros Hl -> Hs. pose proof PI_4 as P4. pose proof (atan_range s) as Ha. unfold within. destruct (Rltb_spec 0 s) as [L|L].
  - pose proof (atan_sign s L). assert (100 <= 360 / atan s)%R. { apply Rmult_le_reg_r with (atan s); [lra|]. unfold Rdiv. rewrite Rmult_assoc, Rinv_l by lra. lra. }
    rewrite (Rmin_right (360 / atan s)) by lra. rewrite (Rmax_left (15 / 10 * last)) by lra. rewrite Rmin_comm, (Rmax_comm 6). reflexivity.
  - pose proof (atan_neg s ltac:(lra)). assert (360 / atan s < 0)%R. { replace (360 / atan s)%R with (- (360 / - atan s))%R by (field; lra). assert (0 < 360 / - atan s)%R by (apply Rdiv_lt_0_compat; lra). lra. }
    rewrite (Rmin_left (360 / atan s)) by lra. rewrite (Rmax_right (360 / atan s)) by lra. rewrite (Rmax_comm 6). apply Rmin_left. apply Rmax_lub; lra.
Qed.
Lemma mama_period c x i : (forall i, cycle_at 360 6 x c i) -> 6 <= i -> c_Im c i <> 0%R -> c_Re c i <> 0%R ->
  let last := c_period c (i - 1)%Z in
  c_period c i = (2 / 10 * (if Rltb 0 (c_Im c i / c_Re c i) then Rmin 50 (Rmax 6 (15 / 10 * last)) else Rmax 6 (67 / 100 * last)) + 8 / 10 * last)%R.
Proof.
  intros Hc Hi HI HR last. pose proof (cycle_in50 _ _ _ _ Hc (i - 1)) as [[L1 L2] _]. specialize (Hc i). unfold cycle_at in Hc. replace (i <? 6) with false in Hc by lia.
  destruct Hc as (_ & _ & _ & _ & _ & _ & _ & _ & E1 & _). rewrite E1. fold last. destruct (Reqb_spec (c_Im c i) 0); [contradiction|]. destruct (Reqb_spec (c_Re c i) 0); [contradiction|]. cbn [orb].
  rewrite (mama_within _ last (c_Im c i / c_Re c i)%R); [reflexivity|unfold last; lra|reflexivity|]. unfold Rdiv. apply Rmult_integral_contrapositive_currified; [assumption|]. apply Rinv_neq_0_compat. assumption.
Qed.
Lemma mama_turn fast slow x c phase m f i : (forall i, mama_at fast slow x c phase m f i) -> (Rmax 1 (phase (i - 1)%Z - phase i) <= PI)%R.
Proof.
  intros H. assert (G : forall j, (- (PI / 2) < phase j < PI / 2)%R).
  { intros j. specialize (H j). unfold mama_at in H. pose proof PI_RGT_0. destruct (j <? 6); [destruct H as (-> & _); lra|]. destruct H as (-> & _).
    destruct (Reqb _ 0); [lra|apply atan_range]. }
  pose proof (G i). pose proof (G (i - 1)). pose proof PI2_1. apply Rmax_lub; lra.
Qed.
Lemma mama_alpha_range fast slow x c phase m f i : (forall i, mama_at fast slow x c phase m f i) -> (0 <= fast <= 1)%R -> (slow <= 1)%R -> (fast / PI <= mama_alpha fast slow phase i <= 1)%R.
Proof.
  intros H Hf Hs. pose proof (mama_turn _ _ _ _ _ _ _ i H) as T. pose proof PI_RGT_0. unfold mama_alpha. set (t := Rmax 1 (phase (i - 1)%Z - phase i)) in *.
  assert (1 <= t)%R by apply Rmax_l. split.
  - eapply Rle_trans; [|apply Rmax_r]. unfold Rdiv. apply Rmult_le_compat_l; [lra|]. apply Rinv_le_contravar; lra.
  - apply Rmax_lub; [exact Hs|]. apply Rmult_le_reg_r with t; [lra|]. unfold Rdiv. rewrite Rmult_assoc, Rinv_l by lra. lra.
Qed.
Lemma mama_slow_any fast slow slow' x c phase m f : (forall i, mama_at fast slow x c phase m f i) -> (0 <= fast)%R -> (slow <= fast / PI)%R -> (slow' <= fast / PI)%R ->
  forall i, mama_at fast slow' x c phase m f i.
Proof.
  intros H Hf Hs Hs' i. pose proof (mama_turn _ _ _ _ _ _ _ i H) as T. specialize (H i). unfold mama_at in *. destruct (i <? 6); [exact H|]. cbv zeta in *.
  assert (E : mama_alpha fast slow' phase i = mama_alpha fast slow phase i); [|rewrite E; exact H].
  assert (G : (fast / PI <= fast / Rmax 1 (phase (i - 1)%Z - phase i))%R).
  { unfold Rdiv. apply Rmult_le_compat_l; [lra|]. apply Rinv_le_contravar; [|exact T]. eapply Rlt_le_trans; [|apply Rmax_l]. lra. }
  unfold mama_alpha. rewrite (Rmax_right slow), (Rmax_right slow') by lra. reflexivity.
Qed.
Lemma mama_range fast slow x c phase m f lo hi : (forall i, mama_at fast slow x c phase m f i) -> (0 <= fast <= 1)%R -> (slow <= 1)%R -> (lo <= 0 <= hi)%R ->
  forall i, (forall j, 6 <= j <= i -> (lo <= x j <= hi)%R) -> (lo <= m i <= hi /\ lo <= f i <= hi)%R.
Proof.
  intros H Hf Hs H0 i. destruct (Z.lt_ge_cases i 6) as [L|L].
  - specialize (H i). unfold mama_at in H. replace (i <? 6) with true in H by lia. destruct H as (_ & -> & ->). intros _. split; exact H0.
  - apply (zind (fun i => (forall j, 6 <= j <= i -> (lo <= x j <= hi)%R) -> (lo <= m i <= hi /\ lo <= f i <= hi)%R) 5 i); [lia| |].
    + intros _. specialize (H 5). unfold mama_at in H. cbn in H. destruct H as (_ & -> & ->). split; exact H0.
    + intros k Hk IH Hx. destruct (IH ltac:(intros; apply Hx; lia)) as [I1 I2]. pose proof (mama_alpha_range _ _ _ _ _ _ _ (k + 1) H Hf Hs) as A. specialize (H (k + 1)).
      assert (0 <= fast / PI)%R by (apply Rmult_le_pos; [lra|]; left; apply Rinv_0_lt_compat, PI_RGT_0).
      unfold mama_at in H. replace (k + 1 <? 6) with false in H by lia. cbv zeta in H. rewrite Z.add_simpl_r in H. destruct H as (_ & E1 & E2).
      assert (J : (lo <= m (k + 1)%Z <= hi)%R) by (rewrite E1; apply mix; [lra|apply Hx; lia|exact I1]). split; [exact J|]. rewrite E2. apply mix; [lra|exact J|exact I2].
Qed.
Lemma mama_tends fast slow x c phase m f v : (forall i, mama_at fast slow x c phase m f i) -> (0 < fast <= 1)%R -> (slow <= 1)%R -> tends x v -> tends m v /\ tends f v.
Proof.
  intros H Hf Hs Hx. pose proof PI2_1 as P. assert (0 < fast / PI)%R as K by (apply Rdiv_lt_0_compat; lra).
  pose proof (fun i => mama_alpha_range _ _ _ _ _ _ _ i H ltac:(lra) Hs) as A. pose proof (A 0) as A0.
  assert (T : tends m v).
  { apply (step_tends (mama_alpha fast slow phase) x m v (fast / PI)%R 6); [lra|intros; apply A| |exact Hx]. intros i Hi. specialize (H i). unfold mama_at in H. replace (i <? 6) with false in H by lia. apply H. }
  split; [exact T|]. apply (step_tends (fun i => mama_alpha fast slow phase i / 2)%R m f v (fast / PI / 2)%R 6); [lra|intros i Hi; specialize (A i); lra| |exact T].
  intros i Hi. specialize (H i). unfold mama_at in H. replace (i <? 6) with false in H by lia. apply H.
Qed.
Lemma mama_first fast slow x c phase m f : (forall i, cycle_at 360 6 x c i) -> (forall i, mama_at fast slow x c phase m f i) ->
  let a := Rmax slow fast in m 6 = (a * x 6%Z)%R /\ f 6 = (a * a / 2 * x 6%Z)%R.
Proof.
  intros Hc H a. pose proof (Hc 6) as C6. pose proof (Hc 3) as C3. unfold cycle_at in C6, C3. change (6 <? 6) with false in C6. change (3 <? 6) with true in C3.
  destruct C3 as (_ & D3 & _). destruct C6 as (_ & _ & _ & I6 & _). change (6 - 3) with 3 in I6. rewrite D3 in I6.
  pose proof (H 5) as H5. unfold mama_at in H5. change (5 <? 6) with true in H5. destruct H5 as (P5 & M5 & F5).
  specialize (H 6). unfold mama_at in H. change (6 <? 6) with false in H. cbv zeta in H. unfold mama_alpha in H. change (6 - 1) with 5 in H. rewrite P5, M5, F5, I6 in H.
  destruct (Reqb_spec 0 0) as [_|N]; [|contradiction]. destruct H as (P6 & E1 & E2). rewrite P6 in E1, E2.
  replace (fast / Rmax 1 (0 - 0))%R with fast in E1, E2 by (rewrite Rmax_left by lra; field). fold a in E1, E2. rewrite E1. split; [ring|]. rewrite E2, E1. field.
Qed.

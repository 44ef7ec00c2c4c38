(** The fourth-order Gaussian filter with a period of 32 or more has no bound on its output. *)
From Verif Require Export Settle.
From Coq Require Import Reals List ZArith Lia Lra.
Import ListNotations.
Open Scope Z_scope.

(** A single price of 1 at bar 3, otherwise 0. *)
Definition blip (i : Z) : R := if i =? 3 then 1%R else 0%R.

Lemma rate_ge n : (102 / 100 <= rate n)%R.
Proof. unfold rate. destruct (n =? 32); lra. Qed.
Lemma form_start n : wide n -> (270 <= form n 0 1 0 0)%R.
Proof. intros [->|[->|[->|[->| ->]]]]; cbn [form]; unfold quad; lra. Qed.
Lemma form_bound n a b c d M : wide n -> (Rabs a <= M)%R -> (Rabs b <= M)%R -> (Rabs c <= M)%R -> (Rabs d <= M)%R -> (form n a b c d <= 46000 * (M * M))%R.
Proof.
  intros Hn Ha Hb Hc Hd. assert (P : forall u v, (Rabs u <= M)%R -> (Rabs v <= M)%R -> (- (M * M) <= u * v <= M * M)%R).
  { intros u v Hu Hv. assert (Rabs (u * v) <= M * M)%R by (rewrite Rabs_mult; apply Rmult_le_compat; try apply Rabs_pos; assumption).
    pose proof (Rle_abs (u * v)). pose proof (Rle_abs (- (u * v))) as X. rewrite Rabs_Ropp in X. lra. }
  pose proof (P a a Ha Ha). pose proof (P b b Hb Hb). pose proof (P c c Hc Hc). pose proof (P d d Hd Hd). pose proof (P a b Ha Hb). pose proof (P a c Ha Hc).
  pose proof (P a d Ha Hd). pose proof (P b c Hb Hc). pose proof (P b d Hb Hd). pose proof (P c d Hc Hd). assert (0 <= M * M)%R by nra.
  destruct Hn as [->|[->|[->|[->| ->]]]]; cbn [form]; unfold quad; lra.
Qed.

Lemma gf4_form n f size : wide n -> (forall i, 0 <= i < size -> gf4_at n blip f i) ->
  forall k, 4 + Z.of_nat k < size -> let i := 4 + Z.of_nat k in ((102 / 100) ^ k * 270 <= form n (f i) (f (i - 1)%Z) (f (i - 2)%Z) (f (i - 3)%Z))%R.
Proof.
  intros Hn Hf. assert (H : forall i, 0 <= i < 5 -> i < size -> f i = blip i). { intros i Hi Hs. rewrite (Hf i ltac:(lia)). replace (i <? 5) with true by lia. reflexivity. }
  induction k as [|k IH]; intros Hk; cbv zeta in *.
  - cbn [Z.of_nat Z.add pow]. rewrite !H by lia. cbn [blip Z.eqb Pos.eqb Z.sub Z.add Z.opp Z.pos_sub Pos.pred_double]. rewrite Rmult_1_l. apply form_start. exact Hn.
  - specialize (IH ltac:(lia)). set (i := 4 + Z.of_nat (S k)) in *. replace (4 + Z.of_nat k) with (i - 1) in IH by lia.
    pose proof (gf4_grows n (f (i - 1)) (f (i - 2)) (f (i - 3)) (f (i - 4)) Hn) as G. cbv zeta in G.
    replace (f i) with ((entry gf4_A1_tbl n * f (i - 1)%Z + entry gf4_A2_tbl n * f (i - 2)%Z + entry gf4_A3_tbl n * f (i - 3)%Z + entry gf4_A4_tbl n * f (i - 4)%Z)
             / (entry gf4_B0_tbl n + entry gf4_A1_tbl n + entry gf4_A2_tbl n + entry gf4_A3_tbl n + entry gf4_A4_tbl n))%R.
    + eapply Rle_trans; [|exact G]. replace (i - 1 - 1) with (i - 2) in IH by lia. replace (i - 1 - 2) with (i - 3) in IH by lia. replace (i - 1 - 3) with (i - 4) in IH by lia.
      cbn [pow]. rewrite Rmult_assoc. assert (0 < (102 / 100) ^ k)%R by (apply pow_lt; lra). pose proof (rate_ge n). apply Rmult_le_compat; lra.
    + symmetry. rewrite (Hf i ltac:(lia)). replace (i <? 5) with false by lia. unfold blip at 1. replace (i =? 3) with false by lia. rewrite Rmult_0_r, Rplus_0_l. reflexivity.
Qed.

(** Some output among the last four of bars .. 4 + k is at least as large as the form asks. *)
Lemma gf4_large n f size k M : wide n -> (forall i, 0 <= i < size -> gf4_at n blip f i) -> 4 + Z.of_nat k < size -> (46000 * (M * M) < (102 / 100) ^ k * 270)%R ->
  exists i, 0 <= i < size /\ (M < Rabs (f i))%R.
Proof.
  intros Hn Hf Hk HM. set (i := 4 + Z.of_nat k) in *. pose proof (gf4_form n f size Hn Hf k ltac:(lia)) as G. cbv zeta in G. fold i in G.
  destruct (Rle_dec (Rabs (f i)) M) as [H0|H0]; [|exists i; split; [lia|lra]].
  destruct (Rle_dec (Rabs (f (i - 1)%Z)) M) as [H1|H1]; [|exists (i - 1); split; [lia|lra]].
  destruct (Rle_dec (Rabs (f (i - 2)%Z)) M) as [H2|H2]; [|exists (i - 2); split; [lia|lra]].
  destruct (Rle_dec (Rabs (f (i - 3)%Z)) M) as [H3|H3]; [|exists (i - 3); split; [lia|lra]].
  pose proof (form_bound n _ _ _ _ M Hn H0 H1 H2 H3). lra.
Qed.
Lemma gf4_unbounded n f : wide n -> (forall i, 0 <= i -> gf4_at n blip f i) -> forall M, exists i, 0 <= i /\ (M < Rabs (f i))%R.
Proof.
  intros Hn Hf M. destruct (Pow_x_infinity (102 / 100) ltac:(rewrite Rabs_pos_eq; lra) (46000 * (M * M))) as [k Hk]. specialize (Hk k (le_n k)).
  rewrite Rabs_pos_eq in Hk by (apply pow_le; lra). assert (0 < (102 / 100) ^ k)%R by (apply pow_lt; lra).
  destruct (gf4_large n f (5 + Z.of_nat k) k M Hn) as (i & Hi & H1); [intros i Hi; apply Hf; lia|lia|lra|]. exists i. split; [lia|exact H1].
Qed.
(** Within 24000 bars the output passes 10^100. *)
Lemma gf4_huge n f : wide n -> (forall i, 0 <= i < 24000 -> gf4_at n blip f i) -> exists i, 0 <= i < 24000 /\ (10 ^ 100 < Rabs (f i))%R.
Proof.
  intros Hn Hf.
  assert (E : (10 <= (102 / 100) ^ 118)%R).
  { replace 118%nat with (2 * 59)%nat by reflexivity. rewrite pow_mult. replace ((102 / 100) ^ 2)%R with (10404 / 10000)%R by field.
    assert (315 / 100 <= (10404 / 10000) ^ 29)%R by (cbn [pow]; lra).
    assert ((10404 / 10000) ^ 59 = (10404 / 10000) ^ 29 * (10404 / 10000) ^ 29 * (10404 / 10000))%R as ->
      by (replace 59%nat with (29 + 29 + 1)%nat by reflexivity; rewrite !pow_add, pow_1; reflexivity).
    set (u := ((10404 / 10000) ^ 29)%R) in *. clearbody u. nra. }
  assert (E2 : (10 ^ 203 <= (102 / 100) ^ (118 * 203))%R) by (rewrite pow_mult; apply pow_incr; split; [clear E; lra|exact E]).
  assert (E3 : (10 ^ 203 = 10 ^ 100 * 10 ^ 100 * 10 ^ 3)%R) by (rewrite <- !pow_add; reflexivity).
  assert (P : (0 < 10 ^ 100)%R) by (apply pow_lt; clear; lra).
  apply (gf4_large n f 24000 (118 * 203) (10 ^ 100)%R Hn Hf); [vm_compute; reflexivity|].
  rewrite E3 in E2. clear E E3 Hf. set (u := ((102 / 100) ^ (118 * 203))%R) in *. clearbody u. set (w := (10 ^ 100)%R) in *. clearbody w.
  replace (10 ^ 3)%R with 1000%R in E2 by (cbn [pow]; ring). assert (0 < w * w)%R by (apply Rmult_lt_0_compat; exact P). lra.
Qed.

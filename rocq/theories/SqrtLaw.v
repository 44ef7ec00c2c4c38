(** (int)sqrt(n) is the integer square root of n, on the reals and on binary64. *)
From Verif Require Import C_osc F64Laws RArith.
From Coq Require Import Floats.SpecFloat ZifyBool Reals Lra.
From Flocq Require Import Core.Core IEEE754.BinarySingleNaN.
#[local] Open Scope Z_scope.
#[local] Existing Instance Hprec.
#[local] Existing Instance Hmax.

Lemma sqrt_bounds n : 0 <= n -> (IZR (Z.sqrt n) <= R_sqrt.sqrt (IZR n) < IZR (Z.sqrt n + 1))%R.
Proof.
  intros H. pose proof (Z.sqrt_spec n H) as [H1 H2]. pose proof (Z.sqrt_nonneg n) as H0. rewrite <- Z.add_1_r in H2.
  assert (0 <= IZR (Z.sqrt n))%R by (apply IZR_le; lia). assert (0 <= IZR (Z.sqrt n + 1))%R by (apply IZR_le; lia).
  split.
  - rewrite <- (sqrt_square (IZR (Z.sqrt n))) by assumption. apply sqrt_le_1_alt. rewrite <- mult_IZR. apply IZR_le. exact H1.
  - rewrite <- (sqrt_square (IZR (Z.sqrt n + 1))) by assumption. apply sqrt_lt_1_alt. rewrite <- mult_IZR.
    split; [apply IZR_le; lia|apply IZR_lt; exact H2].
Qed.
Lemma SqrtLaw_RA : SqrtLaw RA.
Proof.
  intros n Hn. cbn. unfold Rto_int, Rtrunc. pose proof (sqrt_bounds n ltac:(lia)) as [H1 H2].
  pose proof (sqrt_pos (IZR n)). destruct (Rle_dec 0 (R_sqrt.sqrt (IZR n))) as [_|N]; [|lra].
  assert (E : Int_part (R_sqrt.sqrt (IZR n)) = Z.sqrt n).
  { pose proof (Int_part_bounds (R_sqrt.sqrt (IZR n))) as [G1 G2]. rewrite plus_IZR in H2.
    assert (Z.sqrt n < Int_part (R_sqrt.sqrt (IZR n)) + 1) by (apply lt_IZR; rewrite plus_IZR; lra).
    assert (Int_part (R_sqrt.sqrt (IZR n)) < Z.sqrt n + 1) by (apply lt_IZR; rewrite plus_IZR; lra). lia. }
  rewrite E. pose proof (Z.sqrt_nonneg n). pose proof (Z.sqrt_le_lin n ltac:(lia)).
  replace ((INT_MIN <=? Z.sqrt n) && (Z.sqrt n <=? INT_MAX)) with true by (unfold INT_MIN, INT_MAX in *; lia). reflexivity.
Qed.

Lemma SFsqrt_B (x : b64) : SFsqrt prec64 emax64 (B2SF x) = B2SF (Bsqrt mode_NE x).
Proof.
  case x as [sx|sx| |sx mx ex Bx]; try (now (trivial || case sx)).
  simpl. case sx; [reflexivity|]. rewrite B2SF_SF2B. set (melz := SFsqrt_core_binary _ _ _ _). case melz. intros [mz ez] lz. simpl.
  apply bra_equiv.
Qed.
(** k + 1 - 2^-17 is a double. *)
Lemma format_below k : 0 <= k <= 65536 -> generic_format radix2 fexp64 (IZR (k + 1) - / IZR (2 ^ 17)).
Proof.
  intros H. change fexp64 with (FLT_exp (SpecFloat.emin prec64 emax64) prec64).
  apply generic_format_FLT. exists (Float radix2 ((k + 1) * 2 ^ 17 - 1) (-17)).
  - unfold F2R; cbn [Fnum Fexp]. rewrite minus_IZR, mult_IZR.
    change (bpow radix2 (-17)) with (/ IZR (2 ^ 17))%R. field. apply not_0_IZR. discriminate.
  - cbn [Fnum]. change (radix2 ^ prec64) with 9007199254740992. lia.
  - cbn. lia.
Qed.
Lemma sqrt_below n : 0 <= n <= INT_MAX -> (R_sqrt.sqrt (IZR n) <= IZR (Z.sqrt n + 1) - / IZR (2 ^ 17))%R.
Proof.
  intros H. pose proof (Z.sqrt_spec n ltac:(lia)) as [H1 H2]. pose proof (Z.sqrt_nonneg n) as H0. rewrite <- Z.add_1_r in H2.
  set (s := Z.sqrt n) in *. assert (s <= 46341) by (unfold INT_MAX in *; nia).
  assert (P : (1 <= IZR (s + 1) <= 46342)%R) by (split; apply IZR_le; lia).
  change (IZR (2 ^ 17)) with 131072%R.
  rewrite <- (sqrt_square (IZR (s + 1) - / 131072)) by lra. apply sqrt_le_1_alt.
  assert (IZR n <= IZR (s + 1) * IZR (s + 1) - 1)%R by (rewrite <- mult_IZR, <- minus_IZR; apply IZR_le; lia). nra.
Qed.
Lemma SqrtLaw_F64 lm pw : SqrtLaw (F64 lm pw).
Proof.
  intros n Hn. cbn [F64 T of_Z fsqrt to_int].
  destruct (ofZB_spec n) as (V & F & S); [unfold INT_MAX, BIG in *; lia|].
  rewrite f64_of_Z_B, SFsqrt_B. apply f64_to_int_val.
  pose proof (Bsqrt_correct prec64 emax64 Hprec Hmax mode_NE (ofZB n)) as (C1 & C2 & _).
  pose proof (Z.sqrt_nonneg n) as P0. pose proof (Z.sqrt_le_lin n ltac:(lia)) as P1.
  assert (P2 : Z.sqrt n <= 65536).
  { pose proof (Z.sqrt_spec n ltac:(lia)). unfold INT_MAX in *. nia. }
  split; [|split].
  - rewrite C2. destruct (ofZB n) as [s|s| |s m e B]; try discriminate; [reflexivity|].
    cbn in S. destruct s; [|reflexivity]. lia.
  - rewrite C1, V. pose proof (sqrt_bounds n ltac:(lia)) as [G1 G2].
    assert (R1 : (IZR (Z.sqrt n) <= round radix2 fexp64 (round_mode mode_NE) (R_sqrt.sqrt (IZR n)))%R).
    { apply round_ge_generic; [exact _|exact _| |exact G1]. apply format_Z. unfold BIG. lia. }
    assert (R2 : (round radix2 fexp64 (round_mode mode_NE) (R_sqrt.sqrt (IZR n)) <= IZR (Z.sqrt n + 1) - / IZR (2 ^ 17))%R).
    { apply round_le_generic; [exact _|exact _|apply format_below; lia|apply sqrt_below; exact Hn]. }
    symmetry. rewrite Ztrunc_floor.
    + apply Zfloor_imp. split; [exact R1|]. assert (0 < / IZR (2 ^ 17))%R by (apply Rinv_0_lt_compat, IZR_lt; reflexivity). lra.
    + apply Rle_trans with (2 := R1). apply IZR_le. exact P0.
  - unfold INT_MIN, INT_MAX. lia.
Qed.

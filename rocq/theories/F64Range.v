(** Bounds on binary64 results, rounding, overflow, infinities and NaN included.
    A double other than NaN has the value [ev] (an infinity counts as 2^1024); on finite
    operands an operation returns the exact result rounded by [rd64], which is monotone. *)
From Verif Require Import F64Laws.
From Coq Require Import Floats.SpecFloat ZifyBool Reals Lra.
From Flocq Require Import Core.Core IEEE754.BinarySingleNaN.
#[local] Open Scope Z_scope.
#[local] Existing Instance Hprec.
#[local] Existing Instance Hmax.

(** The bit patterns of a C double ([spec_float] has further elements). *)
Definition is_double (x : spec_float) : Prop := valid_binary prec64 emax64 x = true.
Definition fin (x : spec_float) : Prop := is_double x /\ match x with S754_zero _ | S754_finite _ _ _ => True | _ => False end.
Definition num (x : spec_float) : Prop := is_double x /\ x <> S754_nan.
(** A double that is NaN or between the integers [lo] and [hi], compared as C compares. *)
Definition in64 (lo hi : Z) (x : spec_float) : Prop :=
  is_double x /\ (x = S754_nan \/ SFleb (f64_of_Z lo) x = true /\ SFleb x (f64_of_Z hi) = true).

Definition Bnd : R := bpow radix2 emax64.
Definition ev (x : spec_float) : R :=
  match x with S754_infinity false => Bnd | S754_infinity true => (- Bnd)%R | _ => SF2R radix2 x end.
Definition rnd (r : R) : R := round radix2 fexp64 ZnearestE r.
Definition rd64 (r : R) : R := Rmax (- Bnd) (Rmin Bnd (rnd r)).

Lemma Bnd_pos : (0 < Bnd)%R. Proof. apply bpow_gt_0. Qed.
Lemma big_Bnd : (IZR BIG < Bnd)%R.
Proof. change (IZR BIG) with (bpow radix2 52). apply bpow_lt. reflexivity. Qed.

Lemma double_B x : is_double x -> exists b : b64, x = B2SF b.
Proof. intros H. exists (SF2B x H). symmetry. apply B2SF_SF2B. Qed.
Lemma B_double (b : b64) : is_double (B2SF b).
Proof. destruct b; try reflexivity. cbn. assumption. Qed.
Lemma fin_B x : fin x -> exists b : b64, x = B2SF b /\ is_finite b = true /\ B2R b = ev x.
Proof.
  intros [D F]. destruct (double_B x D) as [b E]. exists b. split; [exact E|]. subst x.
  destruct b; cbn [is_finite B2SF] in *; try contradiction; (split; reflexivity).
Qed.
Lemma B_fin (b : b64) : is_finite b = true -> fin (B2SF b) /\ ev (B2SF b) = B2R b.
Proof. intros H. destruct b; try discriminate; (split; [split; [apply B_double|exact I]|reflexivity]). Qed.
Lemma fin_num x : fin x -> num x.
Proof. intros [D F]. split; [exact D|]. intros ->. exact F. Qed.
Lemma num_cases x : num x -> fin x \/ x = S754_infinity false \/ x = S754_infinity true.
Proof. intros [D N]. destruct x as [s|[|]| |s m e]; auto; [left; split; auto; exact I|congruence|left; split; auto; exact I]. Qed.

Lemma fin_lt x : fin x -> (- Bnd < ev x < Bnd)%R.
Proof.
  intros H. destruct (fin_B x H) as (b & -> & Hf & <-).
  pose proof (abs_B2R_lt_emax _ _ b) as L. apply Rabs_lt_inv in L. exact L.
Qed.
Lemma num_le x : num x -> (- Bnd <= ev x <= Bnd)%R.
Proof.
  intros H. pose proof Bnd_pos. destruct (num_cases x H) as [F|[->| ->]]; [pose proof (fin_lt x F); lra|cbn [ev]; lra..].
Qed.
Lemma lt_fin x : num x -> (- Bnd < ev x < Bnd)%R -> fin x.
Proof. intros H L. destruct (num_cases x H) as [F|[->| ->]]; [exact F|cbn [ev] in L; lra..]. Qed.

Lemma cmp_ev x y : num x -> num y -> SFcompare x y = Some (Rcompare (ev x) (ev y)).
Proof.
  intros Hx Hy. destruct (num_cases x Hx) as [Fx|Ix], (num_cases y Hy) as [Fy|Iy].
  - destruct (fin_B x Fx) as (a & -> & Fa & <-), (fin_B y Fy) as (b & -> & Fb & <-).
    exact (Bcompare_correct _ _ a b Fa Fb).
  - pose proof (fin_lt x Fx). destruct Iy as [-> | ->]; cbn [ev].
    + rewrite Rcompare_Lt by lra. destruct x as [s|[|]| |[|] m e], Fx as [_ Fx]; try contradiction; reflexivity.
    + rewrite Rcompare_Gt by lra. destruct x as [s|[|]| |[|] m e], Fx as [_ Fx]; try contradiction; reflexivity.
  - pose proof (fin_lt y Fy). destruct Ix as [-> | ->]; cbn [ev].
    + rewrite Rcompare_Gt by lra. destruct y as [s|[|]| |[|] m e], Fy as [_ Fy]; try contradiction; reflexivity.
    + rewrite Rcompare_Lt by lra. destruct y as [s|[|]| |[|] m e], Fy as [_ Fy]; try contradiction; reflexivity.
  - pose proof Bnd_pos. destruct Ix as [-> | ->], Iy as [-> | ->]; cbn [ev SFcompare];
      [rewrite Rcompare_Eq by lra|rewrite Rcompare_Gt by lra|rewrite Rcompare_Lt by lra|rewrite Rcompare_Eq by lra]; reflexivity.
Qed.
Lemma le_ev x y : num x -> num y -> SFleb x y = true <-> (ev x <= ev y)%R.
Proof. intros Hx Hy. unfold SFleb. rewrite cmp_ev by assumption. destruct (Rcompare_spec (ev x) (ev y)); split; intros; try lra; congruence. Qed.
Lemma lt_ev x y : num x -> num y -> SFltb x y = true <-> (ev x < ev y)%R.
Proof. intros Hx Hy. unfold SFltb. rewrite cmp_ev by assumption. destruct (Rcompare_spec (ev x) (ev y)); split; intros; try lra; congruence. Qed.
Lemma eq_ev x y : num x -> num y -> SFeqb x y = true <-> (ev x = ev y)%R.
Proof. intros Hx Hy. unfold SFeqb. rewrite cmp_ev by assumption. destruct (Rcompare_spec (ev x) (ev y)); split; intros; try lra; congruence. Qed.

(** Rounding. *)
Lemma rnd_mono a b : (a <= b)%R -> (rnd a <= rnd b)%R.
Proof. intros H. apply round_le; [exact _|exact _|exact H]. Qed.
Lemma rd64_mono a b : (a <= b)%R -> (rd64 a <= rd64 b)%R.
Proof. intros H. apply rnd_mono in H. unfold rd64, Rmax, Rmin. repeat destruct Rle_dec; lra. Qed.
Lemma fin_format x : fin x -> generic_format radix2 fexp64 (ev x).
Proof. intros H. destruct (fin_B x H) as (b & -> & _ & <-). apply generic_format_B2R. Qed.
Lemma rnd_fin x : fin x -> rnd (ev x) = ev x.
Proof. intros H. apply round_generic; [exact _|]. apply fin_format; exact H. Qed.
Lemma clamp_id r : (- Bnd <= r <= Bnd)%R -> Rmax (- Bnd) (Rmin Bnd r) = r.
Proof. intros H. unfold Rmax, Rmin. repeat destruct Rle_dec; lra. Qed.
Lemma rd64_fin x : fin x -> rd64 (ev x) = ev x.
Proof. intros H. unfold rd64. rewrite rnd_fin by exact H. apply clamp_id. apply num_le, fin_num, H. Qed.
Lemma rnd_Bnd : rnd Bnd = Bnd.
Proof. apply round_generic; [exact _|]. apply generic_format_bpow. cbv. discriminate. Qed.
Lemma rnd_opp a : rnd (- a) = (- rnd a)%R.
Proof. apply round_NE_opp. Qed.
Lemma rd64_num x : num x -> rd64 (ev x) = ev x.
Proof.
  intros H. pose proof Bnd_pos. destruct (num_cases x H) as [F|[->| ->]]; [apply rd64_fin, F|..]; cbn [ev]; unfold rd64;
    rewrite ?rnd_opp, rnd_Bnd; apply clamp_id; lra.
Qed.
Lemma rd64_opp a : rd64 (- a) = (- rd64 a)%R.
Proof. unfold rd64. rewrite rnd_opp. pose proof Bnd_pos. unfold Rmax, Rmin. repeat destruct Rle_dec; lra. Qed.
Lemma rd64_ge x r : fin x -> (ev x <= r)%R -> (ev x <= rd64 r)%R.
Proof. intros F H. rewrite <- (rd64_fin x F). apply rd64_mono, H. Qed.
Lemma rd64_le x r : fin x -> (r <= ev x)%R -> (rd64 r <= ev x)%R.
Proof. intros F H. rewrite <- (rd64_fin x F). apply rd64_mono, H. Qed.
Lemma rd64_gen x r : fin x -> (- ev x <= r)%R -> (- ev x <= rd64 r)%R.
Proof. intros F H. rewrite <- (rd64_fin x F), <- rd64_opp. apply rd64_mono, H. Qed.
Lemma fin_of_Z z : - BIG <= z <= BIG -> fin (f64_of_Z z) /\ ev (f64_of_Z z) = IZR z.
Proof.
  intros H. destruct (ofZB_spec z H) as (V & F & _). rewrite f64_of_Z_B. destruct (B_fin _ F) as [? ->]. auto.
Qed.
Lemma rd64_Z z : - BIG <= z <= BIG -> rd64 (IZR z) = IZR z.
Proof. intros H. destruct (fin_of_Z z H) as [F <-]. apply rd64_fin, F. Qed.
Lemma rd64_0 : rd64 0 = 0%R. Proof. apply (rd64_Z 0). unfold BIG; lia. Qed.

(** A result of an operation: not NaN and the rounded exact value. *)
Definition rounds (x : spec_float) (r : R) : Prop := num x /\ ev x = rd64 r.

Lemma overflow_rounds (s : bool) (r : R) : (if s then r <= 0 else 0 <= r)%R -> Rlt_bool (Rabs (rnd r)) Bnd = false ->
  rounds (binary_overflow prec64 emax64 mode_NE s) r.
Proof.
  intros Hs H. destruct (Rlt_bool_spec (Rabs (rnd r)) Bnd) as [|G]; [discriminate|]. pose proof Bnd_pos.
  cbn. split; [split; [reflexivity|discriminate]|]. cbn [ev]. unfold rd64. destruct s.
  - apply rnd_mono in Hs. unfold rnd at 2 in Hs. rewrite round_0 in Hs by exact _.
    rewrite Rabs_left1 in G by exact Hs. unfold Rmax, Rmin. repeat destruct Rle_dec; lra.
  - apply rnd_mono in Hs. unfold rnd at 1 in Hs. rewrite round_0 in Hs by exact _.
    rewrite Rabs_pos_eq in G by exact Hs. unfold Rmax, Rmin. repeat destruct Rle_dec; lra.
Qed.
Lemma normal_rounds (b : b64) r : is_finite b = true -> B2R b = rnd r -> rounds (B2SF b) r.
Proof.
  intros F E. destruct (B_fin b F) as [Fb Eb]. split; [apply fin_num, Fb|]. rewrite Eb, E. unfold rd64. symmetry. apply clamp_id.
  rewrite <- E, <- Eb. apply num_le, fin_num, Fb.
Qed.
Lemma sign_le (b : b64) : if Bsign b then (B2R b <= 0)%R else (0 <= B2R b)%R.
Proof.
  destruct b as [s|s| |s m e H]; cbn; try (destruct s; lra); try lra.
  destruct s; cbn; [apply F2R_le_0|apply F2R_ge_0]; cbn; lia.
Qed.

Lemma add_rounds x y : fin x -> fin y -> rounds (SFadd prec64 emax64 x y) (ev x + ev y).
Proof.
  intros Hx Hy. destruct (fin_B x Hx) as (a & -> & Fa & <-), (fin_B y Hy) as (b & -> & Fb & <-). rewrite SFadd_B.
  pose proof (Bplus_correct prec64 emax64 Hprec Hmax mode_NE a b Fa Fb) as C.
  change (round radix2 fexp64 (round_mode mode_NE) (B2R a + B2R b)) with (rnd (B2R a + B2R b)) in C. fold Bnd in C.
  destruct (Rlt_bool (Rabs (rnd (B2R a + B2R b))) Bnd) eqn:E.
  - destruct C as (C1 & C2 & _). apply normal_rounds; assumption.
  - destruct C as [C1 C2]. rewrite C1. apply overflow_rounds; [|exact E].
    pose proof (sign_le a) as Sa. pose proof (sign_le b) as Sb. rewrite <- C2 in Sb. destruct (Bsign a); lra.
Qed.
Lemma sub_rounds x y : fin x -> fin y -> rounds (SFsub prec64 emax64 x y) (ev x - ev y).
Proof.
  intros Hx Hy. destruct (fin_B x Hx) as (a & -> & Fa & <-), (fin_B y Hy) as (b & -> & Fb & <-). rewrite SFsub_B.
  pose proof (Bminus_correct prec64 emax64 Hprec Hmax mode_NE a b Fa Fb) as C.
  change (round radix2 fexp64 (round_mode mode_NE) (B2R a - B2R b)) with (rnd (B2R a - B2R b)) in C. fold Bnd in C.
  destruct (Rlt_bool (Rabs (rnd (B2R a - B2R b))) Bnd) eqn:E.
  - destruct C as (C1 & C2 & _). apply normal_rounds; assumption.
  - destruct C as [C1 C2]. rewrite C1. apply overflow_rounds; [|exact E].
    pose proof (sign_le a) as Sa. pose proof (sign_le b) as Sb. rewrite C2 in *. destruct (Bsign b); cbn [negb] in *; lra.
Qed.
Lemma mul_rounds x y : fin x -> fin y -> rounds (SFmul prec64 emax64 x y) (ev x * ev y).
Proof.
  intros Hx Hy. destruct (fin_B x Hx) as (a & -> & Fa & <-), (fin_B y Hy) as (b & -> & Fb & <-). rewrite SFmul_B.
  pose proof (Bmult_correct prec64 emax64 Hprec Hmax mode_NE a b) as C.
  change (round radix2 fexp64 (round_mode mode_NE) (B2R a * B2R b)) with (rnd (B2R a * B2R b)) in C. fold Bnd in C.
  destruct (Rlt_bool (Rabs (rnd (B2R a * B2R b))) Bnd) eqn:E.
  - destruct C as (C1 & C2 & _). rewrite Fa, Fb in C2. apply normal_rounds; assumption.
  - rewrite C. apply overflow_rounds; [|exact E].
    pose proof (sign_le a) as Sa. pose proof (sign_le b) as Sb. destruct (Bsign a), (Bsign b); cbn [xorb]; nra.
Qed.
Lemma div_rounds x y : fin x -> fin y -> ev y <> 0%R -> rounds (SFdiv prec64 emax64 x y) (ev x / ev y).
Proof.
  intros Hx Hy N. destruct (fin_B x Hx) as (a & -> & Fa & <-), (fin_B y Hy) as (b & -> & Fb & Eb). rewrite <- Eb in *. rewrite SFdiv_B.
  pose proof (Bdiv_correct prec64 emax64 Hprec Hmax mode_NE a b N) as C.
  change (round radix2 fexp64 (round_mode mode_NE) (B2R a / B2R b)) with (rnd (B2R a / B2R b)) in C. fold Bnd in C.
  destruct (Rlt_bool (Rabs (rnd (B2R a / B2R b))) Bnd) eqn:E.
  - destruct C as (C1 & C2 & _). rewrite Fa in C2. apply normal_rounds; assumption.
  - rewrite C. apply overflow_rounds; [|exact E].
    pose proof (sign_le a) as Sa. pose proof (sign_le b) as Sb. unfold Rdiv.
    destruct (Bsign b); [assert (0 < - / B2R b)%R by (rewrite <- Rinv_opp; apply Rinv_0_lt_compat; lra)|assert (0 < / B2R b)%R by (apply Rinv_0_lt_compat; lra)];
    destruct (Bsign a); cbn [xorb]; nra.
Qed.
Lemma bpow_Bnd e : e < 1024 -> (bpow radix2 e < Bnd)%R.
Proof. intros H. apply bpow_lt. exact H. Qed.
#[global] Opaque Bnd.
Lemma rounds_between x r lo hi : rounds x r -> - BIG <= lo <= BIG -> - BIG <= hi <= BIG -> (IZR lo <= r <= IZR hi)%R -> (IZR lo <= ev x <= IZR hi)%R.
Proof.
  intros [N E] Hl Hh H. rewrite E, <- (rd64_Z lo), <- (rd64_Z hi) by assumption. split; apply rd64_mono; lra.
Qed.
Lemma between_in64 x lo hi : num x -> - BIG <= lo <= BIG -> - BIG <= hi <= BIG -> (IZR lo <= ev x <= IZR hi)%R -> in64 lo hi x.
Proof.
  intros N Hl Hh H. destruct (fin_of_Z lo Hl) as [Fl El], (fin_of_Z hi Hh) as [Fh Eh].
  split; [apply N|]. right. split; apply le_ev; auto using fin_num; rewrite ?El, ?Eh; lra.
Qed.
Lemma nan_in64 lo hi : in64 lo hi S754_nan.
Proof. split; [reflexivity|auto]. Qed.
Lemma double_cases x : is_double x -> x = S754_nan \/ num x.
Proof. intros D. destruct x; try (left; reflexivity); right; split; auto; discriminate. Qed.

#[local] Notation "x ⊕ y" := (SFadd prec64 emax64 x y) (at level 50, left associativity).
#[local] Notation "x ⊖ y" := (SFsub prec64 emax64 x y) (at level 50, left associativity).
#[local] Notation "x ⊗ y" := (SFmul prec64 emax64 x y) (at level 40, left associativity).
#[local] Notation "x ⊘ y" := (SFdiv prec64 emax64 x y) (at level 40, left associativity).
#[local] Notation inf := (S754_infinity false).
#[local] Notation ninf := (S754_infinity true).
#[local] Notation nan := S754_nan.

(** The operations return doubles. *)
Lemma op_double x y : is_double x -> is_double y -> is_double (x ⊕ y) /\ is_double (x ⊖ y) /\ is_double (x ⊗ y) /\ is_double (x ⊘ y).
Proof.
  intros Hx Hy. destruct (double_B x Hx) as [a ->], (double_B y Hy) as [b ->].
  rewrite SFadd_B, SFsub_B, SFmul_B, SFdiv_B. auto using B_double.
Qed.
Lemma add_double x y : is_double x -> is_double y -> is_double (x ⊕ y). Proof. intros. apply op_double; assumption. Qed.
Lemma sub_double x y : is_double x -> is_double y -> is_double (x ⊖ y). Proof. intros. apply op_double; assumption. Qed.
Lemma mul_double x y : is_double x -> is_double y -> is_double (x ⊗ y). Proof. intros. apply op_double; assumption. Qed.
Lemma div_double x y : is_double x -> is_double y -> is_double (x ⊘ y). Proof. intros. apply op_double; assumption. Qed.
Lemma Z_double z : is_double (f64_of_Z z).
Proof. rewrite f64_of_Z_B. apply B_double. Qed.
Lemma abs_double x : is_double x -> is_double (SFabs x).
Proof. intros H. destruct x; exact H. Qed.
Lemma abs_ev x : num x -> num (SFabs x) /\ ev (SFabs x) = Rabs (ev x).
Proof.
  intros [D N]. split; [split; [apply abs_double, D|destruct x; try discriminate; congruence]|].
  pose proof Bnd_pos. destruct x as [s|[|]| |[|] m e]; cbn [SFabs ev].
  - cbn. now rewrite Rabs_R0.
  - rewrite Rabs_left by lra. lra.
  - rewrite Rabs_pos_eq by lra. reflexivity.
  - congruence.
  - cbn. rewrite Rabs_left1 by (apply F2R_le_0; cbn; lia). unfold F2R. cbn. change (IZR (Z.neg m)) with (- IZR (Z.pos m))%R. lra.
  - cbn. rewrite Rabs_pos_eq by (apply F2R_ge_0; cbn; lia). reflexivity.
Qed.

(** Nonnegative or NaN. *)
Definition nn (x : spec_float) : Prop := is_double x /\ (x = nan \/ num x /\ (0 <= ev x)%R).
Lemma nn_double x : nn x -> is_double x. Proof. intros [D _]. exact D. Qed.
Lemma nn_nan : nn nan. Proof. split; [reflexivity|auto]. Qed.
Lemma nn_num x : num x -> (0 <= ev x)%R -> nn x. Proof. intros N H. split; [apply N|auto]. Qed.
Lemma nn_inf : nn inf. Proof. apply nn_num; [split; [reflexivity|discriminate]|]. cbn. pose proof Bnd_pos. lra. Qed.
Lemma nn_cases x : nn x -> x = nan \/ x = inf \/ (fin x /\ (0 <= ev x)%R).
Proof.
  intros [D [E|[N H]]]; [auto|]. destruct (num_cases x N) as [F|[E|E]]; auto. subst. cbn in H. pose proof Bnd_pos. lra.
Qed.
Lemma nn_in64 x : nn x <-> is_double x /\ (x = nan \/ SFleb (f64_of_Z 0) x = true).
Proof.
  destruct (fin_of_Z 0 ltac:(unfold BIG; lia)) as [F0 E0]. split; intros [D H]; (split; [exact D|]).
  - destruct H as [->|[N H]]; [auto|]. right. apply le_ev; [apply fin_num, F0|exact N|rewrite E0; exact H].
  - destruct H as [->|H]; [auto|]. destruct (double_cases x D) as [->|N]; [auto|]. right. split; [exact N|].
    apply le_ev in H; [rewrite E0 in H; exact H|apply fin_num, F0|exact N].
Qed.
Lemma nn_0 : nn (f64_of_Z 0).
Proof. destruct (fin_of_Z 0 ltac:(unfold BIG; lia)) as [F0 E0]. apply nn_num; [apply fin_num, F0|]. rewrite E0. lra. Qed.

Ltac finval x F := destruct x as [?|?| |? ? ?]; destruct F as [_ F]; try contradiction; try reflexivity.
Lemma nan_add x : nan ⊕ x = nan. Proof. destruct x; reflexivity. Qed.
Lemma add_nan x : x ⊕ nan = nan. Proof. destruct x; reflexivity. Qed.
Lemma nan_sub x : nan ⊖ x = nan. Proof. destruct x; reflexivity. Qed.
Lemma sub_nan x : x ⊖ nan = nan. Proof. destruct x; reflexivity. Qed.
Lemma nan_mul x : nan ⊗ x = nan. Proof. destruct x; reflexivity. Qed.
Lemma mul_nan x : x ⊗ nan = nan. Proof. destruct x; reflexivity. Qed.
Lemma nan_div x : nan ⊘ x = nan. Proof. destruct x; reflexivity. Qed.
Lemma div_nan x : x ⊘ nan = nan. Proof. destruct x; reflexivity. Qed.
Ltac nans := rewrite ?nan_add, ?add_nan, ?nan_sub, ?sub_nan, ?nan_mul, ?mul_nan, ?nan_div, ?div_nan.
Lemma inf_add x : fin x -> inf ⊕ x = inf. Proof. intros F. finval x F. Qed.
Lemma add_inf x : fin x -> x ⊕ inf = inf. Proof. intros F. finval x F. Qed.
Lemma ninf_add x : fin x -> ninf ⊕ x = ninf. Proof. intros F. finval x F. Qed.
Lemma add_ninf x : fin x -> x ⊕ ninf = ninf. Proof. intros F. finval x F. Qed.
Lemma inf_sub x : fin x -> inf ⊖ x = inf. Proof. intros F. finval x F. Qed.
Lemma sub_inf x : fin x -> x ⊖ inf = ninf. Proof. intros F. finval x F. Qed.
Lemma ninf_sub x : fin x -> ninf ⊖ x = ninf. Proof. intros F. finval x F. Qed.
Lemma sub_ninf x : fin x -> x ⊖ ninf = inf. Proof. intros F. finval x F. Qed.
Lemma pos_form x : fin x -> (0 < ev x)%R -> exists m e, x = S754_finite false m e.
Proof.
  intros [_ F] H. destruct x as [s|s| |[|] m e]; try contradiction; [cbn in H; lra| |eauto].
  exfalso. cbn [ev SF2R] in H. assert (F2R (Float radix2 (cond_Zopp true (Z.pos m)) e) <= 0)%R by (apply F2R_le_0; cbn; lia). lra.
Qed.
Lemma inf_mul x : fin x -> (0 < ev x)%R -> inf ⊗ x = inf /\ ninf ⊗ x = ninf.
Proof. intros F H. destruct (pos_form x F H) as (m & e & ->). auto. Qed.
Lemma div_inf_0 x : fin x -> exists s, x ⊘ inf = S754_zero s.
Proof. intros F. finval x F; cbn; eauto. Qed.
Lemma zero_fin s : fin (S754_zero s) /\ ev (S754_zero s) = 0%R.
Proof. split; [split; [reflexivity|exact I]|reflexivity]. Qed.
Lemma zero_form x : fin x -> ev x = 0%R -> exists s, x = S754_zero s.
Proof.
  intros [_ F] H. destruct x as [s|s| |s m e]; try contradiction; [eauto|]. exfalso. cbn [ev SF2R] in H.
  apply eq_0_F2R in H. destruct s; discriminate.
Qed.

Lemma add_nn x y : nn x -> nn y -> nn (x ⊕ y).
Proof.
  intros Hx Hy. destruct (nn_cases x Hx) as [->|[->|[Fx Px]]]; [nans; apply nn_nan|..];
  (destruct (nn_cases y Hy) as [->|[->|[Fy Py]]]; [nans; apply nn_nan|..]).
  - apply nn_inf.
  - rewrite inf_add by assumption. apply nn_inf.
  - rewrite add_inf by assumption. apply nn_inf.
  - destruct (add_rounds x y Fx Fy) as [N E]. apply nn_num; [exact N|]. rewrite E, <- rd64_0. apply rd64_mono. lra.
Qed.
(** One step of an exponential average of nonnegative values stays nonnegative. *)
Lemma step_nn u v k : nn u -> nn v -> fin k -> (0 < ev k <= 1)%R -> nn ((u ⊖ v) ⊗ k ⊕ v).
Proof.
  intros Hu Hv Fk Hk.
  destruct (nn_cases v Hv) as [->|[->|[Fv Pv]]]; [nans; apply nn_nan|..];
  (destruct (nn_cases u Hu) as [->|[->|[Fu Pu]]];
   [nans; apply nn_nan|..]).
  - cbn [SFsub]. cbn. apply nn_nan.
  - rewrite sub_inf by assumption. rewrite (proj2 (inf_mul k Fk ltac:(lra))). apply nn_nan.
  - rewrite inf_sub by assumption. rewrite (proj1 (inf_mul k Fk ltac:(lra))). rewrite inf_add by assumption. apply nn_inf.
  - destruct (sub_rounds u v Fu Fv) as [Nd Ed]. set (d := u ⊖ v) in *.
    assert (Hd : (- ev v <= ev d <= ev u)%R).
    { rewrite Ed. split; [apply rd64_gen|apply rd64_le]; try assumption; lra. }
    pose proof (fin_lt u Fu). pose proof (fin_lt v Fv).
    assert (Fd : fin d) by (apply lt_fin; [exact Nd|lra]).
    destruct (mul_rounds d k Fd Fk) as [Nm Em]. set (m := d ⊗ k) in *.
    assert (Hm : (- ev v <= ev m <= ev u)%R).
    { rewrite Em. split; [apply rd64_gen|apply rd64_le]; try assumption; nra. }
    assert (Fm : fin m) by (apply lt_fin; [exact Nm|lra]).
    destruct (add_rounds m v Fm Fv) as [N E]. apply nn_num; [exact N|]. rewrite E, <- rd64_0. apply rd64_mono. lra.
Qed.

Lemma in64_cases lo hi x : - BIG <= lo <= BIG -> - BIG <= hi <= BIG -> in64 lo hi x -> x = nan \/ fin x /\ (IZR lo <= ev x <= IZR hi)%R.
Proof.
  intros Hl Hh [D [->|[A B]]]; [auto|]. right. destruct (double_cases x D) as [->|N]; [destruct (f64_of_Z lo); discriminate|].
  destruct (fin_of_Z lo Hl) as [Fl El], (fin_of_Z hi Hh) as [Fh Eh].
  apply le_ev in A, B; auto using fin_num. rewrite El in A. rewrite Eh in B. split; [|lra]. apply lt_fin; [exact N|].
  pose proof big_Bnd. assert (IZR (- BIG) <= IZR lo)%R by (apply IZR_le; lia). assert (IZR hi <= IZR BIG)%R by (apply IZR_le; lia).
  rewrite opp_IZR in *. lra.
Qed.
(** A quotient whose numerator is no larger than its denominator. *)
Lemma quot_in64 n s lo : is_double n -> is_double s -> lo = 0 \/ lo = -1 ->
  (num n -> num s -> (IZR lo * ev s <= ev n <= ev s)%R /\ (0 <= ev s)%R) -> in64 lo 1 (n ⊘ s).
Proof.
  intros Dn Ds Hlo H. assert (L : - BIG <= lo <= BIG) by (unfold BIG; lia). assert (L1 : - BIG <= 1 <= BIG) by (unfold BIG; lia).
  destruct (double_cases n Dn) as [->|Nn]; [nans; apply nan_in64|].
  destruct (double_cases s Ds) as [->|Ns]; [nans; apply nan_in64|].
  destruct (H Nn Ns) as [Hn Hs]. pose proof Bnd_pos. assert (Lo : (IZR lo = 0 \/ IZR lo = -1)%R) by (destruct Hlo; subst; auto).
  destruct (num_cases s Ns) as [Fs|[->| ->]]; [| |cbn in Hs; lra].
  - pose proof (fin_lt s Fs). assert (Fn : fin n) by (apply lt_fin; [exact Nn|destruct Lo as [E|E]; rewrite E in Hn; lra]).
    destruct (Req_dec (ev s) 0) as [Z|Z].
    + destruct (zero_form s Fs Z) as [s1 ->]. destruct (zero_form n Fn) as [s2 ->]; [rewrite Z in Hn; lra|]. apply nan_in64.
    + pose proof (div_rounds n s Fn Fs Z) as Rq. apply between_in64; [apply Rq|assumption..|].
      apply (rounds_between _ _ _ _ Rq L L1). assert (0 < / ev s)%R by (apply Rinv_0_lt_compat; lra).
      assert (E1 : (ev s * / ev s = 1)%R) by (apply Rinv_r; exact Z). unfold Rdiv.
      split; [|nra]. apply Rle_trans with (IZR lo * ev s * / ev s)%R; [rewrite Rmult_assoc, E1; lra|nra].
  - destruct (num_cases n Nn) as [Fn|[->| ->]]; [|apply nan_in64..].
    destruct (div_inf_0 n Fn) as [s1 ->]. destruct (zero_fin s1) as [F E]. apply between_in64; [apply fin_num, F|assumption..|].
    rewrite E. destruct Lo; lra.
Qed.
Lemma scale_in64 c lo hi q : 0 <= c <= 1000 -> -1000 <= lo <= 1000 -> -1000 <= hi <= 1000 -> in64 lo hi q ->
  in64 (c * lo) (c * hi) (f64_of_Z c ⊗ q) /\ in64 (lo * c) (hi * c) (q ⊗ f64_of_Z c).
Proof.
  intros Hc Hl Hh H. destruct (in64_cases lo hi q ltac:(unfold BIG; lia) ltac:(unfold BIG; lia) H) as [->|[Fq Bq]].
  { nans. split; apply nan_in64. }
  destruct (fin_of_Z c ltac:(unfold BIG; lia)) as [Fc Ec].
  assert (0 <= IZR c)%R by (apply (IZR_le 0); lia).
  split; [pose proof (mul_rounds _ _ Fc Fq) as Rm|pose proof (mul_rounds _ _ Fq Fc) as Rm];
  (apply between_in64; [apply Rm|unfold BIG; nia|unfold BIG; nia|]; apply (rounds_between _ _ _ _ Rm); [unfold BIG; nia|unfold BIG; nia|]; rewrite Ec, !mult_IZR; nra).
Qed.
Lemma nscale_in64 c lo hi q : -1000 <= c <= 0 -> -1000 <= lo <= 1000 -> -1000 <= hi <= 1000 -> in64 lo hi q ->
  in64 (c * hi) (c * lo) (f64_of_Z c ⊗ q).
Proof.
  intros Hc Hl Hh H. destruct (in64_cases lo hi q ltac:(unfold BIG; lia) ltac:(unfold BIG; lia) H) as [->|[Fq Bq]].
  { nans. apply nan_in64. }
  destruct (fin_of_Z c ltac:(unfold BIG; lia)) as [Fc Ec].
  assert (IZR c <= 0)%R by (apply (IZR_le _ 0); lia).
  pose proof (mul_rounds _ _ Fc Fq) as Rm.
  apply between_in64; [apply Rm|unfold BIG; nia|unfold BIG; nia|]. apply (rounds_between _ _ _ _ Rm); [unfold BIG; nia|unfold BIG; nia|]. rewrite Ec, !mult_IZR. nra.
Qed.

(** a / (a + b) *)
Lemma share_in64 a b : nn a -> nn b -> in64 0 1 (a ⊘ (a ⊕ b)).
Proof.
  intros Ha Hb. apply quot_in64; auto using add_double, nn_double. intros Na Ns.
  pose proof (add_nn a b Ha Hb) as [_ [E|[_ Hs]]]; [exfalso; apply Ns; exact E|]. split; [|exact Hs].
  destruct (nn_cases a Ha) as [->|[->|[Fa Pa]]]; [exfalso; apply Na; reflexivity|..].
  - destruct (nn_cases b Hb) as [->|[->|[Fb Pb]]]; [exfalso; apply Ns; reflexivity|cbn; pose proof Bnd_pos; lra|].
    rewrite inf_add by assumption. cbn. pose proof Bnd_pos. lra.
  - split; [rewrite Rmult_0_l; lra|]. destruct (nn_cases b Hb) as [->|[->|[Fb Pb]]].
    + exfalso. apply Ns. apply add_nan.
    + rewrite add_inf by assumption. change (ev inf) with Bnd. pose proof (fin_lt a Fa). lra.
    + destruct (add_rounds a b Fa Fb) as [_ ->]. apply rd64_ge; [assumption|lra].
Qed.
(** |a - b| / (a + b) *)
Lemma diff_in64 a b : nn a -> nn b -> in64 0 1 (SFabs (a ⊖ b) ⊘ (a ⊕ b)).
Proof.
  intros Ha Hb. apply quot_in64; auto using add_double, abs_double, sub_double, nn_double. intros Na Ns.
  pose proof (add_nn a b Ha Hb) as [_ [E|[_ Hs]]]; [exfalso; apply Ns; exact E|]. split; [|exact Hs].
  pose proof Bnd_pos.
  assert (Top : (ev (a ⊕ b) = Bnd \/ fin a /\ fin b) /\ (0 <= ev (SFabs (a ⊖ b)))%R).
  { split.
    - destruct (nn_cases a Ha) as [->|[->|[Fa Pa]]]; [exfalso; apply Ns; apply nan_add|..];
      (destruct (nn_cases b Hb) as [->|[->|[Fb Pb]]]; [exfalso; apply Ns; apply add_nan|..]); auto.
      + rewrite inf_add by assumption. auto.
      + rewrite add_inf by assumption. auto.
    - assert (N : num (a ⊖ b)) by (split; [apply sub_double; auto using nn_double|intros E; rewrite E in Na; apply Na; reflexivity]).
      destruct (abs_ev _ N) as [_ ->]. apply Rabs_pos. }
  destruct Top as [[Top|[Fa Fb]] Pos].
  - rewrite Top. pose proof (num_le _ Na). lra.
  - split; [lra|]. destruct (sub_rounds a b Fa Fb) as [Nd Ed], (add_rounds a b Fa Fb) as [_ ->].
    destruct (abs_ev _ Nd) as [_ ->]. rewrite Ed.
    assert (Pa : (0 <= ev a)%R) by (destruct (nn_cases a Ha) as [->|[->|[_ P]]]; [destruct Fa as [_ []]..|exact P]).
    assert (Pb : (0 <= ev b)%R) by (destruct (nn_cases b Hb) as [->|[->|[_ P]]]; [destruct Fb as [_ []]..|exact P]).
    apply Rabs_le. split; [rewrite <- rd64_opp; apply rd64_mono; lra|apply rd64_mono; lra].
Qed.

(** Differences of ordered doubles are ordered. *)
Lemma sub_le a b c d : num a -> num b -> num c -> num d -> (ev a <= ev c)%R -> (ev d <= ev b)%R ->
  num (a ⊖ b) -> num (c ⊖ d) -> (ev (a ⊖ b) <= ev (c ⊖ d))%R.
Proof.
  intros Na Nb Nc Nd H1 H2 N1 N2. pose proof Bnd_pos as B.
  assert (G : forall x y, num x -> num y -> num (x ⊖ y) -> (fin x /\ fin y /\ ev (x ⊖ y) = rd64 (ev x - ev y)) \/
    (ev (x ⊖ y) = Bnd /\ (ev x = Bnd /\ ev y < Bnd \/ ev y = - Bnd /\ - Bnd < ev x)%R) \/ (ev (x ⊖ y) = - Bnd /\ (ev x = - Bnd /\ - Bnd < ev y \/ ev y = Bnd /\ ev x < Bnd))%R).
  { intros x y Nx Ny N. destruct (num_cases x Nx) as [Fx|[->| ->]], (num_cases y Ny) as [Fy|[->| ->]].
    - left. destruct (sub_rounds x y Fx Fy). auto.
    - right. right. rewrite sub_inf by assumption. pose proof (fin_lt x Fx). cbn [ev]. split; [reflexivity|]. right. lra.
    - right. left. rewrite sub_ninf by assumption. pose proof (fin_lt x Fx). cbn [ev]. split; [reflexivity|]. right. lra.
    - right. left. rewrite inf_sub by assumption. pose proof (fin_lt y Fy). cbn [ev]. split; [reflexivity|]. left. lra.
    - exfalso. apply N. reflexivity.
    - right. left. cbn. split; [reflexivity|]. left. lra.
    - right. right. rewrite ninf_sub by assumption. pose proof (fin_lt y Fy). cbn [ev]. split; [reflexivity|]. left. lra.
    - right. right. cbn. split; [reflexivity|]. left. lra.
    - exfalso. apply N. reflexivity. }
  pose proof (num_le _ N1). pose proof (num_le _ N2). pose proof (num_le a Na). pose proof (num_le b Nb). pose proof (num_le c Nc). pose proof (num_le d Nd).
  destruct (G a b Na Nb N1) as [(Fa & Fb & E1)|[(E1 & K1)|(E1 & K1)]]; [|..|lra].
  - pose proof (fin_lt a Fa). pose proof (fin_lt b Fb).
    destruct (G c d Nc Nd N2) as [(Fc & Fd & E2)|[(E2 & K2)|(E2 & K2)]]; [rewrite E1, E2; apply rd64_mono; lra|lra|lra].
  - destruct (G c d Nc Nd N2) as [(Fc & Fd & E2)|[(E2 & K2)|(E2 & K2)]]; [|lra|lra].
    pose proof (fin_lt c Fc). pose proof (fin_lt d Fd). lra.
Qed.
Lemma sub_self_le a b : num a -> num b -> (ev b <= ev a)%R -> num (a ⊖ b) -> (0 <= ev (a ⊖ b))%R.
Proof.
  intros Na Nb H N. destruct (num_cases a Na) as [Fa|[->| ->]], (num_cases b Nb) as [Fb|[->| ->]]; pose proof Bnd_pos as B.
  - destruct (sub_rounds a b Fa Fb) as [_ ->]. rewrite <- rd64_0. apply rd64_mono. lra.
  - pose proof (fin_lt a Fa). cbn in H. lra.
  - rewrite sub_ninf by assumption. cbn. lra.
  - rewrite inf_sub by assumption. cbn. lra.
  - exfalso. apply N. reflexivity.
  - cbn. lra.
  - pose proof (fin_lt b Fb). cbn in H. lra.
  - cbn in H. lra.
  - exfalso. apply N. reflexivity.
Qed.
Lemma sub_flip a b : num a -> num b -> num (a ⊖ b) -> num (b ⊖ a) /\ ev (b ⊖ a) = (- ev (a ⊖ b))%R.
Proof.
  intros Na Nb N. destruct (num_cases a Na) as [Fa|[->| ->]], (num_cases b Nb) as [Fb|[->| ->]]; pose proof Bnd_pos as B;
    try (exfalso; apply N; reflexivity).
  - destruct (sub_rounds a b Fa Fb) as [_ ->], (sub_rounds b a Fb Fa) as [M ->]. split; [exact M|]. rewrite <- rd64_opp. f_equal. lra.
  - rewrite sub_inf, inf_sub by assumption. split; [split; [reflexivity|discriminate]|cbn; lra].
  - rewrite sub_ninf, ninf_sub by assumption. split; [split; [reflexivity|discriminate]|cbn; lra].
  - rewrite sub_inf, inf_sub by assumption. split; [split; [reflexivity|discriminate]|cbn; lra].
  - cbn. split; [split; [reflexivity|discriminate]|lra].
  - rewrite sub_ninf, ninf_sub by assumption. split; [split; [reflexivity|discriminate]|cbn; lra].
  - cbn. split; [split; [reflexivity|discriminate]|lra].
Qed.
(** Place of c between l and h, and body of a bar relative to its range. *)
Lemma place_in64 l c h : num l -> num c -> num h -> (ev l <= ev c <= ev h)%R -> in64 0 1 ((h ⊖ c) ⊘ (h ⊖ l)).
Proof.
  intros Nl Nc Nh H. apply quot_in64; auto; [apply sub_double; [apply Nh|apply Nc]|apply sub_double; [apply Nh|apply Nl]|].
  intros N1 N2. pose proof (sub_self_le h l Nh Nl ltac:(lra) N2). pose proof (sub_self_le h c Nh Nc ltac:(lra) N1).
  pose proof (sub_le h c h l Nh Nc Nh Nl ltac:(lra) ltac:(lra) N1 N2). lra.
Qed.
Lemma body_in64 l o c h : num l -> num o -> num c -> num h -> (ev l <= ev o <= ev h)%R -> (ev l <= ev c <= ev h)%R ->
  in64 (-1) 1 ((c ⊖ o) ⊘ (h ⊖ l)).
Proof.
  intros Nl No Nc Nh Ho Hc. apply quot_in64; auto; [apply sub_double; [apply Nc|apply No]|apply sub_double; [apply Nh|apply Nl]|].
  intros N1 N2. pose proof (sub_self_le h l Nh Nl ltac:(lra) N2).
  pose proof (sub_le c o h l Nc No Nh Nl ltac:(lra) ltac:(lra) N1 N2).
  destruct (sub_flip c o Nc No N1) as [N3 E3].
  pose proof (sub_le o c h l No Nc Nh Nl ltac:(lra) ltac:(lra) N3 N2). lra.
Qed.

(** The laws [IntLaws] hold for IEEE binary64: integers up to 2^52 are represented
    exactly.  Proved with Flocq's correctness theorems for the binary64 operations. *)
From Verif Require Export F64 F64Ord.
From Coq Require Import Floats.SpecFloat ZifyBool Reals Lra.
From Flocq Require Import Core.Core IEEE754.BinarySingleNaN.
#[local] Open Scope Z_scope.

Lemma Hprec : FLX.Prec_gt_0 prec64.
Proof. reflexivity. Qed.
Lemma Hmax : Prec_lt_emax prec64 emax64.
Proof. reflexivity. Qed.
#[local] Existing Instance Hprec.
#[local] Existing Instance Hmax.
Notation b64 := (binary_float prec64 emax64).
Notation fexp64 := (SpecFloat.fexp prec64 emax64).

Definition ofZB (z : Z) : b64 := binary_normalize prec64 emax64 Hprec Hmax mode_NE z 0 false.

Lemma rne_equiv s m l : round_nearest_even m l = choice_mode mode_NE s m l.
Proof. case l; [reflexivity|intro c]. case c; [|reflexivity..]. now simpl; unfold Round.cond_incr; case Z.even. Qed.
Lemma bra_equiv sx mx ex lx :
  SpecFloat.binary_round_aux prec64 emax64 sx mx ex lx = binary_round_aux prec64 emax64 mode_NE sx mx ex lx.
Proof.
  unfold SpecFloat.binary_round_aux, binary_round_aux.
  set (mrse' := shr_fexp _ _ _). case mrse'; intros mrs' e'; simpl. now rewrite (rne_equiv sx).
Qed.
Lemma br_equiv s m e : SpecFloat.binary_round prec64 emax64 s m e = binary_round prec64 emax64 mode_NE s m e.
Proof.
  unfold SpecFloat.binary_round, binary_round, shl_align_fexp.
  set (mez := shl_align _ _ _); case mez as [mz ez]. apply bra_equiv.
Qed.
Lemma bn_equiv m e szero :
  SpecFloat.binary_normalize prec64 emax64 m e szero
  = B2SF (binary_normalize prec64 emax64 Hprec Hmax mode_NE m e szero).
Proof.
  case m as [|p|p]; [reflexivity|..]; simpl; rewrite B2SF_SF2B; apply br_equiv.
Qed.
Lemma f64_of_Z_B z : f64_of_Z z = B2SF (ofZB z).
Proof. apply bn_equiv. Qed.

Lemma SFadd_B (x y : b64) : SFadd prec64 emax64 (B2SF x) (B2SF y) = B2SF (Bplus mode_NE x y).
Proof.
  case x as [sx|sx| |sx mx ex Bx]; case y as [sy|sy| |sy my ey By];
    [now (trivial || simpl; case Bool.eqb)..|]. apply bn_equiv.
Qed.
Lemma SFsub_B (x y : b64) : SFsub prec64 emax64 (B2SF x) (B2SF y) = B2SF (Bminus mode_NE x y).
Proof.
  case x as [sx|sx| |sx mx ex Bx]; case y as [sy|sy| |sy my ey By];
    [now (trivial || simpl; case Bool.eqb)..|]. simpl. unfold Zminus. rewrite <- cond_Zopp_negb. apply bn_equiv.
Qed.
Lemma SFmul_B (x y : b64) : SFmul prec64 emax64 (B2SF x) (B2SF y) = B2SF (Bmult mode_NE x y).
Proof.
  case x as [sx|sx| |sx mx ex Bx]; case y as [sy|sy| |sy my ey By]; [now trivial..|].
  simpl. rewrite B2SF_SF2B. apply bra_equiv.
Qed.

Lemma SFdiv_B (x y : b64) : SFdiv prec64 emax64 (B2SF x) (B2SF y) = B2SF (Bdiv mode_NE x y).
Proof.
  case x as [sx|sx| |sx mx ex Bx]; case y as [sy|sy| |sy my ey By]; [now trivial..|].
  simpl. rewrite B2SF_SF2B. destruct (SFdiv_core_binary _ _ _ _ _ _) as [[mz ez] lz]. apply bra_equiv.
Qed.

Lemma format_Z z : - BIG <= z <= BIG -> generic_format radix2 fexp64 (IZR z).
Proof.
  intros H. change fexp64 with (FLT_exp (SpecFloat.emin prec64 emax64) prec64).
  apply generic_format_FLT. exists (Float radix2 z 0).
  - unfold F2R; cbn. lra.
  - cbn [Fnum]. change (radix2 ^ prec64) with 9007199254740992. unfold BIG in H. lia.
  - cbn. lia.
Qed.
Lemma round_Z z : - BIG <= z <= BIG -> round radix2 fexp64 (round_mode mode_NE) (IZR z) = IZR z.
Proof. intros H. apply round_generic; [exact _|]. apply format_Z; exact H. Qed.
Lemma small_Z z : - BIG <= z <= BIG -> Rlt_bool (Rabs (IZR z)) (bpow radix2 emax64) = true.
Proof.
  intros H. apply Rlt_bool_true. rewrite <- abs_IZR.
  apply Rle_lt_trans with (IZR BIG); [apply IZR_le; lia|].
  change (IZR BIG) with (bpow radix2 52). apply bpow_lt. reflexivity.
Qed.

Lemma ofZB_spec z : - BIG <= z <= BIG ->
  B2R (ofZB z) = IZR z /\ is_finite (ofZB z) = true /\ Bsign (ofZB z) = (z <? 0).
Proof.
  intros H. pose proof (binary_normalize_correct prec64 emax64 Hprec Hmax mode_NE z 0 false) as C.
  cbv zeta in C. unfold F2R in C; cbn [Fnum Fexp] in C. change (bpow radix2 0) with 1%R in C. rewrite Rmult_1_r in C.
  rewrite round_Z, small_Z in C by exact H. destruct C as (C1 & C2 & C3).
  split; [exact C1|split; [exact C2|]]. unfold ofZB. rewrite C3.
  destruct (Rcompare_spec (IZR z) 0) as [G|G|G].
  - apply lt_IZR in G. lia.
  - apply eq_IZR in G. lia.
  - apply lt_IZR in G. lia.
Qed.

(** A finite binary64 with an integer value and the right sign is that integer. *)
Lemma is_ofZ (x : b64) z : - BIG <= z <= BIG -> is_finite x = true -> B2R x = IZR z -> Bsign x = (z <? 0) ->
  B2SF x = f64_of_Z z.
Proof.
  intros H F V S. destruct (ofZB_spec z H) as (V' & F' & S').
  rewrite f64_of_Z_B. f_equal. apply B2R_Bsign_inj; congruence.
Qed.

Lemma Rcompare_sgn z (b : bool) : (z = 0 -> b = false) ->
  match Rcompare (IZR z) 0 with Eq => b | Lt => true | Gt => false end = (z <? 0).
Proof.
  intros Hb. destruct (Rcompare_spec (IZR z) 0) as [G|G|G].
  - apply lt_IZR in G. lia.
  - apply eq_IZR in G. rewrite Hb by lia. lia.
  - apply lt_IZR in G. lia.
Qed.

Lemma f64_add a b : - BIG <= a <= BIG -> - BIG <= b <= BIG -> - BIG <= a + b <= BIG ->
  SFadd prec64 emax64 (f64_of_Z a) (f64_of_Z b) = f64_of_Z (a + b).
Proof.
  intros Ha Hb Hab. destruct (ofZB_spec a Ha) as (Va & Fa & Sa), (ofZB_spec b Hb) as (Vb & Fb & Sb).
  rewrite !(f64_of_Z_B a), !(f64_of_Z_B b), SFadd_B.
  pose proof (Bplus_correct prec64 emax64 Hprec Hmax mode_NE _ _ Fa Fb) as C.
  rewrite Va, Vb, <- plus_IZR, round_Z, small_Z in C by exact Hab. destruct C as (C1 & C2 & C3).
  apply is_ofZ; try assumption. rewrite C3, Sa, Sb. apply Rcompare_sgn. lia.
Qed.
Lemma f64_sub a b : - BIG <= a <= BIG -> - BIG <= b <= BIG -> - BIG <= a - b <= BIG ->
  SFsub prec64 emax64 (f64_of_Z a) (f64_of_Z b) = f64_of_Z (a - b).
Proof.
  intros Ha Hb Hab. destruct (ofZB_spec a Ha) as (Va & Fa & Sa), (ofZB_spec b Hb) as (Vb & Fb & Sb).
  rewrite !(f64_of_Z_B a), !(f64_of_Z_B b), SFsub_B.
  pose proof (Bminus_correct prec64 emax64 Hprec Hmax mode_NE _ _ Fa Fb) as C.
  rewrite Va, Vb, <- minus_IZR, round_Z, small_Z in C by exact Hab. destruct C as (C1 & C2 & C3).
  apply is_ofZ; try assumption. rewrite C3, Sa, Sb. apply Rcompare_sgn. lia.
Qed.
Lemma f64_mul a b : 0 <= a <= BIG -> 0 <= b <= BIG -> a * b <= BIG ->
  SFmul prec64 emax64 (f64_of_Z a) (f64_of_Z b) = f64_of_Z (a * b).
Proof.
  intros Ha Hb Hab. destruct (ofZB_spec a ltac:(unfold BIG in *; lia)) as (Va & Fa & Sa), (ofZB_spec b ltac:(unfold BIG in *; lia)) as (Vb & Fb & Sb).
  assert (Hab' : - BIG <= a * b <= BIG) by (unfold BIG in *; nia).
  rewrite !(f64_of_Z_B a), !(f64_of_Z_B b), SFmul_B.
  pose proof (Bmult_correct prec64 emax64 Hprec Hmax mode_NE (ofZB a) (ofZB b)) as C.
  rewrite Va, Vb, <- mult_IZR, round_Z, small_Z in C by exact Hab'. destruct C as (C1 & C2 & C3).
  rewrite Fa, Fb in C2. apply is_ofZ; try assumption.
  rewrite C3, Sa, Sb.
  - replace (a <? 0) with false by lia. replace (b <? 0) with false by lia. cbn. nia.
  - destruct (Bmult mode_NE (ofZB a) (ofZB b)); try reflexivity; discriminate.
Qed.

Lemma f64_div a b : - BIG <= a <= BIG -> 0 < b <= BIG -> - BIG <= a * b <= BIG ->
  SFdiv prec64 emax64 (f64_of_Z (a * b)) (f64_of_Z b) = f64_of_Z a.
Proof.
  intros Ha Hb Hab. destruct (ofZB_spec (a * b) Hab) as (Va & Fa & Sa), (ofZB_spec b ltac:(unfold BIG in *; lia)) as (Vb & Fb & Sb).
  rewrite (f64_of_Z_B (a * b)), (f64_of_Z_B b), SFdiv_B.
  pose proof (Bdiv_correct prec64 emax64 Hprec Hmax mode_NE (ofZB (a * b)) (ofZB b)) as C.
  assert (Nb : IZR b <> 0%R) by (apply IZR_neq; lia).
  rewrite Va, Vb in C. replace (IZR (a * b) / IZR b)%R with (IZR a) in C by (rewrite mult_IZR; field; exact Nb).
  rewrite round_Z, small_Z in C by exact Ha. destruct (C Nb) as (C1 & C2 & C3).
  rewrite Fa in C2. apply is_ofZ; try assumption.
  rewrite C3, Sa, Sb.
  - replace (b <? 0) with false by lia. rewrite xorb_false_r. destruct (a <? 0) eqn:E; nia.
  - destruct (Bdiv mode_NE (ofZB (a * b)) (ofZB b)); try reflexivity; discriminate.
Qed.
Lemma f64_opp a : 0 < a <= BIG -> SFopp (f64_of_Z a) = f64_of_Z (- a).
Proof.
  intros Ha. destruct a as [|p|p]; try lia. cbn [Z.opp]. unfold f64_of_Z, SpecFloat.binary_normalize.
  unfold SpecFloat.binary_round.
  match goal with |- context [let '(mz, ez) := ?a in _] => destruct a as [m e] end.
  unfold SpecFloat.binary_round_aux.
  do 2 match goal with |- context [let '(mz, ez) := ?a in _] => destruct a as [? ?] end.
  match goal with |- context [match shr_m ?a with _ => _ end] => destruct (shr_m a); try reflexivity end.
  match goal with |- context [if ?a then _ else _] => destruct a; reflexivity end.
Qed.
Lemma f64_comm x y : SFadd prec64 emax64 x y = SFadd prec64 emax64 y x.
Proof.
  destruct x as [[|]|[|]| |sx mx ex], y as [[|]|[|]| |sy my ey]; try reflexivity.
  cbn [SFadd]. rewrite (Z.min_comm ex ey), Z.add_comm. reflexivity.
Qed.

Lemma f64_cmp a b (Ha : - BIG <= a <= BIG) (Hb : - BIG <= b <= BIG) :
  SFltb (f64_of_Z a) (f64_of_Z b) = (a <? b) /\ SFleb (f64_of_Z a) (f64_of_Z b) = (a <=? b) /\
  SFeqb (f64_of_Z a) (f64_of_Z b) = (a =? b).
Proof.
  destruct (ofZB_spec a Ha) as (Va & Fa & Sa), (ofZB_spec b Hb) as (Vb & Fb & Sb).
  rewrite !(f64_of_Z_B a), !(f64_of_Z_B b).
  pose proof (Bltb_correct prec64 emax64 _ _ Fa Fb) as C1.
  pose proof (Bleb_correct prec64 emax64 _ _ Fa Fb) as C2.
  pose proof (Beqb_correct prec64 emax64 _ _ Fa Fb) as C3.
  unfold Bltb, Bleb, Beqb in *. rewrite C1, C2, C3, Va, Vb. clear. repeat split.
  - destruct (Rlt_bool_spec (IZR a) (IZR b)) as [G|G]; [apply lt_IZR in G|apply le_IZR in G]; lia.
  - destruct (Rle_bool_spec (IZR a) (IZR b)) as [G|G]; [apply le_IZR in G|apply lt_IZR in G]; lia.
  - destruct (Req_bool_spec (IZR a) (IZR b)) as [G|G]; [apply eq_IZR in G; lia|].
    destruct (a =? b) eqn:E; [|reflexivity]. exfalso; apply G; f_equal; lia.
Qed.

Lemma trunc_val (s : bool) m e :
  (let a := if 0 <=? e then Zpos m * 2 ^ e else Zpos m / 2 ^ (- e) in if s then - a else a)
  = Ztrunc (F2R (Float radix2 (cond_Zopp s (Zpos m)) e)).
Proof.
  rewrite F2R_cond_Zopp.
  assert (P : (0 <= F2R (Float radix2 (Zpos m) e))%R) by (apply F2R_ge_0; cbn; lia).
  assert (E : (if 0 <=? e then Zpos m * 2 ^ e else Zpos m / 2 ^ (- e)) = Ztrunc (F2R (Float radix2 (Zpos m) e))).
  { rewrite Ztrunc_floor by exact P. unfold F2R; cbn [Fnum Fexp].
    destruct (0 <=? e) eqn:Ee.
    - rewrite <- IZR_Zpower by lia. rewrite <- mult_IZR, Zfloor_IZR. reflexivity.
    - replace (bpow radix2 e) with (/ IZR (Zpower radix2 (- e)))%R
        by (rewrite IZR_Zpower by lia; rewrite <- bpow_opp; f_equal; lia).
      fold (Rdiv (IZR (Z.pos m)) (IZR (Zpower radix2 (- e)))).
      rewrite Zfloor_div; [reflexivity|]. pose proof (Z.pow_pos_nonneg 2 (- e) ltac:(lia) ltac:(lia)).
      change (radix_val radix2) with 2. lia. }
  cbv zeta. rewrite E. destruct s; cbn [cond_Ropp]; [rewrite Ztrunc_opp|]; reflexivity.
Qed.

Lemma f64_to_int_val (x : b64) n :
  f64_to_int (B2SF x) = Some n <-> (is_finite x = true /\ n = Ztrunc (B2R x) /\ INT_MIN <= n <= INT_MAX).
Proof.
  unfold f64_to_int. rewrite valid_binary_B2SF. cbn [negb].
  destruct x as [s|s| |s m e B]; cbn [B2SF is_finite B2R].
  - rewrite Ztrunc_IZR. split; [intros E; injection E as <-; repeat split; unfold INT_MIN, INT_MAX; lia|intros (_ & -> & _); reflexivity].
  - split; [discriminate|intros (? & _); discriminate].
  - split; [discriminate|intros (? & _); discriminate].
  - rewrite <- trunc_val. cbv zeta.
    match goal with |- context[INT_MIN <=? ?w] => set (v := w) end.
    destruct ((INT_MIN <=? v) && (v <=? INT_MAX)) eqn:Ev.
    + split; [intros E; injection E as <-; repeat split; lia|intros (_ & -> & _); reflexivity].
    + split; [discriminate|]. intros (_ & -> & H). lia.
Qed.

Lemma Ztrunc_lt v k : 1 <= k -> (v < IZR k)%R <-> Ztrunc v < k.
Proof.
  intros Hk. destruct (Rle_or_lt 0 v) as [P|N].
  - rewrite Ztrunc_floor by exact P. pose proof (Zfloor_lb v). pose proof (Zfloor_ub v). split; intros G.
    + apply lt_IZR. lra.
    + assert (IZR (Zfloor v + 1) <= IZR k)%R by (apply IZR_le; lia). rewrite plus_IZR in *. lra.
  - assert (IZR 1 <= IZR k)%R by (apply IZR_le; lia). split; intros G; [|lra].
    rewrite Ztrunc_ceil by lra. assert (Zceil v <= 0) by (apply Zceil_glb; cbn; lra). lia.
Qed.

Lemma Ztrunc_ge1 v : 1 <= Ztrunc v -> Ztrunc v = Zfloor v /\ (1 <= v)%R.
Proof.
  intros H. destruct (Rle_or_lt 1 v) as [P|N].
  - split; [apply Ztrunc_floor; lra|exact P].
  - apply (Ztrunc_lt v 1) in N; lia.
Qed.
Lemma format_pred v : generic_format radix2 fexp64 v -> (1 <= v < IZR BIG)%R -> generic_format radix2 fexp64 (v - 1).
Proof.
  intros Hv [H1 H2]. pose proof Hv as Hg. change fexp64 with (FLT_exp (SpecFloat.emin prec64 emax64) prec64) in Hv.
  apply FLT_format_generic in Hv; [|reflexivity]. destruct Hv as [[m e] Ev Hm He]. cbn [Fnum Fexp] in Hm, He.
  unfold F2R in Ev; cbn [Fnum Fexp] in Ev.
  assert (Hpos : 0 < m).
  { apply lt_IZR. apply Rmult_lt_reg_r with (bpow radix2 e); [apply bpow_gt_0|]. lra. }
  destruct (Z.le_gt_cases 0 e) as [L|L].
  - rewrite <- IZR_Zpower in Ev by exact L. rewrite <- mult_IZR in Ev. rewrite Ev in *.
    apply le_IZR in H1. apply lt_IZR in H2. rewrite <- minus_IZR. apply format_Z. unfold BIG in *. lia.
  - change fexp64 with (FLT_exp (SpecFloat.emin prec64 emax64) prec64). apply generic_format_FLT.
    exists (Float radix2 (m - Zpower radix2 (- e)) e); cbn [Fnum Fexp]; [|  |exact He].
    + unfold F2R; cbn [Fnum Fexp]. rewrite minus_IZR, IZR_Zpower by lia. rewrite Rmult_minus_distr_r, <- bpow_plus.
      replace (- e + e) with 0 by lia. change (bpow radix2 0) with 1%R. lra.
    + assert (Zpower radix2 (- e) <= m).
      { apply le_IZR. rewrite IZR_Zpower by lia. apply Rmult_le_reg_r with (bpow radix2 e); [apply bpow_gt_0|].
        rewrite <- bpow_plus. replace (- e + e) with 0 by lia. change (bpow radix2 0) with 1%R. lra. }
      assert (0 <= Zpower radix2 (- e)) by (apply Zpower_ge_0). lia.
Qed.

#[global] Instance F64_laws lm pw : IntLaws (F64 lm pw).
Proof.
  constructor; cbn [F64 T of_Z fadd fsub fmul fdiv fopp flt fle feq to_int].
  - intros x n. unfold f64_to_int. destruct (negb _); [discriminate|].
    destruct x as [s|s| |s m e]; try discriminate.
    + intros E; injection E as <-; unfold INT_MIN, INT_MAX; lia.
    + cbv zeta. match goal with |- context[INT_MIN <=? ?w] => set (v := w) end. destruct ((INT_MIN <=? v) && (v <=? INT_MAX)) eqn:Ev; [|discriminate].
      intros E; injection E as <-. lia.
  - intros n Hn. destruct (ofZB_spec n) as (V & F & S); [unfold INT_MIN, INT_MAX, BIG in *; lia|].
    rewrite f64_of_Z_B. apply f64_to_int_val. rewrite V, Ztrunc_IZR. auto.
  - intros a b Ha Hb. apply (f64_cmp a b Ha Hb).
  - intros a b Ha Hb. apply (f64_cmp a b Ha Hb).
  - intros a b Ha Hb. apply (f64_cmp a b Ha Hb).
  - exact f64_add.
  - exact f64_sub.
  - exact f64_mul.
  - exact f64_div.
  - exact f64_opp.
  - exact f64_comm.
  - intros x n k Hx Hk.
    assert (V : valid_binary prec64 emax64 x = true).
    { unfold f64_to_int in Hx. destruct (valid_binary prec64 emax64 x); [reflexivity|discriminate]. }
    rewrite <- (B2SF_SF2B prec64 emax64 x V) in Hx |- *. apply f64_to_int_val in Hx. destruct Hx as (F & En & _).
    destruct (ofZB_spec k) as (Vk & Fk & Sk); [unfold INT_MAX, BIG in *; lia|].
    rewrite f64_of_Z_B.
    pose proof (Bltb_correct prec64 emax64 _ _ F Fk) as C. unfold Bltb in C. rewrite C, Vk.
    destruct (Rlt_bool_spec (B2R (SF2B (prec:=prec64) (emax:=emax64) x V)) (IZR k)) as [G|G].
    + apply Ztrunc_lt in G; [|lia]. lia.
    + destruct (n <? k) eqn:E; [|reflexivity]. exfalso.
      assert (B2R (SF2B (prec:=prec64) (emax:=emax64) x V) < IZR k)%R by (apply Ztrunc_lt; lia). lra.
  - intros x n k Hx Hn Hk.
    assert (V : valid_binary prec64 emax64 x = true).
    { unfold f64_to_int in Hx. destruct (valid_binary prec64 emax64 x); [reflexivity|discriminate]. }
    rewrite <- (B2SF_SF2B prec64 emax64 x V) in Hx |- *. apply f64_to_int_val in Hx. destruct Hx as (F & En & _).
    destruct (ofZB_spec k) as (Vk & Fk & Sk); [unfold INT_MAX, BIG in *; lia|].
    rewrite f64_of_Z_B.
    pose proof (Bleb_correct prec64 emax64 _ _ Fk F) as C. unfold Bleb in C. rewrite C, Vk.
    rewrite En in Hn. destruct (Ztrunc_ge1 _ Hn) as [Ef H1]. rewrite En, Ef.
    pose proof (Zfloor_lb (B2R (SF2B (prec:=prec64) (emax:=emax64) x V))). pose proof (Zfloor_ub (B2R (SF2B (prec:=prec64) (emax:=emax64) x V))).
    destruct (Rle_bool_spec (IZR k) (B2R (SF2B (prec:=prec64) (emax:=emax64) x V))) as [G|G].
    + apply Zfloor_lub in G. lia.
    + destruct (k <=? Zfloor (B2R (SF2B (prec:=prec64) (emax:=emax64) x V))) eqn:E; [|reflexivity].
      exfalso. apply Z.leb_le in E. apply IZR_le in E. lra.
  - intros x n Hx Hn.
    assert (V : valid_binary prec64 emax64 x = true).
    { unfold f64_to_int in Hx. destruct (valid_binary prec64 emax64 x); [reflexivity|discriminate]. }
    rewrite <- (B2SF_SF2B prec64 emax64 x V) in Hx |- *. apply f64_to_int_val in Hx.
    set (y := SF2B (prec:=prec64) (emax:=emax64) x V) in *. destruct Hx as (F & En & Hr).
    rewrite En in Hn. destruct (Ztrunc_ge1 _ Hn) as [Ef H1].
    destruct (ofZB_spec 1) as (V1 & F1 & _); [unfold BIG; lia|].
    rewrite f64_of_Z_B, SFsub_B. apply f64_to_int_val.
    pose proof (Bminus_correct prec64 emax64 Hprec Hmax mode_NE _ _ F F1) as C. rewrite V1 in C.
    pose proof (Zfloor_lb (B2R y)) as L1. pose proof (Zfloor_ub (B2R y)) as L2.
    assert (Hb : (B2R y < IZR BIG)%R).
    { apply Rlt_le_trans with (1 := L2). rewrite <- plus_IZR. apply IZR_le. rewrite <- Ef, <- En. unfold INT_MAX, BIG in *; lia. }
    assert (Fm : generic_format radix2 fexp64 (B2R y - 1)) by (apply format_pred; [apply generic_format_B2R|lra]).
    rewrite (round_generic radix2 fexp64 (round_mode mode_NE) _ Fm) in C.
    rewrite Rlt_bool_true in C.
    2:{ rewrite Rabs_pos_eq by lra. apply Rlt_trans with (IZR BIG); [lra|].
        change (IZR BIG) with (bpow radix2 52). apply bpow_lt. reflexivity. }
    destruct C as (C1 & C2 & _). split; [exact C2|]. rewrite C1.
    assert (Et : Ztrunc (B2R y - 1) = Zfloor (B2R y) - 1).
    { rewrite Ztrunc_floor by lra. apply Zfloor_imp. rewrite plus_IZR, minus_IZR. lra. }
    rewrite Et, <- Ef, <- En. split; [reflexivity|]. unfold INT_MIN, INT_MAX in *. lia.
  - intros x a b Ha Hb Hab H. destruct (f64_cmp a b Ha Hb) as (_ & Hle & _).
    assert (Na : not_nan (f64_of_Z a)) by (intros E; rewrite E in H; unfold SFltb in H; destruct x; discriminate).
    assert (Nb : not_nan (f64_of_Z b)).
    { intros E; rewrite E in Hle. unfold SFleb in Hle. destruct (f64_of_Z a); cbn in Hle; lia. }
    assert (Nx : not_nan x) by (intros E; rewrite E in H; discriminate).
    rewrite SFltb_negb in H |- * by assumption.
    assert (Hle' : SFleb (f64_of_Z a) (f64_of_Z b) = true) by (rewrite Hle; lia).
    destruct (SFleb (f64_of_Z b) x) eqn:E; [|reflexivity]. exfalso.
    apply SFleb_key in Hle', E; try assumption.
    assert (G : SFleb (f64_of_Z a) x = true) by (apply SFleb_key; try assumption; unfold key_le in *; lia).
    rewrite G in H. discriminate.
Qed.

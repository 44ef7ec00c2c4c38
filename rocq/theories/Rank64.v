(** The laws used by the ranking indicators, for the reals and for binary64. *)
From Verif Require Import C_stream8 RArith F64Laws Properties_stream3.
From Coq Require Import Floats.SpecFloat ZifyBool Reals Lra.
From Flocq Require Import Core.Core IEEE754.BinarySingleNaN.
#[local] Open Scope Z_scope.
#[local] Existing Instance Hprec.
#[local] Existing Instance Hmax.

(** ** The reals *)
Lemma RA_rank : RankLaws RA (fun _ => True) (fun x => x).
Proof.
  constructor; [exact RA_ord|]. intros x y _ _. cbn. split.
  - intros [H1 H2]. destruct (Rleb_spec x y), (Rleb_spec y x); try discriminate. lra.
  - intros ->. destruct (Rleb_spec y y); [split; reflexivity|lra].
Qed.
Lemma half_floor v : 1 <= Zfloor v -> Zfloor (v / 2) = Zfloor v / 2.
Proof.
  intros H. apply Zfloor_imp. pose proof (Zfloor_lb v). pose proof (Zfloor_ub v). set (n := Zfloor v) in *.
  pose proof (Z.div_mod n 2 ltac:(lia)) as D. pose proof (Z.mod_pos_bound n 2 ltac:(lia)) as B.
  assert (L : (IZR (2 * (n / 2)) <= IZR n)%R) by (apply IZR_le; lia). rewrite mult_IZR in L.
  assert (U : (IZR n + 1 <= IZR (2 * (n / 2) + 2))%R) by (rewrite <- plus_IZR; apply IZR_le; lia). rewrite plus_IZR, mult_IZR in U.
  rewrite plus_IZR. lra.
Qed.

(** ** Binary64 *)
(** a double that is neither NaN nor infinite *)
Definition finite64 (x : spec_float) : Prop := valid_binary prec64 emax64 x = true /\ match x with S754_zero _ | S754_finite _ _ _ => True | _ => False end.
Definition key64 (x : spec_float) : spec_float := match x with S754_zero _ => S754_zero false | _ => x end.
Lemma not_nan_rank lm pw : RankLaws (F64 lm pw) not_nan key64.
Proof.
  constructor; [apply F64_ord|]. intros x y Hx Hy. cbn [F64 fle]. rewrite !SFleb_key by assumption. split.
  - unfold key_le, keyc, keye, keym, not_nan in *. intros [H1 H2].
    destruct x as [[]|[]| |[] mx ex]; try congruence; destruct y as [[]|[]| |[] my ey]; try congruence; try lia; try reflexivity.
    + assert (mx = my /\ ex = ey) as [-> ->] by lia. reflexivity.
    + assert (mx = my /\ ex = ey) as [-> ->] by lia. reflexivity.
  - unfold not_nan in *. intros E.
    destruct x as [[]|[]| |[] mx ex]; try congruence; destruct y as [[]|[]| |[] my ey]; try congruence; cbn [key64] in E; try discriminate; try injection E as -> ->; unfold key_le; cbn; lia.
Qed.
Lemma RankLaws_sub {A : Arith} (g g' : T -> Prop) key : (forall x, g' x -> g x) -> RankLaws A g key -> RankLaws A g' key.
Proof. intros H [[O1 O2 O3 O4] K]. constructor; [constructor|]; intros; eauto. Qed.
Lemma finite_not_nan x : finite64 x -> not_nan x. Proof. intros [_ H] ->. exact H. Qed.
Lemma finite_rank lm pw : RankLaws (F64 lm pw) finite64 key64.
Proof. eapply RankLaws_sub; [exact finite_not_nan|apply not_nan_rank]. Qed.
(** without the negative zero the key is the value itself *)
Lemma plain_rank lm pw (g : spec_float -> Prop) : (forall x, g x -> plain x) -> RankLaws (F64 lm pw) g (fun x => x).
Proof.
  intros Hg. apply (@RankLaws_sub (F64 lm pw) plain g); [exact Hg|]. constructor; [apply plain_laws|]. intros x y Hx Hy. split.
  - intros [H1 H2]. apply (anti_eq _ _ (plain_laws lm pw)); assumption.
  - intros ->. destruct (plain_laws lm pw) as [[]]. auto.
Qed.
Lemma finite_dev lm pw x y : finite64 x -> finite64 y -> not_nan (@fabs (F64 lm pw) (@fsub (F64 lm pw) x y)).
Proof.
  intros [Vx Fx] [Vy Fy]. cbn [F64 fabs fsub]. rewrite <- (B2SF_SF2B prec64 emax64 x Vx), <- (B2SF_SF2B prec64 emax64 y Vy). rewrite SFsub_B.
  set (a := SF2B x Vx). set (b := SF2B y Vy).
  assert (Fa : is_finite a = true) by (unfold a; destruct x; try contradiction; reflexivity).
  assert (Fb : is_finite b = true) by (unfold b; destruct y; try contradiction; reflexivity).
  pose proof (Bminus_correct prec64 emax64 Hprec Hmax mode_NE _ _ Fa Fb) as C. destruct (Rlt_bool _ _).
  - destruct C as (_ & C & _). destruct (Bminus mode_NE a b); try discriminate; intros E; discriminate.
  - destruct C as (C & _). destruct (Bminus mode_NE a b); try discriminate; intros E; discriminate.
Qed.

Lemma format_half v : generic_format radix2 fexp64 v -> (1 <= v)%R -> generic_format radix2 fexp64 (v / 2).
Proof.
  intros Hv H1. change fexp64 with (FLT_exp (SpecFloat.emin prec64 emax64) prec64) in *.
  apply FLT_format_generic in Hv; [|reflexivity]. destruct Hv as [[m e] Ev Hm He]. cbn [Fnum Fexp] in Hm, He.
  apply generic_format_FLT. exists (Float radix2 m (e - 1)); cbn [Fnum Fexp]; [|exact Hm|].
  - rewrite Ev. unfold F2R; cbn [Fnum Fexp]. unfold Zminus. rewrite bpow_plus. cbn. lra.
  - destruct (Z.le_gt_cases (SpecFloat.emin prec64 emax64 + 1) e) as [L|L]; [lia|]. exfalso.
    unfold F2R in Ev; cbn [Fnum Fexp] in Ev.
    assert (B : (bpow radix2 e <= bpow radix2 (- 53))%R) by (apply bpow_le; unfold SpecFloat.emin, prec64, emax64 in *; lia).
    assert (M : (IZR m < bpow radix2 53)%R) by (change (bpow radix2 53) with (IZR (2 ^ 53)); apply IZR_lt; change (Zpower radix2 prec64) with (2 ^ 53) in Hm; lia).
    pose proof (bpow_gt_0 radix2 e). pose proof (bpow_gt_0 radix2 53).
    assert (E : (bpow radix2 53 * bpow radix2 (- 53) = 1)%R) by (rewrite <- bpow_plus; reflexivity).
    assert (IZR m * bpow radix2 e < bpow radix2 53 * bpow radix2 e)%R by (apply Rmult_lt_compat_r; lra).
    assert (bpow radix2 53 * bpow radix2 e <= bpow radix2 53 * bpow radix2 (- 53))%R by (apply Rmult_le_compat_l; lra). lra.
Qed.
Lemma half_F64 lm pw : HalfLaw (F64 lm pw).
Proof.
  intros x n Hx Hn. cbn [F64 to_int fdiv of_Z] in *.
  assert (V : valid_binary prec64 emax64 x = true) by (unfold f64_to_int in Hx; destruct (valid_binary prec64 emax64 x); [reflexivity|discriminate]).
  rewrite <- (B2SF_SF2B prec64 emax64 x V) in Hx |- *. apply f64_to_int_val in Hx.
  set (y := SF2B (prec:=prec64) (emax:=emax64) x V) in *. destruct Hx as (F & En & Hr).
  rewrite En in Hn. destruct (Ztrunc_ge1 _ Hn) as [Ef H1].
  destruct (ofZB_spec 2) as (V1 & F1 & _); [unfold BIG; lia|].
  rewrite f64_of_Z_B, SFdiv_B. apply f64_to_int_val.
  pose proof (Bdiv_correct prec64 emax64 Hprec Hmax mode_NE y (ofZB 2)) as C. rewrite V1 in C. specialize (C ltac:(lra)).
  pose proof (Zfloor_lb (B2R y)) as L1. pose proof (Zfloor_ub (B2R y)) as L2.
  assert (Hb : (B2R y < IZR BIG)%R).
  { apply Rlt_le_trans with (1 := L2). rewrite <- plus_IZR. apply IZR_le. rewrite <- Ef, <- En. unfold INT_MAX, BIG in *; lia. }
  rewrite (round_generic radix2 fexp64 (round_mode mode_NE) _ (format_half _ (generic_format_B2R _ _ y) H1)) in C.
  rewrite Rlt_bool_true in C.
  2:{ rewrite Rabs_pos_eq by lra. apply Rlt_trans with (IZR BIG); [lra|]. change (IZR BIG) with (bpow radix2 52). apply bpow_lt. reflexivity. }
  destruct C as (C1 & C2 & _). rewrite F in C2. split; [exact C2|]. rewrite C1.
  rewrite Ztrunc_floor by lra. rewrite half_floor by lia. rewrite <- Ef, <- En. split; [reflexivity|].
  assert (0 <= n / 2 <= n) by (split; [apply Z.div_pos; lia|apply Z.div_le_upper_bound; lia]). unfold INT_MIN, INT_MAX in *. lia.
Qed.
Lemma half_RA : HalfLaw RA.
Proof.
  intros x n. cbn [RA to_int fdiv of_Z]. unfold Rto_int.
  destruct ((INT_MIN <=? Rtrunc x) && (Rtrunc x <=? INT_MAX)) eqn:E; [|discriminate]. intros H; injection H as <-. intros Hn.
  pose proof (Rtrunc_pos _ Hn) as [E0 H0]. rewrite E0 in *. change (Int_part x) with (Zfloor x) in *.
  assert (Et : Rtrunc (x / 2) = Zfloor x / 2).
  { unfold Rtrunc. destruct (Rle_dec 0 (x / 2)); [|lra]. change (Int_part (x / 2)) with (Zfloor (x / 2)). apply half_floor. lia. }
  rewrite Et. assert (0 <= Zfloor x / 2 <= Zfloor x) by (split; [apply Z.div_pos; lia|apply Z.div_le_upper_bound; lia]). unfold INT_MIN in *.
  match goal with |- (if ?b then _ else _) = _ => replace b with true by lia end. reflexivity.
Qed.

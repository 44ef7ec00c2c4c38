(** Binary64 comparison is a total order on non-NaN values. *)
From Verif Require Export F64.
From Coq Require Import Floats.SpecFloat ZifyBool.

Definition not_nan (x : spec_float) : Prop := x <> S754_nan.

(** Rank: lexicographic key (class, exponent, mantissa) as integers. *)
Definition keyc (x : spec_float) : Z :=
  match x with
  | S754_infinity true => -2 | S754_finite true _ _ => -1 | S754_zero _ => 0
  | S754_finite false _ _ => 1 | S754_infinity false => 2 | S754_nan => 3
  end.
Definition keye (x : spec_float) : Z :=
  match x with S754_finite true _ e => - e | S754_finite false _ e => e | _ => 0 end.
Definition keym (x : spec_float) : Z :=
  match x with S754_finite true m _ => Zneg m | S754_finite false m _ => Zpos m | _ => 0 end.

Definition key_le (x y : spec_float) : Prop :=
  keyc x < keyc y \/ keyc x = keyc y /\ (keye x < keye y \/ keye x = keye y /\ keym x <= keym y).

Lemma pcmp_spec p q : (p ?= q)%positive = (Zpos p ?= Zpos q).
Proof. reflexivity. Qed.

Lemma SFleb_key x y : not_nan x -> not_nan y -> SFleb x y = true <-> key_le x y.
Proof.
  unfold not_nan, key_le. intros Hx Hy.
  destruct x as [sx|sx| |sx mx ex], y as [sy|sy| |sy my ey]; try congruence;
    try destruct sx; try destruct sy; cbn; try (split; intros; (lia || congruence)).
  - destruct (Z.compare_spec ex ey); cbn; try (split; intros; (lia || congruence)).
    change (Pos.compare_cont Eq mx my) with (mx ?= my)%positive.
    destruct (Pos.compare_spec mx my); cbn; split; intros; try lia; try congruence.
  - destruct (Z.compare_spec ex ey); cbn; try (split; intros; (lia || congruence)).
    change (Pos.compare_cont Eq mx my) with (mx ?= my)%positive.
    destruct (Pos.compare_spec mx my); cbn; split; intros; try lia; try congruence.
Qed.

Lemma SFltb_negb x y : not_nan x -> not_nan y -> SFltb x y = negb (SFleb y x).
Proof.
  unfold not_nan. intros Hx Hy.
  destruct x as [sx|sx| |sx mx ex], y as [sy|sy| |sy my ey]; try congruence;
    try destruct sx; try destruct sy; try reflexivity; unfold SFltb, SFleb, SFcompare.
  - rewrite (Z.compare_antisym ex ey). destruct (ex ?= ey) eqn:E; cbn; try reflexivity.
    change (Pos.compare_cont Eq mx my) with (mx ?= my)%positive.
    change (Pos.compare_cont Eq my mx) with (my ?= mx)%positive.
    rewrite (Pos.compare_antisym mx my). destruct (mx ?= my)%positive; reflexivity.
  - rewrite (Z.compare_antisym ex ey). destruct (ex ?= ey) eqn:E; cbn; try reflexivity.
    change (Pos.compare_cont Eq mx my) with (mx ?= my)%positive.
    change (Pos.compare_cont Eq my mx) with (my ?= mx)%positive.
    rewrite (Pos.compare_antisym mx my). destruct (mx ?= my)%positive; reflexivity.
Qed.

Lemma F64_ord lm pw : OrdLaws (F64 lm pw) not_nan.
Proof.
  constructor; cbn [F64 T flt fle].
  - exact SFltb_negb.
  - intros x Hx. apply SFleb_key; try assumption. right; split; [reflexivity|]. right; split; [reflexivity|lia].
  - intros x y z Hx Hy Hz H1 H2. apply SFleb_key in H1, H2; try assumption. apply SFleb_key; try assumption.
    unfold key_le in *. lia.
  - intros x y Hx Hy. destruct (SFleb x y) eqn:E; [auto|right].
    apply SFleb_key; try assumption.
    assert (~ key_le x y) as N by (rewrite <- SFleb_key by assumption; congruence).
    unfold key_le in *. lia.
Qed.

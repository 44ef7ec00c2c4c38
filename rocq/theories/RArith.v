(** Exact arithmetic: the instance of [Arith] over the standard library's reals. *)
From Verif Require Export Arith.
From Coq Require Export Reals Lra.
From Coq Require Import ZifyBool.
#[global] Open Scope Z_scope.

Definition Rltb (x y : R) : bool := if Rlt_dec x y then true else false.
Definition Rleb (x y : R) : bool := if Rle_dec x y then true else false.
Definition Reqb (x y : R) : bool := if Req_EM_T x y then true else false.

(** Truncation towards zero. *)
Definition Rtrunc (x : R) : Z := if Rle_dec 0 x then Int_part x else - Int_part (- x).
Definition Rto_int (x : R) : option Z :=
  let n := Rtrunc x in if (INT_MIN <=? n) && (n <=? INT_MAX) then Some n else None.

Definition Rlibm (f : libm1) (x : R) : R :=
  match f with
  | Lsin => sin x | Lcos => cos x | Ltan => tan x
  | Lasin => asin x | Lacos => acos x | Latan => atan x
  | Lsinh => sinh x | Lcosh => cosh x | Ltanh => tanh x
  | Lexp => exp x | Llog => ln x | Llog10 => (ln x / ln 10)%R
  | Lfloor => IZR (Int_part x)
  | Lceil => (- IZR (Int_part (- x)))%R
  | Lround => if Rle_dec 0 x then IZR (Int_part (x + / 2)) else (- IZR (Int_part (- x + / 2)))%R
  | Ltrunc => IZR (Rtrunc x)
  end.

(** [finf] has no counterpart in the reals; no theorem about this instance is stated
    for an indicator that uses infinity. *)
#[global] Instance RA : Arith := {
  T := R;
  of_Z := IZR;
  lit := fun m k => (IZR m / IZR (10 ^ k))%R;
  fadd := Rplus; fsub := Rminus; fmul := Rmult; fdiv := Rdiv; fopp := Ropp;
  fabs := Rabs; fsqrt := sqrt;
  flt := Rltb; fle := Rleb; feq := Reqb;
  finf := 0%R;
  to_int := Rto_int;
  libm := Rlibm;
  fpow := fun x y => if Req_EM_T y 2 then (x * x)%R else Rpower x y;
}.

Lemma Rltb_spec x y : reflect (x < y)%R (Rltb x y).
Proof. unfold Rltb; destruct (Rlt_dec x y); constructor; assumption. Qed.
Lemma Rleb_spec x y : reflect (x <= y)%R (Rleb x y).
Proof. unfold Rleb; destruct (Rle_dec x y); constructor; assumption. Qed.
Lemma Reqb_spec x y : reflect (x = y)%R (Reqb x y).
Proof. unfold Reqb; destruct (Req_EM_T x y); constructor; assumption. Qed.

Lemma Int_part_IZR n : Int_part (IZR n) = n.
Proof.
  unfold Int_part. rewrite <- (up_tech (IZR n) n); [lia|lra|]. rewrite plus_IZR; lra.
Qed.

Lemma Rtrunc_IZR n : Rtrunc (IZR n) = n.
Proof.
  unfold Rtrunc. destruct (Rle_dec 0 (IZR n)).
  - apply Int_part_IZR.
  - rewrite <- opp_IZR, Int_part_IZR. lia.
Qed.

Lemma Int_part_bounds x : (IZR (Int_part x) <= x < IZR (Int_part x) + 1)%R.
Proof. pose proof (base_Int_part x) as [H1 H2]. lra. Qed.

Lemma Rtrunc_pos x : 1 <= Rtrunc x -> Rtrunc x = Int_part x /\ (1 <= x)%R.
Proof.
  unfold Rtrunc. destruct (Rle_dec 0 x) as [H0|H0]; intros Hn.
  - split; [reflexivity|]. pose proof (Int_part_bounds x) as [H1 H2]. apply IZR_le in Hn. lra.
  - pose proof (Int_part_bounds (- x)) as [H1 H2].
    assert (IZR (-1) < IZR (Int_part (- x)))%R as H3 by (cbn; lra). apply lt_IZR in H3. lia.
Qed.

#[global] Instance RA_laws : IntLaws RA.
Proof.
  constructor; cbn.
  - intros x n. unfold Rto_int. destruct ((INT_MIN <=? Rtrunc x) && (Rtrunc x <=? INT_MAX)) eqn:E; [|discriminate].
    intros H; injection H as <-. lia.
  - intros n H. unfold Rto_int. rewrite Rtrunc_IZR.
    replace ((INT_MIN <=? n) && (n <=? INT_MAX)) with true by lia. reflexivity.
  - intros a b _ _. destruct (Rltb_spec (IZR a) (IZR b)) as [H|H].
    + apply lt_IZR in H. lia.
    + destruct (a <? b) eqn:E; [|reflexivity]. exfalso; apply H, IZR_lt; lia.
  - intros a b _ _. destruct (Rleb_spec (IZR a) (IZR b)) as [H|H].
    + apply le_IZR in H. lia.
    + destruct (a <=? b) eqn:E; [|reflexivity]. exfalso; apply H, IZR_le; lia.
  - intros a b _ _. destruct (Reqb_spec (IZR a) (IZR b)) as [H|H].
    + apply eq_IZR in H. lia.
    + destruct (a =? b) eqn:E; [|reflexivity]. exfalso; apply H; f_equal; lia.
  - intros; symmetry; apply plus_IZR.
  - intros; symmetry; apply minus_IZR.
  - intros; symmetry; apply mult_IZR.
  - intros a b _ Hb _. rewrite mult_IZR. field. apply IZR_neq; lia.
  - intros a _. symmetry; apply opp_IZR.
  - intros; apply Rplus_comm.
  - intros x n k. unfold Rto_int.
    destruct ((INT_MIN <=? Rtrunc x) && (Rtrunc x <=? INT_MAX)); [|discriminate].
    intros H; injection H as <-. intros Hk.
    unfold Rtrunc. destruct (Rle_dec 0 x) as [H0|H0].
    + pose proof (Int_part_bounds x) as [H1 H2].
      destruct (Rltb_spec x (IZR k)) as [H|H].
      * assert (IZR (Int_part x) < IZR k)%R as H3 by lra. apply lt_IZR in H3. lia.
      * assert (IZR k < IZR (Int_part x + 1))%R as H3 by (rewrite plus_IZR; lra).
        apply lt_IZR in H3. lia.
    + pose proof (Int_part_bounds (- x)) as [H1 H2].
      assert (IZR (-1) < IZR (Int_part (- x)))%R as H3 by (cbn; lra). apply lt_IZR in H3.
      destruct (Rltb_spec x (IZR k)) as [H|H]; [lia|].
      exfalso. apply H. assert (1 <= IZR k)%R by (apply IZR_le; lia). lra.
  - intros x n k. unfold Rto_int.
    destruct ((INT_MIN <=? Rtrunc x) && (Rtrunc x <=? INT_MAX)); [|discriminate].
    intros H; injection H as <-. intros Hn Hk. apply Rtrunc_pos in Hn as [E0 H0]. rewrite E0.
    pose proof (Int_part_bounds x) as [H1 H2].
    destruct (Rleb_spec (IZR k) x) as [H|H].
    + assert (IZR k < IZR (Int_part x + 1))%R as H3 by (rewrite plus_IZR; lra). apply lt_IZR in H3. lia.
    + assert (IZR (Int_part x) < IZR k)%R as H3 by lra. apply lt_IZR in H3. lia.
  - intros x n. unfold Rto_int.
    destruct ((INT_MIN <=? Rtrunc x) && (Rtrunc x <=? INT_MAX)) eqn:E; [|discriminate].
    intros H; injection H as <-. intros Hn. pose proof (Rtrunc_pos _ Hn) as [E0 H0].
    assert (Ep : Rtrunc (x - 1) = Rtrunc x - 1).
    { rewrite E0. unfold Rtrunc. destruct (Rle_dec 0 (x - 1)); [|lra].
      pose proof (Int_part_bounds x) as [H1 H2]. pose proof (Int_part_bounds (x - 1)) as [H3 H4].
      assert (IZR (Int_part (x - 1)) < IZR (Int_part x))%R as G1 by lra. apply lt_IZR in G1.
      assert (IZR (Int_part x - 1) < IZR (Int_part (x - 1) + 1))%R as G2 by (rewrite plus_IZR, minus_IZR; lra). apply lt_IZR in G2. lia. }
    rewrite Ep. unfold INT_MIN in *.
    match goal with |- (if ?b then _ else _) = _ => replace b with true by lia end. reflexivity.
  - intros x a b _ _ Hab. destruct (Rltb_spec x (IZR a)), (Rltb_spec x (IZR b)); try discriminate; try reflexivity.
    apply IZR_le in Hab. lra.
Qed.

Lemma RA_ord : OrdLaws RA (fun _ => True).
Proof.
  constructor; cbn.
  - intros x y _ _. destruct (Rltb_spec x y), (Rleb_spec y x); cbn; try reflexivity; lra.
  - intros x _. destruct (Rleb_spec x x); [reflexivity|lra].
  - intros x y z _ _ _. destruct (Rleb_spec x y), (Rleb_spec y z), (Rleb_spec x z); try discriminate; try reflexivity; lra.
  - intros x y _ _. destruct (Rleb_spec x y), (Rleb_spec y x); auto; lra.
Qed.

(** Exact arithmetic with the infinities and NaN of IEEE 754: real numbers without rounding and with a single
    zero.  For the indicators that start a search for an extreme at an infinity. *)
From Verif Require Export RArith C_stream6.
From Coq Require Import ZifyBool.
#[global] Open Scope Z_scope.

Inductive xr := Fin (r : R) | PInf | MInf | NaN.

Definition xopp (a : xr) : xr := match a with Fin r => Fin (- r) | PInf => MInf | MInf => PInf | NaN => NaN end.
Definition xadd (a b : xr) : xr :=
  match a, b with
  | Fin r, Fin s => Fin (r + s)
  | NaN, _ | _, NaN => NaN
  | PInf, MInf | MInf, PInf => NaN
  | PInf, _ | _, PInf => PInf
  | MInf, _ | _, MInf => MInf
  end.
(** An infinity with the sign of [r]; NaN for 0. *)
Definition xsign (r : R) : xr := if Rltb 0 r then PInf else if Rltb r 0 then MInf else NaN.
Definition xneg (r : xr) : R := match r with Fin r => r | PInf => 1 | MInf => -1 | NaN => 0 end.
Definition xmul (a b : xr) : xr :=
  match a, b with
  | Fin r, Fin s => Fin (r * s)
  | NaN, _ | _, NaN => NaN
  | _, _ => xsign (xneg a * xneg b)
  end.
Definition xdiv (a b : xr) : xr :=
  match a, b with
  | Fin r, Fin s => if Reqb s 0 then xsign r else Fin (r / s)
  | NaN, _ | _, NaN => NaN
  | Fin _, _ => Fin 0
  | _, Fin s => if Rltb s 0 then xopp a else a
  | _, _ => NaN
  end.
Definition xle (a b : xr) : bool :=
  match a, b with
  | Fin r, Fin s => Rleb r s
  | NaN, _ | _, NaN => false
  | MInf, _ | _, PInf => true
  | _, _ => false
  end.
Definition xlt (a b : xr) : bool :=
  match a, b with
  | Fin r, Fin s => Rltb r s
  | NaN, _ | _, NaN => false
  | PInf, _ | _, MInf => false
  | _, _ => true
  end.
Definition xeq (a b : xr) : bool :=
  match a, b with Fin r, Fin s => Reqb r s | PInf, PInf | MInf, MInf => true | _, _ => false end.
(** The library functions: on the reals where defined, else NaN, also for infinite arguments.  log 0 is minus infinity. *)
Definition xlibm (f : libm1) (a : xr) : xr :=
  match a with
  | Fin r =>
    match f with
    | Llog | Llog10 => if Rltb 0 r then Fin (Rlibm f r) else if Reqb r 0 then MInf else NaN
    | Lasin | Lacos => if Rleb (Rabs r) 1 then Fin (Rlibm f r) else NaN
    | _ => Fin (Rlibm f r)
    end
  | _ => NaN
  end.

#[global] Instance XR : Arith := {
  T := xr;
  of_Z := fun z => Fin (IZR z);
  lit := fun m k => Fin (IZR m / IZR (10 ^ k));
  fadd := xadd; fsub := fun a b => xadd a (xopp b); fmul := xmul; fdiv := xdiv; fopp := xopp;
  fabs := fun a => match a with Fin r => Fin (Rabs r) | MInf => PInf | _ => a end;
  fsqrt := fun a => match a with Fin r => if Rltb r 0 then NaN else Fin (sqrt r) | PInf => PInf | _ => NaN end;
  flt := xlt; fle := xle; feq := xeq;
  finf := PInf;
  to_int := fun a => match a with Fin r => Rto_int r | _ => None end;
  libm := xlibm;
  fpow := fun a b => match a, b with Fin r, Fin s => Fin (@fpow RA r s) | _, _ => NaN end;
}.

#[global] Instance XR_laws : IntLaws XR.
Proof.
  constructor.
  - intros x n. destruct x; try discriminate. apply (@to_int_range RA RA_laws).
  - intros n H. apply (@to_int_of_Z RA RA_laws n H).
  - intros a b Ha Hb. apply (@flt_of_Z RA RA_laws); assumption.
  - intros a b Ha Hb. apply (@fle_of_Z RA RA_laws); assumption.
  - intros a b Ha Hb. apply (@feq_of_Z RA RA_laws); assumption.
  - intros a b Ha Hb Hc. cbn. f_equal. apply (@fadd_of_Z RA RA_laws a b); assumption.
  - intros a b Ha Hb Hc. cbn. f_equal. apply (@fsub_of_Z RA RA_laws a b); assumption.
  - intros a b Ha Hb Hc. cbn. f_equal. apply (@fmul_of_Z RA RA_laws a b); assumption.
  - intros a b Ha Hb Hc. cbn. destruct (Reqb_spec (IZR b) 0) as [E|E]; [apply eq_IZR in E; lia|]. f_equal. apply (@fdiv_of_Z RA RA_laws a b); assumption.
  - intros a Ha. cbn. f_equal. apply (@fopp_of_Z RA RA_laws a); assumption.
  - intros x y. destruct x, y; cbn; try reflexivity. f_equal. apply Rplus_comm.
  - intros x n k. destruct x; try discriminate. apply (@to_int_flt RA RA_laws).
  - intros x n k. destruct x; try discriminate. apply (@to_int_fle RA RA_laws).
  - intros x n. destruct x; try discriminate. cbn. apply (@to_int_pred RA RA_laws r n).
  - intros x a b. destruct x; try (cbn; intros; (reflexivity || discriminate)). apply (@flt_mono RA RA_laws).
Qed.

(** A number, neither infinite nor NaN. *)
Definition finite (a : xr) : Prop := exists r, a = Fin r.
Lemma XR_anti : AntiLaws XR finite.
Proof.
  constructor; [constructor| |].
  - intros x y [r ->] [s ->]. cbn. destruct (Rltb_spec r s), (Rleb_spec s r); (reflexivity || lra).
  - intros x [r ->]. cbn. destruct (Rleb_spec r r); (reflexivity || lra).
  - intros x y z [r ->] [s ->] [t ->]. cbn. destruct (Rleb_spec r s), (Rleb_spec s t), (Rleb_spec r t); (reflexivity || discriminate || lra).
  - intros x y [r ->] [s ->]. cbn. destruct (Rleb_spec r s), (Rleb_spec s r); try (left; reflexivity); try (right; reflexivity); lra.
  - intros x y [r ->] [s ->]. cbn. destruct (Rleb_spec r s), (Rleb_spec s r); try discriminate. intros _ _. f_equal. lra.
  - exists 0%R. reflexivity.
Qed.
Lemma XR_inf : InfLaw XR finite.
Proof. intros x [r ->]. split; reflexivity. Qed.

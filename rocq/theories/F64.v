(** Executable IEEE binary64 instance on top of the standard library's [SpecFloat]
    (a specification of floating point in plain Coq, no primitive floats, no axioms).
    The libm functions stay a parameter. *)
From Verif Require Export Arith.
From Coq Require Import Floats.SpecFloat.
#[global] Open Scope Z_scope.

Definition prec64 : Z := 53.
Definition emax64 : Z := 1024.

Definition f64_of_Z (z : Z) : spec_float := binary_normalize prec64 emax64 z 0 false.

(** (int)x.  [spec_float] also contains triples that are not doubles (mantissa or exponent
    not canonical); they never arise from the operations and are given no int value. *)
Definition f64_to_int (x : spec_float) : option Z :=
  if negb (valid_binary prec64 emax64 x) then None else
  match x with
  | S754_zero _ => Some 0
  | S754_infinity _ | S754_nan => None
  | S754_finite s m e =>
      let a := if 0 <=? e then Zpos m * 2 ^ e else Zpos m / 2 ^ (- e) in
      let n := if s then - a else a in
      if (INT_MIN <=? n) && (n <=? INT_MAX) then Some n else None
  end.

Section Instance.
Variable lm : libm1 -> spec_float -> spec_float.
Variable pw : spec_float -> spec_float -> spec_float.

Definition F64 : Arith := {|
  T := spec_float;
  of_Z := f64_of_Z;
  lit := fun m k => SFdiv prec64 emax64 (f64_of_Z m) (f64_of_Z (10 ^ k));
  fadd := SFadd prec64 emax64;
  fsub := SFsub prec64 emax64;
  fmul := SFmul prec64 emax64;
  fdiv := SFdiv prec64 emax64;
  fopp := SFopp;
  fabs := SFabs;
  fsqrt := SFsqrt prec64 emax64;
  flt := SFltb; fle := SFleb; feq := SFeqb;
  finf := S754_infinity false;
  to_int := f64_to_int;
  libm := lm;
  fpow := pw;
|}.
End Instance.

(** A concrete choice of the parameters for computed witnesses: libm functions that
    return NaN (no witness depends on them unless said so). *)
Definition F64c : Arith := F64 (fun _ _ => S754_nan) (fun _ _ => S754_nan).

Definition dbl (m k : Z) : @T F64c := SFdiv prec64 emax64 (f64_of_Z m) (f64_of_Z (10 ^ k)).

Example f64_test1 : @to_int F64c (@fadd F64c (dbl 25 1) (dbl 5 1)) = Some 3.
Proof. vm_compute. reflexivity. Qed.

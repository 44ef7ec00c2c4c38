(** The arithmetic of [TI_REAL], as a parameter of every model.

    [TI_REAL] is [double] (codegen.py:101, "typedef double TI_REAL").  The models use
    only the operations listed here, so a theorem proved for every [Arith] holds for
    IEEE binary64 with NaN and infinities included. *)
From Verif Require Export Monad.
From Coq Require Import ZifyBool.

(** libm functions of one argument used by the indicators. *)
Inductive libm1 :=
| Lsin | Lcos | Ltan | Lasin | Lacos | Latan | Lsinh | Lcosh | Ltanh
| Lexp | Llog | Llog10 | Lfloor | Lceil | Lround | Ltrunc.

Class Arith := {
  T : Type;
  of_Z : Z -> T;                  (** integer literal, or conversion of an [int] *)
  lit : Z -> Z -> T;              (** decimal literal: [lit m k] is m / 10^k *)
  fadd : T -> T -> T;
  fsub : T -> T -> T;
  fmul : T -> T -> T;
  fdiv : T -> T -> T;
  fopp : T -> T;
  fabs : T -> T;
  fsqrt : T -> T;
  flt : T -> T -> bool;           (** C [<]; false when an operand is NaN *)
  fle : T -> T -> bool;           (** C [<=] *)
  feq : T -> T -> bool;           (** C [==] *)
  finf : T;                       (** std::numeric_limits<TI_REAL>::infinity() *)
  to_int : T -> option Z;         (** (int)x; None where C++ leaves it undefined *)
  libm : libm1 -> T -> T;
  fpow : T -> T -> T;             (** pow(x, y) *)
}.

Declare Scope ar_scope.
Delimit Scope ar_scope with ar.
Infix ".+" := fadd (at level 50, left associativity).
Infix ".-" := fsub (at level 50, left associativity).
Infix ".*" := fmul (at level 40, left associativity).
Infix "./" := fdiv (at level 40, left associativity).
Infix ".<" := flt (at level 70, no associativity).
Infix ".<=" := fle (at level 70, no associativity).
Infix ".==" := feq (at level 70, no associativity).
Notation "x .> y" := (flt y x) (at level 70, no associativity, only parsing).
Notation "x .>= y" := (fle y x) (at level 70, no associativity, only parsing).
Notation "x .!= y" := (negb (feq x y)) (at level 70, no associativity, only parsing).
Notation "# z" := (of_Z z) (at level 1, format "# z").
Notation ".- x" := (fopp x) (at level 35, right associativity).

Section Derived.
Context {A : Arith}.

(** [(int)x] as an expression that may be undefined. *)
Definition cast (x : T) : res Z :=
  match to_int x with Some n => Ok n | None => Ub BadCast end.

(** utils/minmax.h:27-33, MIN and MAX macros. *)
Definition MINf (a b : T) : T := if a .< b then a else b.
Definition MAXf (a b : T) : T := if a .> b then a else b.

(** std::max(a,b) = (a < b) ? b : a;  std::min(a,b) = (b < a) ? b : a. *)
Definition stdmax (a b : T) : T := if a .< b then b else a.
Definition stdmin (a b : T) : T := if b .< a then b else a.

(** fmax: the larger operand, ignoring a NaN operand. *)
Definition fmaxf (a b : T) : T :=
  if negb (a .== a) then b else if negb (b .== b) then a else if a .< b then b else a.

Definition PI : T := libm Lacos (fopp (of_Z 1)).

(** Default used by proof-level accessors. *)
Definition f0 : T := of_Z 0.
Definition zf (l : list T) (i : Z) : T := zn f0 l i.

Lemma rd_zf l i : 0 <= i < zlen l -> rd l i = Ok (zf l i).
Proof. apply rd_ok. Qed.

Lemma wp_rdf l i (Q : T -> Prop) : 0 <= i < zlen l -> Q (zf l i) -> wp (rd l i) Q.
Proof. apply wp_rd. Qed.

Lemma wp_cast x n (Q : Z -> Prop) : to_int x = Some n -> Q n -> wp (cast x) Q.
Proof. intros E H. unfold cast. rewrite E. exact H. Qed.
End Derived.

(** Return codes, codegen.py:102. *)
Inductive code := OKAY | INVALID_OPTION | OUT_OF_MEMORY.

(** Laws relating integers and [TI_REAL]; they hold for binary64 (integers of this
    size are exact) and for the reals.  [BIG] is 2^52. *)
Definition BIG : Z := 4503599627370496.

Class IntLaws (A : Arith) := {
  to_int_range : forall x n, to_int x = Some n -> INT_MIN <= n <= INT_MAX;
  to_int_of_Z : forall n, INT_MIN <= n <= INT_MAX -> to_int (of_Z n) = Some n;
  flt_of_Z : forall a b, - BIG <= a <= BIG -> - BIG <= b <= BIG -> (#a .< #b) = (a <? b);
  fle_of_Z : forall a b, - BIG <= a <= BIG -> - BIG <= b <= BIG -> (#a .<= #b) = (a <=? b);
  feq_of_Z : forall a b, - BIG <= a <= BIG -> - BIG <= b <= BIG -> (#a .== #b) = (a =? b);
  fadd_of_Z : forall a b, - BIG <= a <= BIG -> - BIG <= b <= BIG -> - BIG <= a + b <= BIG ->
      #a .+ #b = #(a + b);
  fsub_of_Z : forall a b, - BIG <= a <= BIG -> - BIG <= b <= BIG -> - BIG <= a - b <= BIG ->
      #a .- #b = #(a - b);
  fmul_of_Z : forall a b, 0 <= a <= BIG -> 0 <= b <= BIG -> a * b <= BIG ->
      #a .* #b = #(a * b);
  fdiv_of_Z : forall a b, - BIG <= a <= BIG -> 0 < b <= BIG -> - BIG <= a * b <= BIG ->
      #(a * b) ./ #b = #a;
  fopp_of_Z : forall a, 0 < a <= BIG -> .- #a = #(- a);
  fadd_comm : forall x y, x .+ y = y .+ x;
  to_int_flt : forall x n k, to_int x = Some n -> 1 <= k <= INT_MAX -> (x .< #k) = (n <? k);
  to_int_fle : forall x n k, to_int x = Some n -> 1 <= n -> 0 <= k <= INT_MAX -> (#k .<= x) = (k <=? n);
  to_int_pred : forall x n, to_int x = Some n -> 1 <= n -> to_int (x .- #1) = Some (n - 1);
  flt_mono : forall x a b, - BIG <= a <= BIG -> - BIG <= b <= BIG -> a <= b -> (x .< #a) = true -> (x .< #b) = true;
}.

(** Total-order laws on the values that occur ([good], e.g. "not NaN"). *)
Record OrdLaws (A : Arith) (good : T -> Prop) : Prop := {
  ord_lt_le : forall x y, good x -> good y -> (x .< y) = negb (y .<= x);
  ord_refl : forall x, good x -> (x .<= x) = true;
  ord_trans : forall x y z, good x -> good y -> good z ->
      (x .<= y) = true -> (y .<= z) = true -> (x .<= z) = true;
  ord_total : forall x y, good x -> good y -> (x .<= y) = true \/ (y .<= x) = true;
}.

(** Error monad, loops and checked memory accesses.

    Nothing here transcribes a particular source file: it fixes the meaning of the
    C++ constructs (array reads, [for] loops, [int] arithmetic) used by every model. *)
From Coq Require Export ZArith List Bool Lia.
From Coq Require Import ZifyBool ZifyNat.
Export ListNotations.
#[global] Open Scope Z_scope.

(** The ways an execution can leave the defined part of the C++ language (or abort). *)
Inductive ubkind :=
| OobRead      (** read outside an array *)
| Uninit       (** use of an uninitialised value *)
| Overflow     (** signed int overflow *)
| BadCast      (** (int)x with x NaN or outside the int range *)
| DivZero      (** integer division by zero *)
| Assert       (** a failed assert() *)
| BadSize      (** negative / absurd allocation size *)
| NullPtr      (** use of a null pointer *)
| BadOrder     (** a value that `<` does not order (NaN) given to a sorting algorithm or container *)
| BadArgs.     (** wrong number of inputs or options: not an execution of the library *)

Inductive res (A : Type) :=
| Ok (a : A)
| Ub (u : ubkind).
Arguments Ok {A} _.
Arguments Ub {A} _.

Definition bind {A B} (m : res A) (k : A -> res B) : res B :=
  match m with Ok a => k a | Ub u => Ub u end.

Notation "'let*' p := m 'in' k" := (bind m (fun p => k))
  (at level 200, p pattern, m at level 100, k at level 200, right associativity).

(** [if (!c) abort();] *)
Definition check (u : ubkind) (b : bool) : res unit := if b then Ok tt else Ub u.

Definition INT_MAX : Z := 2147483647.
Definition INT_MIN : Z := -2147483648.

(** Result of an [int] expression whose mathematical value is [z]. *)
Definition ck (z : Z) : res Z :=
  if (INT_MIN <=? z) && (z <=? INT_MAX) then Ok z else Ub Overflow.

(** Length as an integer. *)
Definition zlen {A} (l : list A) : Z := Z.of_nat (length l).

(** Array read [l[i]]. *)
Definition rd {A} (l : list A) (i : Z) : res A :=
  if (0 <=? i) && (i <? zlen l)
  then match nth_error l (Z.to_nat i) with Some v => Ok v | None => Ub OobRead end
  else Ub OobRead.

(** Read of a slot that may be uninitialised. *)
Definition rdo {A} (l : list (option A)) (i : Z) : res A :=
  let* v := rd l i in
  match v with Some x => Ok x | None => Ub Uninit end.

(** In-memory array write [l[i] = v] (not used for outputs, which are append-only). *)
Fixpoint upd_nat {A} (l : list A) (n : nat) (v : A) : list A :=
  match l, n with
  | [], _ => []
  | _ :: t, O => v :: t
  | h :: t, S n => h :: upd_nat t n v
  end.
Definition upd {A} (l : list A) (i : Z) (v : A) : res (list A) :=
  if (0 <=? i) && (i <? zlen l) then Ok (upd_nat l (Z.to_nat i) v) else Ub OobRead.

(** [for (i = lo; i < lo + n; ++i) s = f(i, s);] *)
Fixpoint iter {S} (n : nat) (i : Z) (f : Z -> S -> res S) (s : S) : res S :=
  match n with
  | O => Ok s
  | Datatypes.S n' => let* s' := f i s in iter n' (i + 1) f s'
  end.

(** [for (i = lo; i < hi; ++i) s = f(i, s);]; the value of [i] afterwards is
    [Z.max lo hi]. *)
Definition for_ {S} (lo hi : Z) (f : Z -> S -> res S) (s : S) : res S :=
  iter (Z.to_nat (hi - lo)) lo f s.

(** ** Basic lemmas *)

Lemma zlen_nonneg {A} (l : list A) : 0 <= zlen l.
Proof. unfold zlen; lia. Qed.
Lemma zlen_nil {A} : zlen (@nil A) = 0.
Proof. reflexivity. Qed.
Lemma zlen_cons {A} (x : A) l : zlen (x :: l) = zlen l + 1.
Proof. unfold zlen; cbn [length]; lia. Qed.
Lemma zlen_app {A} (l m : list A) : zlen (l ++ m) = zlen l + zlen m.
Proof. unfold zlen; rewrite app_length; lia. Qed.
Lemma zlen_snoc {A} (l : list A) x : zlen (l ++ [x]) = zlen l + 1.
Proof. rewrite zlen_app; reflexivity. Qed.
Lemma zlen_repeat {A} (x : A) n : zlen (repeat x n) = Z.of_nat n.
Proof. unfold zlen; rewrite repeat_length; reflexivity. Qed.
Lemma zlen_map {A B} (f : A -> B) l : zlen (map f l) = zlen l.
Proof. unfold zlen; rewrite map_length; reflexivity. Qed.

(** Total access used only in proofs and specifications, always with an index in range. *)
Definition zn {A} (d : A) (l : list A) (i : Z) : A := nth (Z.to_nat i) l d.

Lemma rd_ok {A} (d : A) l i : 0 <= i < zlen l -> rd l i = Ok (zn d l i).
Proof.
  intros H. unfold rd, zn.
  replace ((0 <=? i) && (i <? zlen l)) with true by lia.
  destruct (nth_error l (Z.to_nat i)) as [v|] eqn:E.
  - erewrite nth_error_nth by exact E. reflexivity.
  - apply nth_error_None in E. unfold zlen in H. lia.
Qed.

Lemma rd_oob {A} (l : list A) i : ~ (0 <= i < zlen l) -> rd l i = Ub OobRead.
Proof.
  intros H. unfold rd. replace ((0 <=? i) && (i <? zlen l)) with false by lia. reflexivity.
Qed.

Lemma rd_app1 {A} (l m : list A) i : i < zlen l -> rd (l ++ m) i = rd l i.
Proof.
  intros H. unfold rd. rewrite zlen_app. pose proof (zlen_nonneg m).
  destruct (0 <=? i) eqn:E; cbn [andb]; [|reflexivity].
  replace (i <? zlen l + zlen m) with true by lia.
  replace (i <? zlen l) with true by lia.
  rewrite nth_error_app1 by (unfold zlen in H; lia). reflexivity.
Qed.

Lemma rd_app2 {A} (l m : list A) i : zlen l <= i -> rd (l ++ m) i = rd m (i - zlen l).
Proof.
  intros H. unfold rd. rewrite zlen_app. pose proof (zlen_nonneg l).
  destruct (i - zlen l <? zlen m) eqn:E2.
  - replace ((0 <=? i) && (i <? zlen l + zlen m)) with true by lia.
    replace ((0 <=? i - zlen l) && true) with true by lia.
    rewrite nth_error_app2 by (unfold zlen in H; lia).
    replace (Z.to_nat i - length l)%nat with (Z.to_nat (i - zlen l)) by (unfold zlen; lia).
    reflexivity.
  - replace ((0 <=? i) && (i <? zlen l + zlen m)) with false by lia.
    rewrite andb_false_r. reflexivity.
Qed.

Lemma zn_app1 {A} (d : A) l m i : 0 <= i < zlen l -> zn d (l ++ m) i = zn d l i.
Proof. intros H. unfold zn. apply app_nth1. unfold zlen in H; lia. Qed.
Lemma zn_app2 {A} (d : A) l m i : zlen l <= i -> zn d (l ++ m) i = zn d m (i - zlen l).
Proof.
  intros H. unfold zn. rewrite app_nth2 by (unfold zlen in H; lia). f_equal. unfold zlen; lia.
Qed.
Lemma zn_snoc {A} (d : A) l x : zn d (l ++ [x]) (zlen l) = x.
Proof. rewrite zn_app2 by lia. replace (zlen l - zlen l) with 0 by lia. reflexivity. Qed.

Lemma zlen_upd_nat {A} (l : list A) n v : length (upd_nat l n v) = length l.
Proof. revert n; induction l as [|h t IH]; intros [|n]; cbn; congruence. Qed.

Lemma upd_ok {A} (l : list A) i v :
  0 <= i < zlen l -> upd l i v = Ok (upd_nat l (Z.to_nat i) v).
Proof. intros H. unfold upd. replace ((0 <=? i) && (i <? zlen l)) with true by lia. reflexivity. Qed.

Lemma nth_upd_nat {A} (d : A) l n v m :
  (n < length l)%nat -> nth m (upd_nat l n v) d = if Nat.eqb m n then v else nth m l d.
Proof.
  revert n m; induction l as [|h t IH]; cbn [length]; intros n m H; [lia|].
  destruct n as [|n], m as [|m]; cbn; try reflexivity.
  apply IH; lia.
Qed.

Lemma zn_upd_nat {A} (d : A) l i v j :
  0 <= i < zlen l -> 0 <= j ->
  zn d (upd_nat l (Z.to_nat i) v) j = if j =? i then v else zn d l j.
Proof.
  intros H Hj. unfold zn. rewrite nth_upd_nat by (unfold zlen in H; lia).
  destruct (j =? i) eqn:E.
  - replace (Z.to_nat j =? Z.to_nat i)%nat with true by lia. reflexivity.
  - replace (Z.to_nat j =? Z.to_nat i)%nat with false by lia. reflexivity.
Qed.

Lemma list_eq_zn {A} (d : A) (l m : list A) :
  zlen l = zlen m -> (forall i, 0 <= i < zlen l -> zn d l i = zn d m i) -> l = m.
Proof.
  intros Hl H. apply nth_ext with (d := d) (d' := d). { unfold zlen in Hl; lia. }
  intros n Hn. specialize (H (Z.of_nat n)). unfold zn in H. rewrite Nat2Z.id in H.
  apply H. unfold zlen; lia.
Qed.

Lemma ck_ok z : INT_MIN <= z <= INT_MAX -> ck z = Ok z.
Proof. intros H. unfold ck. replace ((INT_MIN <=? z) && (z <=? INT_MAX)) with true by lia. reflexivity. Qed.

Lemma bind_assoc {A B C} (m : res A) (k : A -> res B) (h : B -> res C) :
  bind (bind m k) h = bind m (fun a => bind (k a) h).
Proof. destruct m; reflexivity. Qed.

Lemma bind_ok {A B} (a : A) (k : A -> res B) : bind (Ok a) k = k a.
Proof. reflexivity. Qed.

Lemma bind_ext {A B} (m : res A) (k k' : A -> res B) :
  (forall a, k a = k' a) -> bind m k = bind m k'.
Proof. intros H; destruct m; cbn; auto. Qed.

(** ** Loops *)

Lemma for_nil {S} lo hi (f : Z -> S -> res S) s : hi <= lo -> for_ lo hi f s = Ok s.
Proof. intros H. unfold for_. replace (Z.to_nat (hi - lo)) with O by lia. reflexivity. Qed.

Lemma for_cons {S} lo hi (f : Z -> S -> res S) s :
  lo < hi -> for_ lo hi f s = bind (f lo s) (for_ (lo + 1) hi f).
Proof.
  intros H. unfold for_. replace (Z.to_nat (hi - lo)) with (Datatypes.S (Z.to_nat (hi - (lo + 1)))) by lia.
  reflexivity.
Qed.

Lemma iter_app {S} n m i (f : Z -> S -> res S) s :
  iter (n + m) i f s = bind (iter n i f s) (iter m (i + Z.of_nat n) f).
Proof.
  revert i s; induction n as [|n IH]; intros i s.
  - cbn [Nat.add iter bind]. f_equal; lia.
  - cbn [Nat.add iter]. rewrite bind_assoc. apply bind_ext; intros a.
    rewrite IH. apply bind_ext; intros b. f_equal; lia.
Qed.

Lemma for_split {S} lo mid hi (f : Z -> S -> res S) s :
  lo <= mid <= hi -> for_ lo hi f s = bind (for_ lo mid f s) (for_ mid hi f).
Proof.
  intros H. unfold for_.
  replace (Z.to_nat (hi - lo)) with (Z.to_nat (mid - lo) + Z.to_nat (hi - mid))%nat by lia.
  rewrite iter_app. apply bind_ext; intros a. f_equal; lia.
Qed.

Lemma for_snoc {S} lo hi (f : Z -> S -> res S) s :
  lo <= hi -> for_ lo (hi + 1) f s = bind (for_ lo hi f s) (f hi).
Proof.
  intros H. rewrite (for_split lo hi (hi + 1)) by lia. apply bind_ext; intros a.
  rewrite for_cons by lia. destruct (f hi a) as [b|u]; cbn [bind]; [|reflexivity].
  apply for_nil; lia.
Qed.

Lemma for_ext {S} lo hi (f g : Z -> S -> res S) s :
  (forall i s, lo <= i < hi -> f i s = g i s) -> for_ lo hi f s = for_ lo hi g s.
Proof.
  intros H. unfold for_. remember (Z.to_nat (hi - lo)) as n eqn:En.
  revert lo En s H; induction n as [|n IH]; intros lo En s H; [reflexivity|].
  cbn [iter]. rewrite H by lia. destruct (g lo s) as [a|u]; [|reflexivity]. cbn [bind].
  apply IH; [lia|]. intros i s' Hi; apply H; lia.
Qed.

Lemma for_shift {S} d lo hi (f : Z -> S -> res S) s :
  for_ (lo + d) (hi + d) f s = for_ lo hi (fun i => f (i + d)) s.
Proof.
  unfold for_. replace (hi + d - (lo + d)) with (hi - lo) by lia.
  remember (Z.to_nat (hi - lo)) as n eqn:En. clear En.
  revert lo s; induction n as [|n IH]; intros lo s; [reflexivity|].
  cbn [iter]. apply bind_ext; intros a. replace (lo + d + 1) with (lo + 1 + d) by lia. apply IH.
Qed.

(** Two consecutive loops over adjacent index ranges, the first one cut off at [hi],
    are one loop that dispatches on the index. *)
Lemma for_merge {S} lo mid hi (f g : Z -> S -> res S) s :
  lo <= hi ->
  bind (for_ lo (Z.min mid hi) f s) (fun s => for_ (Z.max lo (Z.min mid hi)) hi g s)
  = for_ lo hi (fun i s => if i <? mid then f i s else g i s) s.
Proof.
  intros H. set (m := Z.max lo (Z.min mid hi)).
  rewrite (for_split lo m hi) by lia.
  replace (for_ lo m (fun i s => if i <? mid then f i s else g i s) s)
    with (for_ lo (Z.min mid hi) f s).
  - apply bind_ext; intros a. apply for_ext. intros i s' Hi.
    replace (i <? mid) with false by lia. reflexivity.
  - destruct (Z.le_gt_cases (Z.min mid hi) lo) as [L|L].
    + rewrite for_nil by lia. rewrite for_nil by lia. reflexivity.
    + replace m with (Z.min mid hi) by lia. apply for_ext. intros i s' Hi.
      replace (i <? mid) with true by lia. reflexivity.
Qed.

(** ** Weakest preconditions: [wp m Q] says that [m] is defined and its value satisfies [Q]. *)

Definition wp {A} (m : res A) (Q : A -> Prop) : Prop :=
  match m with Ok a => Q a | Ub _ => False end.

Lemma wp_ret {A} (a : A) (Q : A -> Prop) : Q a -> wp (Ok a) Q.
Proof. exact (fun H => H). Qed.

Lemma wp_bind {A B} (m : res A) (k : A -> res B) (Q : B -> Prop) :
  wp m (fun a => wp (k a) Q) -> wp (bind m k) Q.
Proof. destruct m; exact (fun H => H). Qed.

Lemma wp_mono {A} (m : res A) (P Q : A -> Prop) :
  wp m P -> (forall a, P a -> Q a) -> wp m Q.
Proof. destruct m; cbn; auto. Qed.

Lemma wp_ex {A} (m : res A) (Q : A -> Prop) : wp m Q <-> exists a, m = Ok a /\ Q a.
Proof.
  destruct m as [a|u]; cbn; split.
  - intros H; exists a; auto.
  - intros (b & E & H). injection E as ->. exact H.
  - tauto.
  - intros (b & E & _). discriminate.
Qed.

Lemma wp_ok {A} (m : res A) (a : A) (Q : A -> Prop) : m = Ok a -> Q a -> wp m Q.
Proof. intros ->; exact (fun H => H). Qed.

Lemma wp_inv {A} (m : res A) (a : A) (Q : A -> Prop) : wp m Q -> m = Ok a -> Q a.
Proof. intros H ->. exact H. Qed.

Lemma wp_for {S} (I : Z -> S -> Prop) lo hi (f : Z -> S -> res S) s (Q : S -> Prop) :
  lo <= hi ->
  I lo s ->
  (forall i s, lo <= i < hi -> I i s -> wp (f i s) (I (i + 1))) ->
  (forall s, I hi s -> Q s) ->
  wp (for_ lo hi f s) Q.
Proof.
  intros Hle H0 Hstep HQ.
  apply wp_mono with (P := I hi); [|exact HQ]. clear HQ Q.
  unfold for_. remember (Z.to_nat (hi - lo)) as n eqn:En.
  revert lo s En Hle H0 Hstep; induction n as [|n IH]; intros lo s En Hle H0 Hstep.
  - cbn. replace hi with lo by lia. exact H0.
  - cbn [iter]. apply wp_bind. apply wp_mono with (P := I (lo + 1)).
    + apply Hstep; [lia|exact H0].
    + intros a Ha. apply IH; [lia|lia|exact Ha|]. intros i s' Hi; apply Hstep; lia.
Qed.

(** Same rule without the [lo <= hi] premise; the index reached is [Z.max lo hi]. *)
Lemma wp_for_max {S} (I : Z -> S -> Prop) lo hi (f : Z -> S -> res S) s (Q : S -> Prop) :
  I lo s ->
  (forall i s, lo <= i < hi -> I i s -> wp (f i s) (I (i + 1))) ->
  (forall s, I (Z.max lo hi) s -> Q s) ->
  wp (for_ lo hi f s) Q.
Proof.
  intros H0 Hstep HQ. destruct (Z.le_gt_cases lo hi) as [L|L].
  - apply wp_for with (I := I); auto. intros s' Hs. apply HQ. replace (Z.max lo hi) with hi by lia. exact Hs.
  - rewrite for_nil by lia. cbn. apply HQ. replace (Z.max lo hi) with lo by lia. exact H0.
Qed.

Lemma wp_rd {A} (d : A) l i (Q : A -> Prop) :
  0 <= i < zlen l -> Q (zn d l i) -> wp (rd l i) Q.
Proof. intros H HQ. rewrite (rd_ok d) by exact H. exact HQ. Qed.

Lemma wp_ck z (Q : Z -> Prop) : INT_MIN <= z <= INT_MAX -> Q z -> wp (ck z) Q.
Proof. intros H HQ. rewrite ck_ok by exact H. exact HQ. Qed.

Lemma wp_check u b (Q : unit -> Prop) : b = true -> Q tt -> wp (check u b) Q.
Proof. intros -> H. exact H. Qed.

(** C03, C04, C05: the ring buffer and the rolling buffer. *)
From Verif Require Import RingP BufferP F64Ord.

(** C03.  [spec_run M ops] is the history of values, newest first (RingP.v): a write
    replaces the newest entry, a step opens a new entry that initially shows the value
    stored M steps ago. *)
Theorem C03_ring_history : forall {A : Arith} (N : Z) (ops : list rop), 0 < N ->
  exists r0 r, ring_new N = Ok r0 /\ ring_run r0 ops = Ok r /\
    forall k, 0 <= k < N -> ring_get r k = Ok (nth (Z.to_nat k) (spec_run N ops) #0).
Proof. exact @ring_history. Qed.
Print Assumptions C03_ring_history.

(** The usual pattern: one write and one step per bar; before the next step, offset k is
    the value of k bars ago. *)
Theorem C03_ring_last_values : forall {A : Arith} (N : Z) (xs : list T) (x : T) (k : Z), 0 <= k < N ->
  exists r0 r, ring_new N = Ok r0 /\
    ring_run r0 (concat (map (fun v => [RSet v; RStep]) xs) ++ [RSet x]) = Ok r /\
    ring_get r k = Ok (nth (Z.to_nat k) (x :: rev xs) #0).
Proof. exact @ring_last_values. Qed.
Print Assumptions C03_ring_last_values.

Theorem C03_ring2_history : forall {A : Arith} (ops : list rop) (k : Z), 0 <= k < 2 ->
  ring2_get (fold_left ring2_op ops ring2_new) k = Ok (nth (Z.to_nat k) (spec_run 2 ops) #0).
Proof. exact @ring2_history. Qed.
Print Assumptions C03_ring2_history.

Example C03_example :
  (let* r0 := @ring_new F64c 2 in
   let* r := ring_run r0 [RSet (dbl 1 0); RStep; RSet (dbl 2 0); RStep; RSet (dbl 3 0)] in
   let* a := ring_get r 0 in let* b := ring_get r 1 in Ok (a, b)) = Ok (dbl 3 0, dbl 2 0).
Proof. vm_compute. reflexivity. Qed.

(** C04.  For the values of the [period] newest entries ([good], e.g. not NaN). *)
Theorem C04_find_max : forall {A : Arith} (good : T -> Prop), OrdLaws A good ->
  forall (N : Z) (ops : list rop) (period : Z),
  Forall good (spec_run N ops) -> good #0 -> 1 <= period <= N ->
  exists r0 r it age, ring_new N = Ok r0 /\ ring_run r0 ops = Ok r /\
    ring_find_max r period = Ok it /\ ring_age r it = Ok age /\ 0 <= age < period /\
    rd (rbuf r) it = Ok (nth (Z.to_nat age) (spec_run N ops) #0) /\
    forall j, 0 <= j < period ->
      (nth (Z.to_nat j) (spec_run N ops) #0 .<= nth (Z.to_nat age) (spec_run N ops) #0) = true.
Proof. exact @find_max_history. Qed.
Print Assumptions C04_find_max.

Theorem C04_find_min : forall {A : Arith} (good : T -> Prop), OrdLaws A good ->
  forall (N : Z) (ops : list rop) (period : Z),
  Forall good (spec_run N ops) -> good #0 -> 1 <= period <= N ->
  exists r0 r it age, ring_new N = Ok r0 /\ ring_run r0 ops = Ok r /\
    ring_find_min r period = Ok it /\ ring_age r it = Ok age /\ 0 <= age < period /\
    rd (rbuf r) it = Ok (nth (Z.to_nat age) (spec_run N ops) #0) /\
    forall j, 0 <= j < period ->
      (nth (Z.to_nat age) (spec_run N ops) #0 .<= nth (Z.to_nat j) (spec_run N ops) #0) = true.
Proof. exact @find_min_history. Qed.
Print Assumptions C04_find_min.

(** The size-2 specialisation ignores its argument: with period 1 it may return the
    previous value. *)
Theorem C04_find_max2_refuted : exists (ops : list (@rop F64c)),
  let r := fold_left ring2_op ops ring2_new in
  ring2_find_max r 1 = 1 /\ spec_run 2 ops = [dbl 1 0; dbl 5 0].
Proof. exists [RSet (dbl 5 0); RStep; RSet (dbl 1 0)]. vm_compute. split; reflexivity. Qed.
Print Assumptions C04_find_max2_refuted.

(** Doubles other than NaN satisfy the order hypothesis. *)
Example C04_example_order : OrdLaws F64c not_nan.
Proof. apply F64_ord. Qed.
Example C04_example :
  (let* r0 := @ring_new F64c 3 in
   let* r := ring_run r0 [RSet (dbl 7 0); RStep; RSet (dbl 9 0); RStep; RSet (dbl 2 0); RStep; RSet (dbl 4 0)] in
   let* it := ring_find_max r 3 in ring_age r it) = Ok 2.
Proof. vm_compute. reflexivity. Qed.

(** C05.  [last_n n l] is the list of the last [n] entries of [l] (all, if fewer). *)
Theorem C05_buffer_get : forall {A : Arith} (size : Z) (ps : list T), 1 <= size <= 268435452 ->
  exists b0 b b', buffer_new size = Ok b0 /\ push_all b0 ps = Ok b /\ qpush_all b0 ps = Ok b' /\
    forall k, 0 <= k < size -> k < zlen ps ->
      buffer_get b (- k) = Ok (nth (Z.to_nat k) (rev ps) #0) /\
      buffer_get b' (- k) = Ok (nth (Z.to_nat k) (rev ps) #0).
Proof. exact @buffer_history_rev. Qed.
Print Assumptions C05_buffer_get.

Theorem C05_buffer_sum : forall (size : Z) (ps : list R), 1 <= size <= 268435452 ->
  exists b0 b : @buffer RA, buffer_new size = Ok b0 /\ push_all b0 ps = Ok b /\
    bsum b = Rsum (last_n size ps).
Proof. exact buffer_sum. Qed.
Print Assumptions C05_buffer_sum.

Example C05_example :
  (let* b := @buffer_new F64c 2 in
   let* b := push_all b [dbl 1 0; dbl 2 0; dbl 4 0] in
   let* x := buffer_get b 0 in let* y := buffer_get b (-1) in Ok (bsum b, x, y))
  = Ok (dbl 6 0, dbl 4 0, dbl 2 0).
Proof. vm_compute. reflexivity. Qed.

(** Model of utils/ringbuf.hh and utils/buffer.h, utils/buffer.c. *)
From Verif Require Export Spec.
Section M.
Context {A : Arith}.

(** ringbuf<N> (ringbuf.hh:27-87, N fixed) and ringbuf<0> (ringbuf.hh:124-188, run-time M):
    same fields, same code; [rM] is N resp. M. *)
Record ring := { rM : Z; rpos : Z; rbuf : list T }.

(** ringbuf.hh:29-30 (zero-initialised array) and resize, ringbuf.hh:131-137 *)
Definition ring_new (M : Z) : res ring :=
  let* _ := check Assert (0 <? M) in
  Ok {| rM := M; rpos := 0; rbuf := repeat #0 (Z.to_nat M) |}.

(** operator TI_REAL, ringbuf.hh:31 and 138 *)
Definition ring_cur (r : ring) : res T := rd (rbuf r) (rpos r).

(** Physical position of offset [i], ringbuf.hh:33-37, 40-44, 140-144 *)
Definition ring_at (r : ring) (i : Z) : res Z :=
  let* _ := check Assert (i <? rM r) in
  let* _ := check Assert (i >? -1) in
  let pos_ := rpos r + i in
  Ok (if pos_ >=? rM r then pos_ - rM r else pos_).

(** operator[], ringbuf.hh:32-45 and 139-145 *)
Definition ring_get (r : ring) (i : Z) : res T :=
  let* j := ring_at r i in rd (rbuf r) j.

(** assignment through [operator[]] (ringbuf<N> only), ringbuf.hh:32-38 *)
Definition ring_put (r : ring) (i : Z) (x : T) : res ring :=
  let* j := ring_at r i in
  let* b := upd (rbuf r) j x in
  Ok {| rM := rM r; rpos := rpos r; rbuf := b |}.

(** step, ringbuf.hh:46-49 and 146-149 *)
Definition ring_step (r : ring) : ring :=
  let pos := rpos r - 1 in
  {| rM := rM r; rpos := if pos =? -1 then pos + rM r else pos; rbuf := rbuf r |}.

(** operator=, ringbuf.hh:50-52 and 150-152 *)
Definition ring_set (r : ring) (x : T) : res ring :=
  let* b := upd (rbuf r) (rpos r) x in
  Ok {| rM := rM r; rpos := rpos r; rbuf := b |}.

(** std::max_element(reverse(buf+hi), reverse(buf+lo), cmp): visits hi-1 down to lo and
    keeps the first element that no later one exceeds.  Empty range: the code would
    dereference the end iterator. *)
Definition max_elem_rev (cmp : T -> T -> bool) (buf : list T) (hi lo : Z) : res Z :=
  let* _ := check OobRead (lo <? hi) in
  let* _ := rd buf (hi - 1) in
  for_ 1 (hi - lo) (fun j best =>
      let* x := rd buf best in
      let* y := rd buf (hi - 1 - j) in
      Ok (if cmp x y then hi - 1 - j else best)) (hi - 1).

(** find_max<Cmp>, ringbuf.hh:54-76 and 157-179; the iterator is modelled by its physical
    index *)
Definition ring_find (cmp : T -> T -> bool) (r : ring) (period : Z) : res Z :=
  let* _ := check Assert (period <=? rM r) in
  let* _ := check Assert (period >? 0) in
  let pos := rpos r in
  if pos + period >? rM r then
    let size_part1 := rM r - pos in
    let size_part2 := period - size_part1 in
    let* it1 := max_elem_rev cmp (rbuf r) (pos + size_part1) pos in
    let* it2 := max_elem_rev cmp (rbuf r) size_part2 0 in
    let* v1 := rd (rbuf r) it1 in
    let* v2 := rd (rbuf r) it2 in
    Ok (if negb (cmp v1 v2) then it1 else it2)
  else
    max_elem_rev cmp (rbuf r) (pos + period) pos.

(** find_max(period) with the default std::less; find_min, ringbuf.hh:77-79, 180-182 *)
Definition ring_find_max (r : ring) (period : Z) : res Z := ring_find (fun x y => x .< y) r period.
Definition ring_find_min (r : ring) (period : Z) : res Z := ring_find (fun x y => x .> y) r period.

(** iterator_to_age, ringbuf.hh:83-86, 184-187 *)
Definition ring_age (r : ring) (it : Z) : res Z :=
  let* _ := check Assert ((0 <=? it) && (it <? rM r)) in
  Ok (Z.rem (it + (rM r - rpos r)) (rM r)).

(** ringbuf<2>, ringbuf.hh:89-121 *)
Record ring2 := { ra1 : T; ra2 : T }.
Definition ring2_new : ring2 := {| ra1 := #0; ra2 := #0 |}.
Definition ring2_cur (r : ring2) : T := ra1 r.
Definition ring2_get (r : ring2) (i : Z) : res T :=
  let* _ := check Assert (i <? 2) in
  let* _ := check Assert (i >? -1) in
  Ok (if i =? 0 then ra1 r else ra2 r).
Definition ring2_step (r : ring2) : ring2 := {| ra1 := ra2 r; ra2 := ra1 r |}.
Definition ring2_set (r : ring2) (x : T) : ring2 := {| ra1 := x; ra2 := ra2 r |}.
(** find_max ignores [period], ringbuf.hh:106-110; the result is the offset *)
Definition ring2_find_max (r : ring2) (period : Z) : Z := if ra1 r .>= ra2 r then 0 else 1.

(** ti_buffer, buffer.h:12-16; [vals] come from malloc, hence uninitialised *)
Record buffer := { bsize : Z; bpushes : Z; bindex : Z; bsum : T; bvals : list (option T) }.

(** ti_buffer_new, buffer.c:13-21; sizeof(ti_buffer) = 32, sizeof(TI_REAL) = 8 *)
Definition buffer_new (size : Z) : res buffer :=
  let* _ := ck ((size - 1) * 8) in
  let* s := ck (32 + (size - 1) * 8) in
  let* _ := check BadSize (0 <=? s) in
  Ok {| bsize := size; bpushes := 0; bindex := 0; bsum := #0;
        bvals := repeat None (Z.to_nat size) |}.

(** ti_buffer_push, buffer.h:32-43 *)
Definition buffer_push (b : buffer) (v : T) : res buffer :=
  let* sum := if bpushes b >=? bsize b
              then let* x := rdo (bvals b) (bindex b) in Ok (bsum b .- x)
              else Ok (bsum b) in
  let sum := sum .+ v in
  let* vals := upd (bvals b) (bindex b) (Some v) in
  let index := bindex b + 1 in
  Ok {| bsize := bsize b; bpushes := bpushes b + 1;
        bindex := if index >=? bsize b then 0 else index; bsum := sum; bvals := vals |}.

(** ti_buffer_qpush, buffer.h:47-52 *)
Definition buffer_qpush (b : buffer) (v : T) : res buffer :=
  let* vals := upd (bvals b) (bindex b) (Some v) in
  let index := bindex b + 1 in
  Ok {| bsize := bsize b; bpushes := bpushes b;
        bindex := if index >=? bsize b then 0 else index; bsum := bsum b; bvals := vals |}.

(** ti_buffer_get, buffer.h:56; C [%] truncates *)
Definition buffer_get (b : buffer) (v : Z) : res T :=
  let* _ := check DivZero (negb (bsize b =? 0)) in
  rdo (bvals b) (Z.rem (bindex b + bsize b - 1 + v) (bsize b)).

End M.

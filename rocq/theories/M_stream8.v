(** Indicators that rank the last prices: rmf, hf, hfsma, hfema.

    std::multiset<TI_REAL> is the list of its elements in iteration order, std::deque a list.
    Both containers and std::nth_element, std::sort require [<] to be a strict weak order on the
    values they hold; a value that is not comparable with itself (a NaN) breaks this, and the
    model ends with [BadOrder] there. *)
From Verif Require Export M_stream7.
From Coq Require Import ZifyBool.

Section M.
Context {A : Arith}.

(** multiset::insert: after the elements that are not greater *)
Fixpoint ms_ins (x : T) (l : list T) : list T :=
  match l with [] => [x] | y :: t => if x .< y then x :: l else y :: ms_ins x t end.
Definition ms_insert (x : T) (l : list T) : res (list T) :=
  let* _ := check BadOrder (x .<= x) in Ok (ms_ins x l).
(** erase(find(x)): the first element not less than x, if it is not greater either; otherwise
    find returns end(), which must not be erased *)
Fixpoint ms_del (x : T) (l : list T) : option (list T) :=
  match l with
  | [] => None
  | y :: t => if y .< x then option_map (cons y) (ms_del x t) else if x .< y then None else Some t
  end.
Definition ms_erase (x : T) (l : list T) : res (list T) :=
  match ms_del x l with Some l' => Ok l' | None => Ub OobRead end.
(** std::sort; std::nth_element leaves at position k the element std::sort would put there *)
Definition std_sort (l : list T) : res (list T) :=
  let* _ := check BadOrder (forallb (fun x => x .<= x) l) in Ok (fold_right ms_ins [] l).
Definition nth_elem (k : Z) (l : list T) : res T :=
  let* l := std_sort l in rd l k.

(** ** rmf *)
(** rmf.cc:18-23; the difference is converted to int *)
Definition ti_rmf_start : startfn := fun options =>
  match options with [_; median_period] => cast (median_period .- #1) | _ => Ub BadArgs end.
(** alpha; rmf.cc:39, 105 *)
Definition rmf_alpha (critical_period : T) : T :=
  let w := #2 .* PI ./ critical_period in
  (libm Lcos w .+ libm Lsin w .- #1) ./ libm Lcos w.

(** price.push_back, rankedprice.insert; rmf.cc:44-45, 48-49, 57-58, 128-129, 132-133, 141-142 *)
Definition rmf_push (x : T) (s : list T * list T) : res (list T * list T) :=
  let '(ranked, price) := s in
  let* ranked := ms_insert x ranked in
  Ok (ranked, price ++ [x]).
(** *std::next(rankedprice.begin(), median_period / 2); rmf.cc:50, 59, 134, 143.  The offset is a
    ptrdiff_t; it is at most half an int here. *)
Definition rmf_median (median_period : T) (ranked : list T) : res T :=
  let* k := cast (median_period ./ #2) in rd ranked k.
(** erase(find(price.front())), pop_front; rmf.cc:53-54, 62-63, 137-138, 146-147 *)
Definition rmf_pop (s : list T * list T) : res (list T * list T) :=
  let '(ranked, price) := s in
  match price with
  | [] => Ub OobRead
  | x :: rest => let* ranked := ms_erase x ranked in Ok (ranked, rest)
  end.

(** rmf.cc:25-67; the three loops are bounded by progress = i - start.
    State (rmf_val, (rankedprice, price)). *)
Definition ti_rmf : batchfn := fun size inputs options =>
  match inputs, options with
  | [series], [critical_period; median_period] =>
    if median_period .< #1 then Ok (INVALID_OPTION, [[]]) else
    if critical_period .< #1 then Ok (INVALID_OPTION, [[]]) else
    let* n := cast median_period in
    if negb (Z.rem n 2 =? 1) then Ok (INVALID_OPTION, [[]]) else
    let alpha := rmf_alpha critical_period in
    let* start := ti_rmf_start options in
    batch_loops 1 size
    {| bounded := [
         (start, fun i '(v, s) =>
           let* x := rd series i in
           let* s := rmf_push x s in
           Ok ((v, s), [[]]));
         (start + 1, fun i '(v, s) =>
           let* x := rd series i in
           let* s := rmf_push x s in
           let* m := rmf_median median_period (fst s) in
           let* s := rmf_pop s in
           Ok ((Some m, s), [[m]]))];
       final := fun i '(v, s) =>
         let* x := rd series i in
         let* s := rmf_push x s in
         let* m := rmf_median median_period (fst s) in
         let* v := val v in
         let v := alpha .* m .+ (#1 .- alpha) .* v in
         let* s := rmf_pop s in
         Ok ((Some v, s), [[v]]) |} (None, ([], []))
  | _, _ => Ub BadArgs
  end.

(** rmf.cc:87-108; constants (median_period, alpha), state (rmf_val, (rankedprice, price)),
    rmf_val zero-initialised (95) *)
Definition ti_rmf_stream_new : newfn (stream ((T * T) * (T * (list T * list T)))) := fun options =>
  match options with
  | [critical_period; median_period] =>
    if median_period .< #1 then Ok (INVALID_OPTION, None) else
    if critical_period .< #1 then Ok (INVALID_OPTION, None) else
    let* n := cast median_period in
    if negb (Z.rem n 2 =? 1) then Ok (INVALID_OPTION, None) else
    let* start := ti_rmf_start options in
    Ok (OKAY, Some {| progress := - start; core := ((median_period, rmf_alpha critical_period), (#0, ([], []))) |})
  | _ => Ub BadArgs
  end.
(** rmf.cc:114-154 *)
Definition rmf_loops (k : T * T) (p : Z) (inputs : list (list T)) : loops (T * (list T * list T)) :=
  match inputs with
  | [series] =>
    let '(median_period, alpha) := k in
    {| bounded := [
         (0 - p, fun i '(v, s) =>
           let* x := rd series i in
           let* s := rmf_push x s in
           Ok ((v, s), [[]]));
         (1 - p, fun i '(v, s) =>
           let* x := rd series i in
           let* s := rmf_push x s in
           let* m := rmf_median median_period (fst s) in
           let* s := rmf_pop s in
           Ok ((m, s), [[m]]))];
       final := fun i '(v, s) =>
         let* x := rd series i in
         let* s := rmf_push x s in
         let* m := rmf_median median_period (fst s) in
         let v := alpha .* m .+ (#1 .- alpha) .* v in
         let* s := rmf_pop s in
         Ok ((v, s), [[v]]) |}
  | _ => bad_loops
  end.
Definition ti_rmf_stream_run := mkrun 1 rmf_loops.

(** ** hf *)
(** hf.cc:17-22 *)
Definition ti_hf_start : startfn := fun options =>
  match options with [o0; _] => let* k := cast o0 in ck (2 * k) | _ => Ub BadArgs end.

(** The buffer a is filled from the ranked prices; hf.cc:45-52, 168-175, hfsma.cc:57-62, 208-213,
    hfema.cc:58-63, 203-208.  The model insists that they fill it exactly (then nothing of its
    previous contents is left); a longer multiset would write outside of it. *)
Definition median_deviation (k : Z) (ranked : list T) (median_price : T) : res T :=
  let* _ := check OobRead (zlen ranked =? 2 * k + 1) in
  nth_elem k (map (fun p => fabs (p .- median_price)) ranked).
(** *std::next(rankedprice.begin(), k) and the choice; hf.cc:43-55, 166-178 *)
Definition hf_out (k : Z) (threshold : T) (ranked : list T) (candidate : T) : res T :=
  let* median_price := rd ranked k in
  let* dev := median_deviation k ranked median_price in
  Ok (if fabs (candidate .- median_price) .< threshold .* lit 14826 4 .* dev then candidate else median_price).

(** hf.cc:24-61; state rankedprice *)
Definition ti_hf : batchfn := fun size inputs options =>
  match inputs, options with
  | [series], [o0; threshold] =>
    let* k := cast o0 in
    if k <? 1 then Ok (INVALID_OPTION, [[]]) else
    if threshold .< #0 then Ok (INVALID_OPTION, [[]]) else
    let* n := ck (2 * k + 1) in
    batch_loops 1 size
    {| bounded := [(2 * k, fun i ranked =>
         let* x := rd series i in
         let* ranked := ms_insert x ranked in
         Ok (ranked, [[]]))];
       final := fun i ranked =>
         let* x := rd series i in
         let* ranked := ms_insert x ranked in
         let* y := hf_out k threshold ranked x in
         let* old := rd series (i - 2 * k) in
         let* ranked := ms_erase old ranked in
         Ok (ranked, [[y]]) |} []
  | _, _ => Ub BadArgs
  end.

(** hf.cc:63-98: ti_hf with the buffer rebuilt by push_back for every bar *)
Definition ti_hf_ref : batchfn := fun size inputs options =>
  match inputs, options with
  | [series], [o0; threshold] =>
    let* k := cast o0 in
    if k <? 1 then Ok (INVALID_OPTION, [[]]) else
    if threshold .< #0 then Ok (INVALID_OPTION, [[]]) else
    batch_loops 1 size
    {| bounded := [(2 * k, fun i ranked =>
         let* x := rd series i in
         let* ranked := ms_insert x ranked in
         Ok (ranked, [[]]))];
       final := fun i ranked =>
         let* x := rd series i in
         let* ranked := ms_insert x ranked in
         let* median_price := rd ranked k in
         let* _ := ck (2 * k + 1) in
         let* dev := nth_elem k (map (fun p => fabs (p .- median_price)) ranked) in
         let y := if fabs (x .- median_price) .< threshold .* lit 14826 4 .* dev then x else median_price in
         let* old := rd series (i - 2 * k) in
         let* ranked := ms_erase old ranked in
         Ok (ranked, [[y]]) |} []
  | _, _ => Ub BadArgs
  end.

(** hf.cc:118-139; constants (k, threshold), state (price, rankedprice) *)
Definition ti_hf_stream_new : newfn (stream ((Z * T) * (ring * list T))) := fun options =>
  match options with
  | [o0; threshold] =>
    let* k := cast o0 in
    if k <? 1 then Ok (INVALID_OPTION, None) else
    if threshold .< #0 then Ok (INVALID_OPTION, None) else
    let* start := ti_hf_start options in
    let* n := ck (2 * k + 1) in
    let* price := ring_new n in
    Ok (OKAY, Some {| progress := - start; core := ((k, threshold), (price, [])) |})
  | _ => Ub BadArgs
  end.
(** hf.cc:145-186 *)
Definition hf_loops (c : Z * T) (p : Z) (inputs : list (list T)) : loops (ring * list T) :=
  match inputs with
  | [series] =>
    let '(k, threshold) := c in
    {| bounded := [(0 - p, fun i '(price, ranked) =>
         let* x := rd series i in
         let* price := ring_set price x in
         let* ranked := ms_insert x ranked in
         Ok ((ring_step price, ranked), [[]]))];
       final := fun i '(price, ranked) =>
         let* x := rd series i in
         let* price := ring_set price x in
         let* ranked := ms_insert x ranked in
         let* y := hf_out k threshold ranked x in
         let* old := ring_get price (2 * k) in
         let* ranked := ms_erase old ranked in
         Ok ((ring_step price, ranked), [[y]]) |}
  | _ => bad_loops
  end.
Definition ti_hf_stream_run := mkrun 1 hf_loops.

(** The choice of hfsma and hfema, with [<=]; hfsma.cc:56-64, 207-215, hfema.cc:56-65, 202-210 *)
Definition hfs_out (k : Z) (threshold : T) (ranked : list T) (price : ring) : res T :=
  let* median_price := rd ranked k in
  let* dev := median_deviation k ranked median_price in
  let* candidate := ring_get price k in
  Ok (if fabs (candidate .- median_price) .<= threshold .* lit 14826 4 .* dev then candidate else median_price).

(** ** hfsma *)
(** hfsma.cc:16-22 *)
Definition ti_hfsma_start : startfn := fun options =>
  match options with
  | [o0; o1; _] =>
    let* sma_period := cast o0 in
    let* k := cast o1 in
    let* a := ck (sma_period - 1) in
    let* b := ck (2 * k) in
    ck (a + b)
  | _ => Ub BadArgs
  end.

(** hfsma.cc:24-73; state (sum, rankedprice, smoothed_price); the bound of the second loop is
    evaluated in int (44) *)
Definition ti_hfsma : batchfn := fun size inputs options =>
  match inputs, options with
  | [series], [o0; o1; threshold] =>
    let* sma_period := cast o0 in
    let* k := cast o1 in
    if sma_period <? 1 then Ok (INVALID_OPTION, [[]]) else
    if k <? 1 then Ok (INVALID_OPTION, [[]]) else
    if threshold .< #0 then Ok (INVALID_OPTION, [[]]) else
    let* n := ck (2 * k + 1) in
    let* smoothed := ring_new n in
    let* bound := ck (sma_period - 1 + 2 * k) in
    batch_loops 1 size
    {| bounded := [
         (sma_period - 1, fun i '(sum, ranked, smoothed) =>
           let* x := rd series i in
           Ok ((sum .+ x, ranked, ring_step smoothed), [[]]));
         (bound, fun i '(sum, ranked, smoothed) =>
           let* x := rd series i in
           let sum := sum .+ x in
           let* ranked := ms_insert (sum ./ #sma_period) ranked in
           let* smoothed := ring_set smoothed (sum ./ #sma_period) in
           let* old := rd series (i - sma_period + 1) in
           Ok ((sum .- old, ranked, ring_step smoothed), [[]]))];
       final := fun i '(sum, ranked, smoothed) =>
         let* x := rd series i in
         let sum := sum .+ x in
         let* ranked := ms_insert (sum ./ #sma_period) ranked in
         let* smoothed := ring_set smoothed (sum ./ #sma_period) in
         let* y := hfs_out k threshold ranked smoothed in
         let* old := rd series (i - sma_period + 1) in
         let* gone := ring_get smoothed (2 * k) in
         let* ranked := ms_erase gone ranked in
         Ok ((sum .- old, ranked, ring_step smoothed), [[y]]) |} (#0, [], smoothed)
  | _, _ => Ub BadArgs
  end.

(** hfsma.cc:135-167; constants (sma_period, k, threshold), state (sum, rankedprice, price,
    smoothed_price).  The buffer price has 2k+1 slots (159). *)
Definition ti_hfsma_stream_new : newfn (stream ((Z * Z * T) * (T * list T * ring * ring))) := fun options =>
  match options with
  | [o0; o1; threshold] =>
    let* sma_period := cast o0 in
    let* k := cast o1 in
    if sma_period <? 1 then Ok (INVALID_OPTION, None) else
    if k <? 1 then Ok (INVALID_OPTION, None) else
    if threshold .< #0 then Ok (INVALID_OPTION, None) else
    let* start := ti_hfsma_start options in
    let* n := ck (2 * k + 1) in
    let* price := ring_new n in
    let* smoothed := ring_new n in
    Ok (OKAY, Some {| progress := - start; core := ((sma_period, k, threshold), (#0, [], price, smoothed)) |})
  | _ => Ub BadArgs
  end.
(** hfsma.cc:173-225 *)
Definition hfsma_loops (c : Z * Z * T) (p : Z) (inputs : list (list T)) : loops (T * list T * ring * ring) :=
  match inputs with
  | [series] =>
    let '(sma_period, k, threshold) := c in
    {| bounded := [
         (- (2 * k) - p, fun i '(sum, ranked, price, smoothed) =>
           let* x := rd series i in
           let* price := ring_set price x in
           Ok ((sum .+ x, ranked, ring_step price, ring_step smoothed), [[]]));
         (0 - p, fun i '(sum, ranked, price, smoothed) =>
           let* x := rd series i in
           let* price := ring_set price x in
           let sum := sum .+ x in
           let* smoothed := ring_set smoothed (sum ./ #sma_period) in
           let* ranked := ms_insert (sum ./ #sma_period) ranked in
           let* old := ring_get price (sma_period - 1) in
           Ok ((sum .- old, ranked, ring_step price, ring_step smoothed), [[]]))];
       final := fun i '(sum, ranked, price, smoothed) =>
         let* x := rd series i in
         let* price := ring_set price x in
         let sum := sum .+ x in
         let* smoothed := ring_set smoothed (sum ./ #sma_period) in
         let* ranked := ms_insert (sum ./ #sma_period) ranked in
         let* y := hfs_out k threshold ranked smoothed in
         let* old := ring_get price (sma_period - 1) in
         let* gone := ring_get smoothed (2 * k) in
         let* ranked := ms_erase gone ranked in
         Ok ((sum .- old, ranked, ring_step price, ring_step smoothed), [[y]]) |}
  | _ => bad_loops
  end.
Definition ti_hfsma_stream_run := mkrun 1 hfsma_loops.

(** ** hfema *)
(** hfema.cc:16-22 *)
Definition ti_hfema_start : startfn := fun options =>
  match options with
  | [o0; o1; _] => let* _ := cast o0 in let* k := cast o1 in ck (2 * k)
  | _ => Ub BadArgs
  end.

(** hfema.cc:24-73; state (ema, rankedprice, price) *)
Definition ti_hfema : batchfn := fun size inputs options =>
  match inputs, options with
  | [series], [o0; o1; threshold] =>
    let* ema_period := cast o0 in
    let* k := cast o1 in
    if ema_period <? 1 then Ok (INVALID_OPTION, [[]]) else
    if k <? 1 then Ok (INVALID_OPTION, [[]]) else
    if threshold .< #0 then Ok (INVALID_OPTION, [[]]) else
    let* n := ck (2 * k + 1) in
    let* price := ring_new n in
    let smooth x ema := (x .- ema) .* #2 ./ (#1 .+ #ema_period) .+ ema in
    batch_loops 1 size
    {| bounded := [
         (1, fun i '(ema, ranked, price) =>
           let* x := rd series i in
           let* price := ring_set price x in
           let* v := ring_cur price in
           let* ranked := ms_insert v ranked in
           Ok ((Some x, ranked, ring_step price), [[]]));
         (2 * k, fun i '(ema, ranked, price) =>
           let* x := rd series i in
           let* ema := val ema in
           let ema := smooth x ema in
           let* price := ring_set price ema in
           let* v := ring_cur price in
           let* ranked := ms_insert v ranked in
           Ok ((Some ema, ranked, ring_step price), [[]]))];
       final := fun i '(ema, ranked, price) =>
         let* x := rd series i in
         let* ema := val ema in
         let ema := smooth x ema in
         let* price := ring_set price ema in
         let* v := ring_cur price in
         let* ranked := ms_insert v ranked in
         let* y := hfs_out k threshold ranked price in
         let* gone := ring_get price (2 * k) in
         let* ranked := ms_erase gone ranked in
         Ok ((Some ema, ranked, ring_step price), [[y]]) |} (None, [], price)
  | _, _ => Ub BadArgs
  end.

(** hfema.cc:138-167; constants (ema_period, k, threshold), state (ema, rankedprice, price), ema
    zero-initialised (147) *)
Definition ti_hfema_stream_new : newfn (stream ((Z * Z * T) * (T * list T * ring))) := fun options =>
  match options with
  | [o0; o1; threshold] =>
    let* ema_period := cast o0 in
    let* k := cast o1 in
    if ema_period <? 1 then Ok (INVALID_OPTION, None) else
    if k <? 1 then Ok (INVALID_OPTION, None) else
    if threshold .< #0 then Ok (INVALID_OPTION, None) else
    let* start := ti_hfema_start options in
    let* n := ck (2 * k + 1) in
    let* price := ring_new n in
    Ok (OKAY, Some {| progress := - start; core := ((ema_period, k, threshold), (#0, [], price)) |})
  | _ => Ub BadArgs
  end.
(** hfema.cc:173-219; the divisor is written [ema_period + 1.] here *)
Definition hfema_loops (c : Z * Z * T) (p : Z) (inputs : list (list T)) : loops (T * list T * ring) :=
  match inputs with
  | [series] =>
    let '(ema_period, k, threshold) := c in
    let smooth x ema := (x .- ema) .* #2 ./ (#ema_period .+ #1) .+ ema in
    {| bounded := [
         (- (2 * k) + 1 - p, fun i '(ema, ranked, price) =>
           let* x := rd series i in
           let* price := ring_set price x in
           let* ranked := ms_insert x ranked in
           Ok ((x, ranked, ring_step price), [[]]));
         (0 - p, fun i '(ema, ranked, price) =>
           let* x := rd series i in
           let ema := smooth x ema in
           let* price := ring_set price ema in
           let* ranked := ms_insert ema ranked in
           Ok ((ema, ranked, ring_step price), [[]]))];
       final := fun i '(ema, ranked, price) =>
         let* x := rd series i in
         let ema := smooth x ema in
         let* price := ring_set price ema in
         let* ranked := ms_insert ema ranked in
         let* y := hfs_out k threshold ranked price in
         let* gone := ring_get price (2 * k) in
         let* ranked := ms_erase gone ranked in
         Ok ((ema, ranked, ring_step price), [[y]]) |}
  | _ => bad_loops
  end.
Definition ti_hfema_stream_run := mkrun 1 hfema_loops.

(** ** The reference implementations of hfsma and hfema *)
(** Sort the last 2k+1 smoothed values, then their distances from the middle one; hfsma.cc:92-105,
    hfema.cc:96-109 *)
Definition hfs_ref_out (k : Z) (threshold : T) (w : list T) (candidate : T) : res T :=
  let* data := std_sort w in
  let* median_price := rd data k in
  let* data := std_sort (map (fun d => fabs (d .- median_price)) data) in
  let* dev := rd data k in
  Ok (if fabs (candidate .- median_price) .<= threshold .* lit 14826 4 .* dev then candidate else median_price).
(** hfsma.cc:91-106, hfema.cc:95-110: the loop over the smoothed values, of which [len] are used *)
Definition hfs_ref (k : Z) (threshold : T) (sm : list T) (len : Z) : res (list T) :=
  for_ (2 * k) len (fun i out =>
    let* w := for_ 0 (2 * k + 1) (fun j w => let* v := rd sm (i - 2 * k + j) in Ok (w ++ [v])) [] in
    let* candidate := rd sm (i - k) in
    let* y := hfs_ref_out k threshold w candidate in
    Ok (out ++ [y])) [].

(** hfsma.cc:75-112 *)
Definition ti_hfsma_ref : batchfn := fun size inputs options =>
  match inputs, options with
  | [series], [o0; o1; threshold] =>
    let* sma_period := cast o0 in
    let* k := cast o1 in
    if sma_period <? 1 then Ok (INVALID_OPTION, [[]]) else
    if k <? 1 then Ok (INVALID_OPTION, [[]]) else
    if threshold .< #0 then Ok (INVALID_OPTION, [[]]) else
    let* (_, outs) := ti_sma size [series] [o0] in
    let sma := nth 0 outs [] in
    let* _ := ck (2 * k + 1) in
    let* start := start_p1 [o0] in
    let* out := hfs_ref k threshold sma (size - start) in
    Ok (OKAY, [out])
  | _, _ => Ub BadArgs
  end.

(** hfema.cc:79-116 *)
Definition ti_hfema_ref : batchfn := fun size inputs options =>
  match inputs, options with
  | [series], [o0; o1; threshold] =>
    let* ema_period := cast o0 in
    let* k := cast o1 in
    if ema_period <? 1 then Ok (INVALID_OPTION, [[]]) else
    if k <? 1 then Ok (INVALID_OPTION, [[]]) else
    if threshold .< #0 then Ok (INVALID_OPTION, [[]]) else
    let* (_, outs) := ti_ema size [series] [o0] in
    let ema := nth 0 outs [] in
    let* _ := ck (2 * k + 1) in
    let* out := hfs_ref k threshold ema size in
    Ok (OKAY, [out])
  | _, _ => Ub BadArgs
  end.
End M.

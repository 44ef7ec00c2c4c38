(** Models: streaming indicators, third group (vi, atr, lma, pwma, dwma, ehma, copp, pfe, posc,
    pbands).

    As in M_stream1.v, stream members not set by the constructor are zero. *)
From Verif Require Export M_basic M_stream1.
Section M.
Context {A : Arith}.

(** Bound of a loop [for (int j = ...; j < x; ++j)] whose bound [x] is a double: the smallest
    int not below [x].  Only used for x >= 1. *)
Definition ceilto (x : T) : res Z :=
  let* n := cast x in
  Ok (if #n .< x then n + 1 else n).

(** A loop body that does nothing, for loops whose counter starts at 1. *)
Definition skip {S} (nout : nat) : body S := fun _ s => Ok (s, repeat [] nout).

(** ** vi *)
(** vi.cc:16-19 *)
Definition ti_vi_start : startfn := fun options =>
  match options with [o0] => cast o0 | _ => Ub BadArgs end.

(** True range with the previous close, vi.cc:38, 46-48, 171, 203-204; [abs] on doubles is
    std::abs(double) *)
Definition vi_tr (h l c1 : T) : T := fmaxf (h .- l) (fmaxf (fabs (h .- c1)) (fabs (l .- c1))).

(** vi.cc:40, 49: x ? x / tr : 0 *)
Definition vi_ratio (x tr : T) : T := if truth x then x ./ tr else #0.

(** The increments of the three sums at bar [i], vi.cc:36-38, 44-48 *)
Definition vi_terms (high low close : list T) (i : Z) : res (T * T * T) :=
  let* h := rd high i in
  let* l := rd low i in
  let* h1 := rd high (i - 1) in
  let* l1 := rd low (i - 1) in
  let* c1 := rd close (i - 1) in
  Ok (fabs (h .- l1), fabs (l .- h1), vi_tr h l c1).

(** vi.cc:21-54.  The first loop (k = 1 .. period) overwrites vi_p[0] and vi_m[0] in every
    pass; the values of the last pass remain, so they are emitted at bar [period]. *)
Definition ti_vi : batchfn := fun size inputs options =>
  match inputs, options with
  | [high; low; close], [o0] =>
    let* period := cast o0 in
    if (period <? 1) || (period >=? size) then Ok (INVALID_OPTION, [[]; []]) else
    batch_loops 2 size
    {| bounded := [(1, skip 2);
         (period, fun i '(vp, vm, tr) =>
         let* (a, b, c) := vi_terms high low close i in
         Ok ((vp .+ a, vm .+ b, tr .+ c), [[]; []]));
         (period + 1, fun i '(vp, vm, tr) =>
         let* (a, b, c) := vi_terms high low close i in
         let vp := vp .+ a in
         let vm := vm .+ b in
         let tr := tr .+ c in
         Ok ((vp, vm, tr), [[vi_ratio vp tr]; [vi_ratio vm tr]]))];
       final := fun i '(vp, vm, tr) =>
         let* (a0, b0, c0) := vi_terms high low close (i - period) in
         let* (a, b, c) := vi_terms high low close i in
         let vp := vp .- a0 .+ a in
         let vm := vm .- b0 .+ b in
         let tr := tr .- c0 .+ c in
         Ok ((vp, vm, tr), [[vi_ratio vp tr]; [vi_ratio vm tr]]) |} (#0, #0, #0)
  | _, _ => Ub BadArgs
  end.

(** The three sums and the three queues of ti_vi_stream, vi.cc:104-123 *)
Definition vi_state : Type := (T * T * T) * (list T * list T * list T).

(** vi.cc:125-140 *)
Definition ti_vi_stream_new : newfn (stream (T * vi_state)) := fun options =>
  match options with
  | [period] =>
    if period .< #1 then Ok (INVALID_OPTION, None) else
    let* start := ti_vi_start options in
    Ok (OKAY, Some {| progress := - start; core := (period, ((#0, #0, #0), ([], [], []))) |})
  | _ => Ub BadArgs
  end.

(** One pass of the while loop, vi.cc:168-176 *)
Definition vi_fill (high low close : list T) (i : Z) (s : vi_state) : res vi_state :=
  let '((vp, vm, tr), (hs, ls, cs)) := s in
  let* h := rd high i in
  let* l := rd low i in
  let* c := rd close i in
  let* (vp, vm, tr) := if zlen hs >? 0 then
      let* hb := rd hs (zlen hs - 1) in
      let* lb := rd ls (zlen ls - 1) in
      let* cb := rd cs (zlen cs - 1) in
      Ok (vp .+ fabs (h .- lb), vm .+ fabs (l .- hb), tr .+ vi_tr h l cb)
    else Ok (vp, vm, tr) in
  Ok ((vp, vm, tr), (hs ++ [h], ls ++ [l], cs ++ [c])).

(** The while loop, vi.cc:167-180; [n] is the number of bars left *)
Fixpoint vi_warm (high low close : list T) (period : T) (n : nat) (i : Z) (s : vi_state) : res (Z * vi_state) :=
  match n with
  | O => Ok (i, s)
  | Datatypes.S n =>
    let '(_, (hs, _, _)) := s in
    if #(zlen hs) .<= period then
      let* s := vi_fill high low close i s in
      vi_warm high low close period n (i + 1) s
    else Ok (i, s)
  end.

(** vi.cc:182-183, 210-211 *)
Definition vi_out (s : vi_state) : list (list T) :=
  let '((vp, vm, tr), _) := s in [[vi_ratio vp tr]; [vi_ratio vm tr]].

(** pop and front of a queue *)
Definition qpop (q : list T) : res (list T) :=
  match q with [] => Ub OobRead | _ :: q => Ok q end.

(** One pass of the last loop, vi.cc:187-213 *)
Definition vi_roll (high low close : list T) : body vi_state := fun i s =>
  let '((vp, vm, tr), (hs, ls, cs)) := s in
  let* h := rd high i in
  let* l := rd low i in
  let* c := rd close i in
  let* hf := rd hs 0 in
  let* lf := rd ls 0 in
  let* cf := rd cs 0 in
  let* hs := qpop hs in
  let* ls := qpop ls in
  let* cs := qpop cs in
  let* h0 := rd hs 0 in
  let* l0 := rd ls 0 in
  let* hb := rd hs (zlen hs - 1) in
  let* lb := rd ls (zlen ls - 1) in
  let* cb := rd cs (zlen cs - 1) in
  let vp := vp .- fabs (h0 .- lf) .+ fabs (h .- lb) in
  let vm := vm .- fabs (l0 .- hf) .+ fabs (l .- hb) in
  let tr := tr .- vi_tr h0 l0 cf .+ vi_tr h l cb in
  let s := ((vp, vm, tr), (hs ++ [h], ls ++ [l], cs ++ [c])) in
  Ok (s, vi_out s).

(** vi.cc:146-221; [progress] is incremented once per bar in both loops *)
Definition ti_vi_stream_run : runfn (stream (T * vi_state)) := fun ptr size inputs =>
  match inputs with
  | [high; low; close] =>
    let '(period, s) := core ptr in
    let '(_, (hs, _, _)) := s in
    let* (index, s, o) := if #(zlen hs) .<= period then
        let* (index, s) := vi_warm high low close period (Z.to_nat size) 0 s in
        let '(_, (hs, _, _)) := s in
        Ok (index, s, if #(zlen hs) .> period then vi_out s else [[]; []])
      else Ok (0, s, [[]; []]) in
    let* (s, o) := emits index size (vi_roll high low close) (s, o) in
    Ok (OKAY, {| progress := progress ptr + size; core := (period, s) |}, o)
  | _ => Ub BadArgs
  end.

(** ** atr *)
(** atr.cc:16-18 is [start_p1]; atr.cc:21-58 *)
Definition ti_atr : batchfn := fun size inputs options =>
  match inputs, options with
  | [high; low; close], [o0] =>
    let* period := cast o0 in
    if period <? 1 then Ok (INVALID_OPTION, [[]]) else
    let* start := start_p1 options in
    if size <=? start then Ok (OKAY, [[]]) else
    let per := #1 ./ #period in
    let* h := rd high 0 in
    let* l := rd low 0 in
    let sum := #0 .+ (h .- l) in
    let* sum := for_ 1 period (fun i sum =>
        let* tr := CALC_TRUERANGE high low close i in
        Ok (sum .+ tr)) sum in
    let val := sum ./ #period in
    let* (_, out) := for_ period size (fun i '(val, out) =>
        let* tr := CALC_TRUERANGE high low close i in
        let val := (tr .- val) .* per .+ val in
        Ok (val, out ++ [val])) (val, [val]) in
    let* _ := check Assert (zlen out =? size - start) in
    Ok (OKAY, [out])
  | _, _ => Ub BadArgs
  end.

(** atr.cc:61-89 *)
Definition ti_atr_ref : batchfn := fun size inputs options =>
  let* (tr_ret, tr_outputs) := ti_tr size inputs [] in
  match tr_ret with
  | OKAY => ti_wilders size tr_outputs options
  | _ => Ok (tr_ret, [[]])
  end.

(** atr.cc:103-117: constants period; state (sum, last, last_close) *)
Definition ti_atr_stream_new : newfn (stream (Z * (T * T * T))) := fun options =>
  match options with
  | [o0] =>
    let* period := cast o0 in
    if period <? 1 then Ok (INVALID_OPTION, None) else
    let* start := start_p1 options in
    Ok (OKAY, Some {| progress := - start; core := (period, (#0, #0, #0)) |})
  | _ => Ub BadArgs
  end.

(** atr.cc:123-130, macro CALC_TRUERANGE of the stream *)
Definition atr_tr (h l c : T) : T :=
  let ych := fabs (h .- c) in
  let ycl := fabs (l .- c) in
  let v := h .- l in
  let v := if ych .> v then ych else v in
  if ycl .> v then ycl else v.

(** atr.cc:153-158, one pass *)
Definition atr_add (high low close : list T) (i : Z) (s : T * T * T) : res (T * T * T) :=
  let '(sum, last, last_close) := s in
  let* h := rd high i in
  let* l := rd low i in
  let* c := rd close i in
  Ok (sum .+ atr_tr h l last_close, last, c).

(** atr.cc:170-176, one pass.  [val] is written back to ptr->last at line 178; here the state
    carries it throughout. *)
Definition atr_next (per : T) (high low close : list T) : body (T * T * T) := fun i '(sum, val, last_close) =>
  let* h := rd high i in
  let* l := rd low i in
  let* c := rd close i in
  let val := (atr_tr h l last_close .- val) .* per .+ val in
  Ok ((sum, val, c), [[val]]).

(** atr.cc:119-182 *)
Definition ti_atr_stream_run : runfn (stream (Z * (T * T * T))) := fun ptr size inputs =>
  match inputs with
  | [high; low; close] =>
    let '(period, s) := core ptr in
    let per := #1 ./ #period in
    let start := - (period - 1) in
    let* (i, p, s, o) := if progress ptr <? 1 then
        let* (i, p, s) := if (progress ptr =? start) && (0 <? size) then
            let '(_, last, _) := s in
            let* h := rd high 0 in
            let* l := rd low 0 in
            let* c := rd close 0 in
            Ok (1, progress ptr + 1, (h .- l, last, c))
          else Ok (0, progress ptr, s) in
        let j := Z.max i (Z.min size (i + (1 - p))) in
        let* s := for_ i j (atr_add high low close) s in
        let p := p + (j - i) in
        if p =? 1 then
          let '(sum, _, last_close) := s in
          let val := sum .* per in
          Ok (j, p, (sum, val, last_close), [[val]])
        else Ok (j, p, s, [[]])
      else Ok (0, progress ptr, s, [[]]) in
    if p >=? 1 then
      let* (s, o) := emits i size (atr_next per high low close) (s, o) in
      Ok (OKAY, {| progress := p + (size - i); core := (period, s) |}, o)
    else Ok (OKAY, {| progress := p; core := (period, s) |}, o)
  | _ => Ub BadArgs
  end.

(** ** lma *)
(** lma.cc:15-19 and, with a second option not used here, pwma.cc:14-19, posc.cc:13-17,
    pbands.cc:12-15: double period - 1 converted to int *)
Definition start_fm1 (o0 : T) : res Z := cast (o0 .- #1).
Definition ti_lma_start : startfn := fun options =>
  match options with [o0] => start_fm1 o0 | _ => Ub BadArgs end.

(** lma.cc:21-54 *)
Definition ti_lma : batchfn := fun size inputs options =>
  match inputs, options with
  | [series], [o0] =>
    let* period := cast o0 in
    if period <? 1 then Ok (INVALID_OPTION, [[]]) else
    let* denom := for_ 0 period (fun i denom => Ok (denom .+ #(i + 1))) #0 in
    batch_loops 1 size
    {| bounded := [(period - 1, fun i '(wsum_price, sum_price) =>
         let* x := rd series i in
         Ok ((wsum_price .+ #(i + 1) .* x, sum_price .+ x), [[]]))];
       final := fun i '(wsum_price, sum_price) =>
         let* x := rd series i in
         let wsum_price := wsum_price .+ #period .* x in
         let sum_price := sum_price .+ x in
         let v := #2 .* wsum_price ./ denom .- sum_price ./ #period in
         let wsum_price := wsum_price .- sum_price in
         let* old := rd series (i - period + 1) in
         Ok ((wsum_price, sum_price .- old), [[v]]) |} (#0, #0)
  | _, _ => Ub BadArgs
  end.

(** lma.cc:98-123: constants (period, denom_recipr, period_recipr) *)
Definition ti_lma_stream_new : newfn (stream ((Z * T * T) * (T * T * ring))) := fun options =>
  match options with
  | [period] =>
    if period .< #1 then Ok (INVALID_OPTION, None) else
    let* start := ti_lma_start options in
    let* n := cast period in
    let* price := ring_new n in
    Ok (OKAY, Some {| progress := - start;
      core := ((n, #1 ./ ((#1 .+ period) ./ #2 .* period), #1 ./ period), (#0, #0, price)) |})
  | _ => Ub BadArgs
  end.

(** lma.cc:129-165 *)
Definition lma_loops (k : Z * T * T) (p : Z) (inputs : list (list T)) : loops (T * T * ring) :=
  match inputs with
  | [series] =>
    let '(period, denom_recipr, period_recipr) := k in
    {| bounded := [(0 - p, fun i '(wsum_price, sum_price, price) =>
         let* x := rd series i in
         let* price := ring_set price x in
         Ok ((wsum_price .+ #(p + i + (period - 1) + 1) .* x, sum_price .+ x, ring_step price), [[]]))];
       final := fun i '(wsum_price, sum_price, price) =>
         let* x := rd series i in
         let wsum_price := wsum_price .+ #period .* x in
         let sum_price := sum_price .+ x in
         let* price := ring_set price x in
         let v := #2 .* wsum_price .* denom_recipr .- sum_price .* period_recipr in
         let wsum_price := wsum_price .- sum_price in
         let* old := ring_get price (period - 1) in
         Ok ((wsum_price, sum_price .- old, ring_step price), [[v]]) |}
  | _ => bad_loops
  end.
Definition ti_lma_stream_run := mkrun 1 lma_loops.

(** ** pwma *)
(** pwma.cc:14-19 *)
Definition ti_pwma_start : startfn := fun options =>
  match options with [o0; _] => start_fm1 o0 | _ => Ub BadArgs end.

(** pwma.cc:21-44; ti_pwma_ref (pwma.cc:46-69) is the same code *)
Definition ti_pwma : batchfn := fun size inputs options =>
  match inputs, options with
  | [series], [o0; power] =>
    let* period := cast o0 in
    if period <? 1 then Ok (INVALID_OPTION, [[]]) else
    let* denom := for_ 0 (Z.min period size) (fun i denom => Ok (denom .+ fpow #(i + 1) power)) #0 in
    let* out := for_ (period - 1) size (fun i out =>
      let* numer := for_ 0 period (fun j numer =>
        let* x := rd series (i - j) in
        Ok (numer .+ x .* fpow #(period - j) power)) #0 in
      Ok (out ++ [numer ./ denom])) [] in
    Ok (OKAY, [out])
  | _, _ => Ub BadArgs
  end.

(** pwma.cc:87-115: constants (period, power, denom_recipr) *)
Definition ti_pwma_stream_new : newfn (stream ((Z * T * T) * ring)) := fun options =>
  match options with
  | [o0; power] =>
    let* period := cast o0 in
    if period <? 1 then Ok (INVALID_OPTION, None) else
    let* start := ti_pwma_start options in
    let* n := ck (period + 1) in
    let* price := ring_new n in
    let* d := for_ 0 period (fun i d => Ok (d .+ fpow #(i + 1) power)) #0 in
    Ok (OKAY, Some {| progress := - start; core := ((period, power, #1 ./ d), price) |})
  | _ => Ub BadArgs
  end.

(** pwma.cc:121-149 *)
Definition pwma_loops (k : Z * T * T) (p : Z) (inputs : list (list T)) : loops ring :=
  match inputs with
  | [series] =>
    let '(period, power, denom_recipr) := k in
    {| bounded := [(0 - p, fun i price =>
         let* x := rd series i in
         let* price := ring_set price x in
         Ok (ring_step price, [[]]))];
       final := fun i price =>
         let* x := rd series i in
         let* price := ring_set price x in
         let* numer := for_ 0 period (fun j numer =>
           let* x := ring_get price j in
           Ok (numer .+ x .* fpow #(period - j) power)) #0 in
         Ok (ring_step price, [[numer .* denom_recipr]]) |}
  | _ => bad_loops
  end.
Definition ti_pwma_stream_run := mkrun 1 pwma_loops.

(** ** dwma *)
(** dwma.cc:15-19: the double 2*(period-1), converted to int *)
Definition ti_dwma_start : startfn := fun options =>
  match options with [period] => cast (#2 .* (period .- #1)) | _ => Ub BadArgs end.

(** dwma.cc:21-75.  [2*(period-1)] in the loop condition is an int product. *)
Definition ti_dwma : batchfn := fun size inputs options =>
  match inputs, options with
  | [series], [o0] =>
    let* period := cast o0 in
    if period <? 1 then Ok (INVALID_OPTION, [[]]) else
    let denom := (#1 .+ #period) .* #period ./ #2 in
    let* filt1 := ring_new period in
    let* st := ck (2 * (period - 1)) in
    batch_loops 1 size
    {| bounded := [(period - 1, fun i '(numer1, sum1, numer2, sum2, filt1) =>
         let* x := rd series i in
         Ok ((numer1 .+ #(i + 1) .* x, sum1 .+ x, numer2, sum2, filt1), [[]]));
         (st, fun i '(numer1, sum1, numer2, sum2, filt1) =>
         let* x := rd series i in
         let numer1 := numer1 .+ #period .* x in
         let sum1 := sum1 .+ x in
         let* filt1 := ring_set filt1 (numer1 ./ denom) in
         let numer1 := numer1 .- sum1 in
         let* old := rd series (i - period + 1) in
         let sum1 := sum1 .- old in
         let* f := ring_cur filt1 in
         Ok ((numer1, sum1, numer2 .+ #(i - (period - 1) + 1) .* f, sum2 .+ f, ring_step filt1), [[]]))];
       final := fun i '(numer1, sum1, numer2, sum2, filt1) =>
         let* x := rd series i in
         let numer1 := numer1 .+ #period .* x in
         let sum1 := sum1 .+ x in
         let* filt1 := ring_set filt1 (numer1 ./ denom) in
         let numer1 := numer1 .- sum1 in
         let* old := rd series (i - period + 1) in
         let sum1 := sum1 .- old in
         let* f := ring_cur filt1 in
         let numer2 := numer2 .+ #period .* f in
         let sum2 := sum2 .+ f in
         let v := numer2 ./ denom in
         let numer2 := numer2 .- sum2 in
         let* oldf := ring_get filt1 (period - 1) in
         Ok ((numer1, sum1, numer2, sum2 .- oldf, ring_step filt1), [[v]]) |} (#0, #0, #0, #0, filt1)
  | _, _ => Ub BadArgs
  end.

(** dwma.cc:116-147: constants (period, denom); state (numer1, sum1, numer2, sum2, filt1, price).
    [resize(period)] converts the double to the buffer length. *)
Definition ti_dwma_stream_new : newfn (stream ((Z * T) * (T * T * T * T * ring * ring))) := fun options =>
  match options with
  | [period] =>
    if period .< #1 then Ok (INVALID_OPTION, None) else
    let* start := ti_dwma_start options in
    let* n := cast period in
    let* price := ring_new n in
    let* filt1 := ring_new n in
    Ok (OKAY, Some {| progress := - start;
      core := ((n, (#1 .+ period) .* period ./ #2), (#0, #0, #0, #0, filt1, price)) |})
  | _ => Ub BadArgs
  end.

(** dwma.cc:153-216.  The int product 2*(period-1) of line 172 is at most [-progress] of a new
    stream, so it fits an int. *)
Definition dwma_loops (k : Z * T) (p : Z) (inputs : list (list T)) : loops (T * T * T * T * ring * ring) :=
  match inputs with
  | [series] =>
    let '(period, denom) := k in
    {| bounded := [(- (period - 1) - p, fun i '(numer1, sum1, numer2, sum2, filt1, price) =>
         let* x := rd series i in
         let* price := ring_set price x in
         Ok ((numer1 .+ #(p + i + 2 * (period - 1) + 1) .* x, sum1 .+ x, numer2, sum2, filt1, ring_step price), [[]]));
         (0 - p, fun i '(numer1, sum1, numer2, sum2, filt1, price) =>
         let* x := rd series i in
         let* price := ring_set price x in
         let numer1 := numer1 .+ #period .* x in
         let sum1 := sum1 .+ x in
         let* filt1 := ring_set filt1 (numer1 ./ denom) in
         let numer1 := numer1 .- sum1 in
         let* old := ring_get price (period - 1) in
         let sum1 := sum1 .- old in
         let* f := ring_cur filt1 in
         Ok ((numer1, sum1, numer2 .+ #(p + i + (period - 1) + 1) .* f, sum2 .+ f, ring_step filt1, ring_step price), [[]]))];
       final := fun i '(numer1, sum1, numer2, sum2, filt1, price) =>
         let* x := rd series i in
         let* price := ring_set price x in
         let numer1 := numer1 .+ #period .* x in
         let sum1 := sum1 .+ x in
         let* filt1 := ring_set filt1 (numer1 ./ denom) in
         let numer1 := numer1 .- sum1 in
         let* old := ring_get price (period - 1) in
         let sum1 := sum1 .- old in
         let* f := ring_cur filt1 in
         let numer2 := numer2 .+ #period .* f in
         let sum2 := sum2 .+ f in
         let v := numer2 ./ denom in
         let numer2 := numer2 .- sum2 in
         let* oldf := ring_get filt1 (period - 1) in
         Ok ((numer1, sum1, numer2, sum2 .- oldf, ring_step filt1, ring_step price), [[v]]) |}
  | _ => bad_loops
  end.
Definition ti_dwma_stream_run := mkrun 1 dwma_loops.

(** ** ehma *)
(** ehma.cc:15-19 *)
Definition ti_ehma_start : startfn := fun options =>
  match options with [o0] => let* _ := cast o0 in Ok 0 | _ => Ub BadArgs end.

(** ehma.cc:21-54; the averages are uninitialised before the first bar *)
Definition ti_ehma : batchfn := fun size inputs options =>
  match inputs, options with
  | [series], [o0] =>
    let* period := cast o0 in
    if period <? 1 then Ok (INVALID_OPTION, [[]]) else
    let n2 := #period ./ #2 in
    let n := #period in
    let n05 := fsqrt #period in
    batch_loops 1 size
    {| bounded := [(1, fun i _ =>
         let* x := rd series i in
         let ema_n2 := x in
         let ema_n := x in
         let ema_n05 := #2 .* ema_n2 .- ema_n in
         Ok (Some (ema_n2, ema_n, ema_n05), [[ema_n05]]))];
       final := fun i s =>
         let* (ema_n2, ema_n, ema_n05) := val s in
         let* x := rd series i in
         let ema_n2 := (x .- ema_n2) .* #2 ./ (n2 .+ #1) .+ ema_n2 in
         let ema_n := (x .- ema_n) .* #2 ./ (n .+ #1) .+ ema_n in
         let ema_n05 := ((#2 .* ema_n2 .- ema_n) .- ema_n05) .* #2 ./ (n05 .+ #1) .+ ema_n05 in
         Ok (Some (ema_n2, ema_n, ema_n05), [[ema_n05]]) |} None
  | _, _ => Ub BadArgs
  end.

(** ehma.cc:107-126: constants (n2_plus1_recipr, n_plus1_recipr, n05_plus1_recipr) *)
Definition ti_ehma_stream_new : newfn (stream ((T * T * T) * (T * T * T))) := fun options =>
  match options with
  | [o0] =>
    let* period := cast o0 in
    if period <? 1 then Ok (INVALID_OPTION, None) else
    let* start := ti_ehma_start options in
    let* p1 := ck (period + 1) in
    Ok (OKAY, Some {| progress := - start;
      core := ((#1 ./ (#period ./ #2 .+ #1), #1 ./ #p1, #1 ./ (fsqrt #period .+ #1)), (#0, #0, #0)) |})
  | _ => Ub BadArgs
  end.

(** ehma.cc:132-169 *)
Definition ehma_loops (k : T * T * T) (p : Z) (inputs : list (list T)) : loops (T * T * T) :=
  match inputs with
  | [series] =>
    let '(r2, r1, r05) := k in
    {| bounded := [(1 - p, fun i _ =>
         let* x := rd series i in
         let ema_n2 := x in
         let ema_n := x in
         let ema_n05 := #2 .* ema_n2 .- ema_n in
         Ok ((ema_n2, ema_n, ema_n05), [[ema_n05]]))];
       final := fun i '(ema_n2, ema_n, ema_n05) =>
         let* x := rd series i in
         let ema_n2 := (x .- ema_n2) .* #2 .* r2 .+ ema_n2 in
         let ema_n := (x .- ema_n) .* #2 .* r1 .+ ema_n in
         let ema_n05 := ((#2 .* ema_n2 .- ema_n) .- ema_n05) .* #2 .* r05 .+ ema_n05 in
         Ok ((ema_n2, ema_n, ema_n05), [[ema_n05]]) |}
  | _ => bad_loops
  end.
Definition ti_ehma_stream_run := mkrun 1 ehma_loops.

(** ** copp *)
(** copp.cc:13-19, macro START on doubles *)
Definition copp_START (long wma : T) : T := long .+ wma .- #1.
Definition ti_copp_start : startfn := fun options =>
  match options with [_; long; wma] => cast (copp_START long wma) | _ => Ub BadArgs end.

(** copp.cc:49-51, 59-61, 206-208, 216-218 *)
Definition copp_roc (price : ring) (short long : Z) : res T :=
  let* ps := ring_get price short in
  if truth ps then
    let* pl := ring_get price long in
    if truth pl then
      let* x := ring_cur price in
      Ok (((x ./ ps .- #1) .+ (x ./ pl .- #1)) ./ #2 .* #100)
    else Ok #0
  else Ok #0.

(** copp.cc:22-74.  All periods are doubles; the first two loops do not test the size, so
    running past it would read outside the series. *)
Definition ti_copp : batchfn := fun size inputs options =>
  match inputs, options with
  | [series], [short; long; wma] =>
    if (short .< #1) || (long .< #1) || (wma .< #1) then Ok (INVALID_OPTION, [[]]) else
    if long .< short then Ok (INVALID_OPTION, [[]]) else
    let* start := ti_copp_start options in
    if size <=? start then Ok (OKAY, [[]]) else
    let* ns := cast short in
    let* nl := cast long in
    let* np := cast (long .+ #1) in
    let* price := ring_new np in
    let* nr := cast (wma .+ #1) in
    let* rocs := ring_new nr in
    let* nw := cast (wma .- #1) in
    let denominator := #1 ./ (wma .* (wma .+ #1) ./ #2) in
    let* c1 := ceilto long in
    let* c2 := ceilto (copp_START long wma) in
    let* _ := check OobRead (c2 <=? size) in
    batch_loops 1 size
    {| bounded := [(c1, fun i '(flat, weighted, price, rocs) =>
         let* x := rd series i in
         let* price := ring_set price x in
         Ok ((flat, weighted, ring_step price, ring_step rocs), [[]]));
         (c2, fun i '(flat, weighted, price, rocs) =>
         let* x := rd series i in
         let* price := ring_set price x in
         let* v := copp_roc price ns nl in
         let* rocs := ring_set rocs v in
         let* r := ring_cur rocs in
         Ok ((flat .+ r, weighted .+ r .* (#(i + 1) .- long), ring_step price, ring_step rocs), [[]]))];
       final := fun i '(flat, weighted, price, rocs) =>
         let* x := rd series i in
         let* price := ring_set price x in
         let* v := copp_roc price ns nl in
         let* rocs := ring_set rocs v in
         let* r := ring_cur rocs in
         let weighted := weighted .+ r .* wma in
         let flat := flat .+ r in
         let out := weighted .* denominator in
         let weighted := weighted .- flat in
         let* old := ring_get rocs nw in
         Ok ((flat .- old, weighted, ring_step price, ring_step rocs), [[out]]) |} (#0, #0, price, rocs)
  | _, _ => Ub BadArgs
  end.

(** copp.cc:139-174: constants (roc_shorter_period, roc_longer_period, wma_period, denominator).
    The three casts come before the checks; wma_period * (wma_period + 1) / 2 is an int
    expression. *)
Definition ti_copp_stream_new : newfn (stream ((Z * Z * Z * T) * (T * T * ring * ring))) := fun options =>
  match options with
  | [o0; o1; o2] =>
    let* short := cast o0 in
    let* long := cast o1 in
    let* wma := cast o2 in
    if (o0 .< #1) || (o1 .< #1) || (o2 .< #1) then Ok (INVALID_OPTION, None) else
    if long <? short then Ok (INVALID_OPTION, None) else
    let* start := ti_copp_start options in
    let* w1 := ck (wma + 1) in
    let* w2 := ck (wma * w1) in
    let* l1 := ck (long + 1) in
    let* price := ring_new l1 in
    let* rocs := ring_new w1 in
    Ok (OKAY, Some {| progress := - start;
      core := ((short, long, wma, #1 ./ #(Z.quot w2 2)), (#0, #0, price, rocs)) |})
  | _ => Ub BadArgs
  end.

(** copp.cc:180-233, START on ints *)
Definition copp_loops (k : Z * Z * Z * T) (p : Z) (inputs : list (list T)) : loops (T * T * ring * ring) :=
  match inputs with
  | [series] =>
    let '(short, long, wma, denominator) := k in
    let START := long + wma - 1 in
    {| bounded := [(- START + long - p, fun i '(flat, weighted, price, rocs) =>
         let* x := rd series i in
         let* price := ring_set price x in
         Ok ((flat, weighted, ring_step price, ring_step rocs), [[]]));
         (- START + long + wma - 1 - p, fun i '(flat, weighted, price, rocs) =>
         let* x := rd series i in
         let* price := ring_set price x in
         let* v := copp_roc price short long in
         let* rocs := ring_set rocs v in
         let* r := ring_cur rocs in
         Ok ((flat .+ r, weighted .+ r .* #(p + i + 1 - (- START + long)), ring_step price, ring_step rocs), [[]]))];
       final := fun i '(flat, weighted, price, rocs) =>
         let* x := rd series i in
         let* price := ring_set price x in
         let* v := copp_roc price short long in
         let* rocs := ring_set rocs v in
         let* r := ring_cur rocs in
         let weighted := weighted .+ r .* #wma in
         let flat := flat .+ r in
         let out := weighted .* denominator in
         let weighted := weighted .- flat in
         let* old := ring_get rocs (wma - 1) in
         Ok ((flat .- old, weighted, ring_step price, ring_step rocs), [[out]]) |}
  | _ => bad_loops
  end.
Definition ti_copp_stream_run := mkrun 1 copp_loops.

(** ** pfe *)
(** pfe.cc:13-18 *)
Definition ti_pfe_start : startfn := fun options =>
  match options with [period; _] => cast period | _ => Ub BadArgs end.

(** pfe.cc:46, 50, 58, 186, 191, 201 *)
Definition pfe_denom (x x1 : T) : T := fsqrt (fpow (x .- x1) #2 .+ #1).
(** pfe.cc:52, 60, 193, 203, with the macro SIGN (pfe.cc:34, 171) *)
Definition pfe_numer (x xp : T) : T :=
  (if x .- xp .> #0 then #1 else #(-1)) .* #100 .* fsqrt (fpow (x .- xp) #2 .+ #100).

(** pfe.cc:24-72.  The counter starts at 1 and the first two loops do not test the size, which
    is greater than [period] here. *)
Definition ti_pfe : batchfn := fun size inputs options =>
  match inputs, options with
  | [series], [o0; o1] =>
    let* period := cast o0 in
    let* ema_period := cast o1 in
    if period <? 1 then Ok (INVALID_OPTION, [[]]) else
    if ema_period <? 1 then Ok (INVALID_OPTION, [[]]) else
    let* start := ti_pfe_start options in
    if size <=? start then Ok (OKAY, [[]]) else
    let per := #2 ./ (#ema_period .+ #1) in
    let* denom := ring_new period in
    let* (rc, outs) := batch_loops 1 size
    {| bounded := [(1, skip 1);
         (period, fun i '(sum, ema, denom) =>
         let* x := rd series i in
         let* x1 := rd series (i - 1) in
         let* denom := ring_set denom (pfe_denom x x1) in
         let* d := ring_cur denom in
         Ok ((sum .+ d, ema, ring_step denom), [[]]));
         (period + 1, fun i '(sum, ema, denom) =>
         let* x := rd series i in
         let* x1 := rd series (i - 1) in
         let* denom := ring_set denom (pfe_denom x x1) in
         let* d := ring_cur denom in
         let sum := sum .+ d in
         let* xp := rd series (i - period) in
         let ema := pfe_numer x xp ./ sum in
         let* old := ring_get denom (period - 1) in
         Ok ((sum .- old, Some ema, ring_step denom), [[ema]]))];
       final := fun i '(sum, ema, denom) =>
         let* x := rd series i in
         let* x1 := rd series (i - 1) in
         let* denom := ring_set denom (pfe_denom x x1) in
         let* d := ring_cur denom in
         let sum := sum .+ d in
         let* xp := rd series (i - period) in
         let* ema := val ema in
         let ema := (pfe_numer x xp ./ sum .- ema) .* per .+ ema in
         let* old := ring_get denom (period - 1) in
         Ok ((sum .- old, Some ema, ring_step denom), [[ema]]) |} (#0, None, denom) in
    let* _ := check Assert (forallb (fun o => zlen o =? size - start) outs) in
    Ok (rc, outs)
  | _, _ => Ub BadArgs
  end.

(** pfe.cc:123-151: constants (period, per); state (ema, sum, price, denom).  The member numer
    is only written. *)
Definition ti_pfe_stream_new : newfn (stream ((Z * T) * (T * T * ring * ring))) := fun options =>
  match options with
  | [period; ema_period] =>
    if period .< #1 then Ok (INVALID_OPTION, None) else
    if ema_period .< #1 then Ok (INVALID_OPTION, None) else
    let* start := ti_pfe_start options in
    let* n := cast period in
    let* _ := cast ema_period in
    let* n1 := cast (period .+ #1) in
    let* price := ring_new n1 in
    let* denom := ring_new n in
    Ok (OKAY, Some {| progress := - start;
      core := ((n, #2 ./ (ema_period .+ #1)), (#0, #0, price, denom)) |})
  | _ => Ub BadArgs
  end.

(** pfe.cc:157-216 *)
Definition pfe_loops (k : Z * T) (p : Z) (inputs : list (list T)) : loops (T * T * ring * ring) :=
  match inputs with
  | [series] =>
    let '(period, per) := k in
    {| bounded := [(- period + 1 - p, fun i '(ema, sum, price, denom) =>
         let* x := rd series i in
         let* price := ring_set price x in
         Ok ((ema, sum, ring_step price, ring_step denom), [[]]));
         (0 - p, fun i '(ema, sum, price, denom) =>
         let* x := rd series i in
         let* price := ring_set price x in
         let* x := ring_cur price in
         let* x1 := ring_get price 1 in
         let* denom := ring_set denom (pfe_denom x x1) in
         let* d := ring_cur denom in
         Ok ((ema, sum .+ d, ring_step price, ring_step denom), [[]]));
         (1 - p, fun i '(ema, sum, price, denom) =>
         let* x := rd series i in
         let* price := ring_set price x in
         let* x := ring_cur price in
         let* x1 := ring_get price 1 in
         let* denom := ring_set denom (pfe_denom x x1) in
         let* d := ring_cur denom in
         let sum := sum .+ d in
         let* xp := ring_get price period in
         let ema := pfe_numer x xp ./ sum in
         let* old := ring_get denom (period - 1) in
         Ok ((ema, sum .- old, ring_step price, ring_step denom), [[ema]]))];
       final := fun i '(ema, sum, price, denom) =>
         let* x := rd series i in
         let* price := ring_set price x in
         let* x := ring_cur price in
         let* x1 := ring_get price 1 in
         let* denom := ring_set denom (pfe_denom x x1) in
         let* d := ring_cur denom in
         let sum := sum .+ d in
         let* xp := ring_get price period in
         let ema := (pfe_numer x xp ./ sum .- ema) .* per .+ ema in
         let* old := ring_get denom (period - 1) in
         Ok ((ema, sum .- old, ring_step price, ring_step denom), [[ema]]) |}
  | _ => bad_loops
  end.
Definition ti_pfe_stream_run := mkrun 1 pfe_loops.

(** ** posc, pbands *)
(** posc.cc:13-17 *)
Definition ti_posc_start : startfn := fun options =>
  match options with [o0; _] => start_fm1 o0 | _ => Ub BadArgs end.
(** pbands.cc:12-15 *)
Definition ti_pbands_start : startfn := fun options =>
  match options with [o0] => start_fm1 o0 | _ => Ub BadArgs end.

(** x_sum and xsq_sum with int products, posc.cc:36-37, pbands.cc:30-31 *)
Definition xsums (period : Z) : res (T * T) :=
  let* q := ck (period + 1) in
  let* s := ck (period * q) in
  let* d := ck (2 * period) in
  let* d := ck (d + 1) in
  let* t := ck (s * d) in
  Ok (#s ./ #2, #t ./ #6).

(** Slope, posc.cc:48, 70, 232, 257, pbands.cc:48, 208 *)
Definition posc_b (period x_sum xsq_sum xy_sum y_sum : T) : T :=
  (xy_sum ./ period .- x_sum ./ period .* y_sum ./ period) ./
  (xsq_sum ./ period .- (x_sum ./ period) .* (x_sum ./ period)).

(** Largest (smallest) projected value; [rdh j] reads the value [j] bars ago,
    posc.cc:50-57, 72-79, 234-241, 259-266 *)
Definition proj_max (n : Z) (b : T) (rdh : Z -> res T) (x0 : T) : res T :=
  for_ 1 n (fun j m => let* x := rdh j in Ok (stdmax m (x .+ #j .* b))) x0.
Definition proj_min (n : Z) (b : T) (rdl : Z -> res T) (x0 : T) : res T :=
  for_ 1 n (fun j m => let* x := rdl j in Ok (stdmin m (x .+ #j .* b))) x0.

(** posc.cc:59, 81, 242, 267 *)
Definition posc_osc (c the_min the_max : T) : T :=
  if truth (c .- the_min) then (c .- the_min) ./ (the_max .- the_min) .* #100 else #0.

(** posc.cc:20-91 *)
Definition ti_posc : batchfn := fun size inputs options =>
  match inputs, options with
  | [high; low; close], [o0; o1] =>
    let* period := cast o0 in
    let* ema_period := cast o1 in
    if period <? 1 then Ok (INVALID_OPTION, [[]]) else
    if ema_period <? 1 then Ok (INVALID_OPTION, [[]]) else
    let* start := ti_posc_start options in
    if size <=? start then Ok (OKAY, [[]]) else
    let* (x_sum, xsq_sum) := xsums period in
    let bar i y_sum xy_sum :=
      let* c := rd close i in
      let xy_sum := xy_sum .+ c .* #period in
      let y_sum := y_sum .+ c in
      let b := posc_b #period x_sum xsq_sum xy_sum y_sum in
      let* h := rd high i in
      let* the_max := proj_max period b (fun j => rd high (i - j)) h in
      let* l := rd low i in
      let* the_min := proj_min period b (fun j => rd low (i - j)) l in
      let* old := rd close (i - period + 1) in
      Ok (y_sum .- old, xy_sum .- y_sum, posc_osc c the_min the_max) in
    batch_loops 1 size
    {| bounded := [(period - 1, fun i '(y_sum, xy_sum, ema) =>
         let* c := rd close i in
         Ok ((y_sum .+ c, xy_sum .+ c .* #(i + 1), ema), [[]]));
         (period, fun i '(y_sum, xy_sum, ema) =>
         let* (y_sum, xy_sum, osc) := bar i y_sum xy_sum in
         Ok ((y_sum, xy_sum, Some osc), [[osc]]))];
       final := fun i '(y_sum, xy_sum, ema) =>
         let* (y_sum, xy_sum, osc) := bar i y_sum xy_sum in
         let* ema := val ema in
         let* e1 := ck (1 + ema_period) in
         let ema := (osc .- ema) .* #2 ./ #e1 .+ ema in
         Ok ((y_sum, xy_sum, Some ema), [[ema]]) |} (#0, #0, None)
  | _, _ => Ub BadArgs
  end.

(** posc.cc:152-184: constants (period, ema_period, x_sum, xsq_sum), all doubles; state
    (y_sum, xy_sum, ema, price_high, price_low, price_close) *)
Definition ti_posc_stream_new : newfn (stream ((T * T * T * T) * (T * T * T * ring * ring * ring))) := fun options =>
  match options with
  | [period; ema_period] =>
    if period .< #1 then Ok (INVALID_OPTION, None) else
    if ema_period .< #1 then Ok (INVALID_OPTION, None) else
    let* start := ti_posc_start options in
    let x_sum := period .* (period .+ #1) ./ #2 in
    let xsq_sum := period .* (period .+ #1) .* (#2 .* period .+ #1) ./ #6 in
    let* n := cast (period .+ #1) in
    let* high := ring_new n in
    let* low := ring_new n in
    let* close := ring_new n in
    Ok (OKAY, Some {| progress := - start;
      core := ((period, ema_period, x_sum, xsq_sum), (#0, #0, #0, high, low, close)) |})
  | _ => Ub BadArgs
  end.

(** posc.cc:190-282 *)
Definition posc_loops (k : T * T * T * T) (p : Z) (inputs : list (list T)) : loops (T * T * T * ring * ring * ring) :=
  match inputs with
  | [high; low; close] =>
    let '(period, ema_period, x_sum, xsq_sum) := k in
    let bar i y_sum xy_sum rh rl rc :=
      let* h := rd high i in
      let* rh := ring_set rh h in
      let* l := rd low i in
      let* rl := ring_set rl l in
      let* c := rd close i in
      let* rc := ring_set rc c in
      let xy_sum := xy_sum .+ c .* period in
      let y_sum := y_sum .+ c in
      let b := posc_b period x_sum xsq_sum xy_sum y_sum in
      let* n := ceilto period in
      let* h := ring_cur rh in
      let* the_max := proj_max n b (ring_get rh) h in
      let* l := ring_cur rl in
      let* the_min := proj_min n b (ring_get rl) l in
      let* m := cast (period .- #1) in
      let* old := ring_get rc m in
      Ok (y_sum .- old, xy_sum .- y_sum, posc_osc c the_min the_max, rh, rl, rc) in
    {| bounded := [(0 - p, fun i '(y_sum, xy_sum, ema, rh, rl, rc) =>
         let* h := rd high i in
         let* rh := ring_set rh h in
         let* l := rd low i in
         let* rl := ring_set rl l in
         let* c := rd close i in
         let* rc := ring_set rc c in
         Ok ((y_sum .+ c, xy_sum .+ c .* (#(p + i) .- (.- period .+ #1) .+ #1), ema,
              ring_step rh, ring_step rl, ring_step rc), [[]]));
         (1 - p, fun i '(y_sum, xy_sum, ema, rh, rl, rc) =>
         let* (y_sum, xy_sum, osc, rh, rl, rc) := bar i y_sum xy_sum rh rl rc in
         Ok ((y_sum, xy_sum, osc, ring_step rh, ring_step rl, ring_step rc), [[osc]]))];
       final := fun i '(y_sum, xy_sum, ema, rh, rl, rc) =>
         let* (y_sum, xy_sum, osc, rh, rl, rc) := bar i y_sum xy_sum rh rl rc in
         let ema := (osc .- ema) .* #2 ./ (#1 .+ ema_period) .+ ema in
         Ok ((y_sum, xy_sum, ema, ring_step rh, ring_step rl, ring_step rc), [[ema]]) |}
  | _ => bad_loops
  end.
Definition ti_posc_stream_run := mkrun 1 posc_loops.

(** pbands.cc:50-61, 210-221: plain comparisons instead of std::max and std::min *)
Definition band_max (n : Z) (b : T) (rdh : Z -> res T) (x0 : T) : res T :=
  for_ 1 n (fun j m => let* x := rdh j in Ok (if m .< x .+ #j .* b then x .+ #j .* b else m)) x0.
Definition band_min (n : Z) (b : T) (rdl : Z -> res T) (x0 : T) : res T :=
  for_ 1 n (fun j m => let* x := rdl j in Ok (if m .> x .+ #j .* b then x .+ #j .* b else m)) x0.

(** pbands.cc:17-72; output 0 is the lower band *)
Definition ti_pbands : batchfn := fun size inputs options =>
  match inputs, options with
  | [high; low; close], [o0] =>
    let* period := cast o0 in
    if period <? 1 then Ok (INVALID_OPTION, [[]; []]) else
    let* (x_sum, xsq_sum) := xsums period in
    batch_loops 2 size
    {| bounded := [(period - 1, fun i '(y_sum, xy_sum) =>
         let* c := rd close i in
         Ok ((y_sum .+ c, xy_sum .+ c .* #(i + 1)), [[]; []]))];
       final := fun i '(y_sum, xy_sum) =>
         let* c := rd close i in
         let xy_sum := xy_sum .+ c .* #period in
         let y_sum := y_sum .+ c in
         let b := posc_b #period x_sum xsq_sum xy_sum y_sum in
         let* h := rd high i in
         let* the_max := band_max period b (fun j => rd high (i - j)) h in
         let* l := rd low i in
         let* the_min := band_min period b (fun j => rd low (i - j)) l in
         let* old := rd close (i - period + 1) in
         Ok ((y_sum .- old, xy_sum .- y_sum), [[the_min]; [the_max]]) |} (#0, #0)
  | _, _ => Ub BadArgs
  end.

(** pbands.cc:131-160: constants (period, x_sum, xsq_sum); state (y_sum, xy_sum, price_high,
    price_low, price_close) *)
Definition ti_pbands_stream_new : newfn (stream ((T * T * T) * (T * T * ring * ring * ring))) := fun options =>
  match options with
  | [period] =>
    if period .< #1 then Ok (INVALID_OPTION, None) else
    let* start := ti_pbands_start options in
    let x_sum := period .* (period .+ #1) ./ #2 in
    let xsq_sum := period .* (period .+ #1) .* (#2 .* period .+ #1) ./ #6 in
    let* n := cast (period .+ #1) in
    let* high := ring_new n in
    let* low := ring_new n in
    let* close := ring_new n in
    Ok (OKAY, Some {| progress := - start; core := ((period, x_sum, xsq_sum), (#0, #0, high, low, close)) |})
  | _ => Ub BadArgs
  end.

(** pbands.cc:166-235 *)
Definition pbands_loops (k : T * T * T) (p : Z) (inputs : list (list T)) : loops (T * T * ring * ring * ring) :=
  match inputs with
  | [high; low; close] =>
    let '(period, x_sum, xsq_sum) := k in
    {| bounded := [(0 - p, fun i '(y_sum, xy_sum, rh, rl, rc) =>
         let* h := rd high i in
         let* rh := ring_set rh h in
         let* l := rd low i in
         let* rl := ring_set rl l in
         let* c := rd close i in
         let* rc := ring_set rc c in
         Ok ((y_sum .+ c, xy_sum .+ c .* (#(p + i) .- (.- period .+ #1) .+ #1),
              ring_step rh, ring_step rl, ring_step rc), [[]; []]))];
       final := fun i '(y_sum, xy_sum, rh, rl, rc) =>
         let* h := rd high i in
         let* rh := ring_set rh h in
         let* l := rd low i in
         let* rl := ring_set rl l in
         let* c := rd close i in
         let* rc := ring_set rc c in
         let xy_sum := xy_sum .+ c .* period in
         let y_sum := y_sum .+ c in
         let b := posc_b period x_sum xsq_sum xy_sum y_sum in
         let* n := ceilto period in
         let* the_max := band_max n b (ring_get rh) h in
         let* the_min := band_min n b (ring_get rl) l in
         let* m := cast (period .- #1) in
         let* old := ring_get rc m in
         Ok ((y_sum .- old, xy_sum .- y_sum, ring_step rh, ring_step rl, ring_step rc), [[the_min]; [the_max]]) |}
  | _ => bad_loops
  end.
Definition ti_pbands_stream_run := mkrun 2 pbands_loops.

End M.

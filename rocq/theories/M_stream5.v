(** Models: streaming indicators, fifth group (emsd, vwap, shmma, cmi).

    As in M_stream1.v, stream members not set by the constructor are zero. *)
From Verif Require Export M_basic M_stream1 M_stream3.
Section M.
Context {A : Arith}.

(** std::max_element(buf+lo, buf+hi, cmp): the first element that no later one exceeds;
    std::min_element is the same with the comparison reversed.  Empty range: the code would
    dereference the end iterator. *)
Definition max_elem (cmp : T -> T -> bool) (buf : list T) (lo hi : Z) : res Z :=
  let* _ := check OobRead (lo <? hi) in
  let* _ := rd buf lo in
  for_ (lo + 1) hi (fun j best =>
      let* x := rd buf best in
      let* y := rd buf j in
      Ok (if cmp x y then j else best)) lo.

(** ** emsd *)
(** emsd.cc:14-19; the second option is converted to int as well *)
Definition ti_emsd_start : startfn := fun options =>
  match options with
  | [o0; o1] => let* period := cast o0 in let* _ := cast o1 in ck (period - 1)
  | _ => Ub BadArgs
  end.

(** emsd.cc:21-63; state (sum, sum2, ema), ema uninitialised at first *)
Definition ti_emsd : batchfn := fun size inputs options =>
  match inputs, options with
  | [series], [o0; o1] =>
    let* period := cast o0 in
    let* ma_period := cast o1 in
    if period <? 1 then Ok (INVALID_OPTION, [[]]) else
    if ma_period <? 1 then Ok (INVALID_OPTION, [[]]) else
    batch_loops 1 size
    {| bounded := [(period - 1, fun i '(sum, sum2, ema) =>
         let* x := rd series i in
         Ok ((sum .+ x, sum2 .+ x .* x, ema), [[]]));
         (period, fun i '(sum, sum2, ema) =>
         let* x := rd series i in
         let sum := sum .+ x in
         let sum2 := sum2 .+ x .* x in
         let variance := sum2 ./ #period .- fpow (sum ./ #period) #2 in
         let* old := rd series (i - period + 1) in
         Ok ((sum .- old, sum2 .- old .* old, Some variance), [[fsqrt variance]]))];
       final := fun i '(sum, sum2, ema) =>
         let* x := rd series i in
         let sum := sum .+ x in
         let sum2 := sum2 .+ x .* x in
         let variance := sum2 ./ #period .- (sum ./ #period) .* (sum ./ #period) in
         let* ema := val ema in
         let* m := ck (ma_period + 1) in
         let ema := (variance .- ema) .* #2 ./ #m .+ ema in
         let* old := rd series (i - period + 1) in
         Ok ((sum .- old, sum2 .- old .* old, Some ema), [[fsqrt variance]]) |} (#0, #0, None)
  | _, _ => Ub BadArgs
  end.

(** emsd.cc:65-107: the same with both periods kept as doubles *)
Definition ti_emsd_ref : batchfn := fun size inputs options =>
  match inputs, options with
  | [series], [period; ma_period] =>
    if period .< #1 then Ok (INVALID_OPTION, [[]]) else
    if ma_period .< #1 then Ok (INVALID_OPTION, [[]]) else
    let* b1 := ceilto (period .- #1) in
    let* b2 := ceilto period in
    let* n := cast period in
    batch_loops 1 size
    {| bounded := [(b1, fun i '(sum, sum2, ema) =>
         let* x := rd series i in
         Ok ((sum .+ x, sum2 .+ x .* x, ema), [[]]));
         (b2, fun i '(sum, sum2, ema) =>
         let* x := rd series i in
         let sum := sum .+ x in
         let sum2 := sum2 .+ x .* x in
         let variance := sum2 ./ period .- fpow (sum ./ period) #2 in
         let* old := rd series (i - n + 1) in
         Ok ((sum .- old, sum2 .- old .* old, Some variance), [[fsqrt variance]]))];
       final := fun i '(sum, sum2, ema) =>
         let* x := rd series i in
         let sum := sum .+ x in
         let sum2 := sum2 .+ x .* x in
         let variance := sum2 ./ period .- (sum ./ period) .* (sum ./ period) in
         let* ema := val ema in
         let ema := (variance .- ema) .* #2 ./ (ma_period .+ #1) .+ ema in
         let* old := rd series (i - n + 1) in
         Ok ((sum .- old, sum2 .- old .* old, Some ema), [[fsqrt variance]]) |} (#0, #0, None)
  | _, _ => Ub BadArgs
  end.

(** emsd.cc:129-152: constants (period, period_reciprocal, ma_period_plus1_reciprocal);
    state (sum, sum2, ema, price) *)
Definition ti_emsd_stream_new : newfn (stream ((Z * T * T) * (T * T * T * ring))) := fun options =>
  match options with
  | [o0; o1] =>
    let* period := cast o0 in
    let* ma_period := cast o1 in
    if period <? 1 then Ok (INVALID_OPTION, None) else
    if ma_period <? 1 then Ok (INVALID_OPTION, None) else
    let* start := ti_emsd_start options in
    let* price := ring_new period in
    Ok (OKAY, Some {| progress := - start;
      core := ((period, #1 ./ #period, #1 ./ (#ma_period .+ #1)), (#0, #0, #0, price)) |})
  | _ => Ub BadArgs
  end.

(** emsd.cc:158-212 *)
Definition emsd_loops (k : Z * T * T) (p : Z) (inputs : list (list T)) : loops (T * T * T * ring) :=
  match inputs with
  | [series] =>
    let '(period, per, mper) := k in
    {| bounded := [(0 - p, fun i '(sum, sum2, ema, price) =>
         let* x := rd series i in
         let* price := ring_set price x in
         Ok ((sum .+ x, sum2 .+ x .* x, ema, ring_step price), [[]]));
         (1 - p, fun i '(sum, sum2, ema, price) =>
         let* x := rd series i in
         let* price := ring_set price x in
         let sum := sum .+ x in
         let sum2 := sum2 .+ x .* x in
         let variance := sum2 .* per .- fpow (sum .* per) #2 in
         let* old := ring_get price (period - 1) in
         Ok ((sum .- old, sum2 .- old .* old, variance, ring_step price), [[fsqrt variance]]))];
       final := fun i '(sum, sum2, ema, price) =>
         let* x := rd series i in
         let* price := ring_set price x in
         let sum := sum .+ x in
         let sum2 := sum2 .+ x .* x in
         let variance := sum2 .* per .- (sum .* per) .* (sum .* per) in
         let ema := (variance .- ema) .* #2 .* mper .+ ema in
         let* old := ring_get price (period - 1) in
         Ok ((sum .- old, sum2 .- old .* old, ema, ring_step price), [[fsqrt variance]]) |}
  | _ => bad_loops
  end.
Definition ti_emsd_stream_run := mkrun 1 emsd_loops.

(** ** vwap *)
(** vwap.cc:12-14 *)
Definition ti_vwap_start : startfn := start_p1.

(** (high + low + close) / 3. * volume, vwap.cc:33, 40-41, 172, 181, 186 *)
Definition vwap_term (h l c v : T) : T := (h .+ l .+ c) ./ #3 .* v.
Definition vwap_bar (high low close volume : list T) (i : Z) : res (T * T) :=
  let* h := rd high i in
  let* l := rd low i in
  let* c := rd close i in
  let* v := rd volume i in
  Ok (vwap_term h l c v, v).
(** num ? num / den : 0, vwap.cc:37, 44, 184 *)
Definition vwap_value (num den : T) : T := if truth num then num ./ den else #0.

(** vwap.cc:16-50.  [p0] is the initial progress; the first loop runs while i < 1 - p0, and the
    value written by the [if] after it is written at that loop's last bar. *)
Definition ti_vwap : batchfn := fun size inputs options =>
  match inputs, options with
  | [high; low; close; volume], [period] =>
    if period .< #1 then Ok (INVALID_OPTION, [[]]) else
    let* p0 := cast (.- period .+ #1) in
    let* n := cast period in
    batch_loops 1 size
    {| bounded := [(- p0, fun i '(num, den) =>
         let* (t, v) := vwap_bar high low close volume i in
         Ok ((num .+ t, den .+ v), [[]]));
         (1 - p0, fun i '(num, den) =>
         let* (t, v) := vwap_bar high low close volume i in
         let num := num .+ t in
         let den := den .+ v in
         Ok ((num, den), [[vwap_value num den]]))];
       final := fun i '(num, den) =>
         let* (t, v) := vwap_bar high low close volume i in
         let* (t0, v0) := vwap_bar high low close volume (i - n) in
         let num := num .+ (t .- t0) in
         let den := den .+ (v .- v0) in
         Ok ((num, den), [[vwap_value num den]]) |} (#0, #0)
  | _, _ => Ub BadArgs
  end.

(** vwap.cc:52-89.  The first value is written whatever [size] is. *)
Definition ti_vwap_ref : batchfn := fun size inputs options =>
  match inputs, options with
  | [high; low; close; volume], [period] =>
    if period .< #1 then Ok (INVALID_OPTION, [[]]) else
    let* (_, ty) := ti_typprice size [high; low; close] [] in
    let* typ := rd ty 0 in
    let* b := ceilto period in
    let* (sum, vsum) := for_ 0 (Z.min size b) (fun i '(sum, vsum) =>
      let* t := rd typ i in
      let* v := rd volume i in
      Ok (sum .+ t .* v, vsum .+ v)) (#0, #0) in
    let out := [sum ./ vsum] in
    let* n := cast period in
    let* (_, _, out) := for_ n size (fun i '(sum, vsum, out) =>
      let* t := rd typ i in
      let* v := rd volume i in
      let* t0 := rd typ (i - n) in
      let* v0 := rd volume (i - n) in
      let sum := sum .+ t .* v .- t0 .* v0 in
      let vsum := vsum .+ v .- v0 in
      Ok (sum, vsum, out ++ [sum ./ vsum])) (sum, vsum, out) in
    Ok (OKAY, [out])
  | _, _ => Ub BadArgs
  end.

(** vwap.cc:111-138: constant period; state (num, den, four rings of period + 1) *)
Definition ti_vwap_stream_new : newfn (stream (Z * (T * T * (ring * ring * ring * ring)))) := fun options =>
  match options with
  | [period] =>
    if period .< #1 then Ok (INVALID_OPTION, None) else
    let* start := ti_vwap_start options in
    let* n := cast period in
    let* m := cast (period .+ #1) in
    let* r := ring_new m in
    Ok (OKAY, Some {| progress := - start; core := (n, (#0, #0, (r, r, r, r))) |})
  | _ => Ub BadArgs
  end.

(** price_x = x[i] for the four rings, vwap.cc:167-170, 176-179 *)
Definition vwap_push (high low close volume : list T) (i : Z) (r : ring * ring * ring * ring)
  : res (ring * ring * ring * ring) :=
  let '(rh, rl, rc, rv) := r in
  let* h := rd high i in
  let* rh := ring_set rh h in
  let* l := rd low i in
  let* rl := ring_set rl l in
  let* c := rd close i in
  let* rc := ring_set rc c in
  let* v := rd volume i in
  let* rv := ring_set rv v in
  Ok (rh, rl, rc, rv).
Definition vwap_step (r : ring * ring * ring * ring) : ring * ring * ring * ring :=
  let '(rh, rl, rc, rv) := r in (ring_step rh, ring_step rl, ring_step rc, ring_step rv).

(** vwap.cc:144-196 *)
Definition vwap_loops (period p : Z) (inputs : list (list T)) : loops (T * T * (ring * ring * ring * ring)) :=
  match inputs with
  | [high; low; close; volume] =>
    {| bounded := [(0 - p, fun i '(num, den, r) =>
         let* r := vwap_push high low close volume i r in
         let* (t, v) := vwap_bar high low close volume i in
         Ok ((num .+ t, den .+ v, vwap_step r), [[]]))];
       final := fun i '(num, den, r) =>
         let* r := vwap_push high low close volume i r in
         let* (t, v) := vwap_bar high low close volume i in
         let num := num .+ t in
         let den := den .+ v in
         let '(rh, rl, rc, rv) := r in
         let* h := ring_get rh (period - 1) in
         let* l := ring_get rl (period - 1) in
         let* c := ring_get rc (period - 1) in
         let* v0 := ring_get rv (period - 1) in
         Ok ((num .- vwap_term h l c v0, den .- v0, vwap_step r), [[vwap_value num den]]) |}
  | _ => bad_loops
  end.
Definition ti_vwap_stream_run := mkrun 1 vwap_loops.

(** ** shmma *)
(** shmma.cc:14-18 *)
Definition ti_shmma_start : startfn := fun options =>
  match options with [o0] => start_fm1 o0 | _ => Ub BadArgs end.

(** T/period + (6.*S)/((period+1) * period) with an int product, shmma.cc:39, 137 *)
Definition shmma_value (period : Z) (t s : T) : res T :=
  let* m := ck (period + 1) in
  let* d := ck (m * period) in
  Ok (t ./ #period .+ #6 .* s ./ #d).

(** shmma.cc:20-47 *)
Definition ti_shmma : batchfn := fun size inputs options =>
  match inputs, options with
  | [series], [o0] =>
    let* period := cast o0 in
    if period <? 1 then Ok (INVALID_OPTION, [[]]) else
    batch_loops 1 size
    {| bounded := [(period - 1, fun i '(t, s) =>
         let* x := rd series i in
         let* k := ck (2 * i) in
         Ok ((t .+ x, s .+ (#(- period + k) .+ #1) ./ #2 .* x), [[]]))];
       final := fun i '(t, s) =>
         let* x := rd series i in
         let t := t .+ x in
         let s := s .+ (#period .- #1) ./ #2 .* x in
         let* v := shmma_value period t s in
         let s := s .- t in
         let* old := rd series (i - period + 1) in
         let s := s .+ (#period .+ #1) ./ #2 .* old in
         Ok ((t .- old, s), [[v]]) |} (#0, #0)
  | _, _ => Ub BadArgs
  end.

(** shmma.cc:49-71 *)
Definition ti_shmma_ref : batchfn := fun size inputs options =>
  match inputs, options with
  | [series], [period] =>
    if period .< #1 then Ok (INVALID_OPTION, [[]]) else
    let* i0 := cast (period .- #1) in
    let* b := ceilto period in
    let* out := for_ i0 size (fun i out =>
      let* t := for_ 0 b (fun j t =>
        let* x := rd series (i - j) in
        Ok (t .+ x)) #0 in
      let* s := for_ 0 b (fun j s =>
        let* x := rd series (i - j) in
        Ok (s .+ (period .- (#(j * 2) .+ #1)) ./ #2 .* x)) #0 in
      Ok (out ++ [t ./ period .+ #6 .* s ./ ((period .+ #1) .* period)])) [] in
    Ok (OKAY, [out])
  | _, _ => Ub BadArgs
  end.

(** shmma.cc:90-107 *)
Definition ti_shmma_stream_new : newfn (stream (Z * (T * T * ring))) := fun options =>
  match options with
  | [period] =>
    if period .< #1 then Ok (INVALID_OPTION, None) else
    let* start := ti_shmma_start options in
    let* n := cast period in
    let* price := ring_new n in
    Ok (OKAY, Some {| progress := - start; core := (n, (#0, #0, price)) |})
  | _ => Ub BadArgs
  end.

(** shmma.cc:113-149 *)
Definition shmma_loops (period p : Z) (inputs : list (list T)) : loops (T * T * ring) :=
  match inputs with
  | [series] =>
    {| bounded := [(0 - p, fun i '(t, s, price) =>
         let* x := rd series i in
         let* price := ring_set price x in
         let* k := ck (2 * (p + i + period - 1)) in
         Ok ((t .+ x, s .+ (#(- period + k) .+ #1) ./ #2 .* x, ring_step price), [[]]))];
       final := fun i '(t, s, price) =>
         let* x := rd series i in
         let* price := ring_set price x in
         let t := t .+ x in
         let s := s .+ (#period .- #1) ./ #2 .* x in
         let* v := shmma_value period t s in
         let s := s .- t in
         let* old := ring_get price (period - 1) in
         let s := s .+ (#period .+ #1) ./ #2 .* old in
         Ok ((t .- old, s, ring_step price), [[v]]) |}
  | _ => bad_loops
  end.
Definition ti_shmma_stream_run := mkrun 1 shmma_loops.

(** ** cmi *)
(** cmi.cc:15-19 *)
Definition ti_cmi_start : startfn := fun options =>
  match options with [o0] => start_fm1 o0 | _ => Ub BadArgs end.

(** std::max(high, close1) - std::min(low, close1), cmi.cc:49, 61, 192, 205; also ce.cc:55, 68,
    83, 269, 278, 307 *)
Definition stdtr (h l c1 : T) : T := stdmax h c1 .- stdmin l c1.

(** One extreme with its index held in a TI_REAL: rescan of the whole buffer [r] in physical
    order when the index has expired, otherwise replaced by [t] when [t] is at least as extreme;
    cmi.cc:63-78, 207-222.  [now] is the bar counter (i resp. progress). *)
Definition cmi_ext (cmp : T -> T -> bool) (r : ring) (t : T) (now : Z) (expired dom : bool) (m : T * T) : res (T * T) :=
  if expired then
    let* it := max_elem cmp (rbuf r) 0 (rM r) in
    let* v := rd (rbuf r) it in
    let* age := ring_age r it in
    Ok (v, #(now - age))
  else Ok (if dom then (t, #now) else m).

(** The two extremes: value and index of the maximum and of the minimum *)
Definition cmi_state : Type := (T * T) * (T * T).

(** The warm-up update, cmi.cc:51-58, 194-201 *)
Definition cmi_warm (t : T) (now : Z) (s : cmi_state) : cmi_state :=
  let '(hi, lo) := s in
  (if fst hi .<= t then (t, #now) else hi, if fst lo .>= t then (t, #now) else lo).

(** The full update, cmi.cc:63-78, 207-222; [limit] is i - period resp. progress - period *)
Definition cmi_next (r : ring) (t : T) (now : Z) (limit : T) (s : cmi_state) : res cmi_state :=
  let '(hi, lo) := s in
  let* hi := cmi_ext (fun x y => x .< y) r t now (snd hi .== limit) (fst hi .<= t) hi in
  let* lo := cmi_ext (fun x y => x .> y) r t now (snd lo .== limit) (fst lo .>= t) lo in
  Ok (hi, lo).

(** log((hh - ll) / sum) / log(period) * 100, cmi.cc:80, 224 *)
Definition cmi_value (period sum : T) (s : cmi_state) : T :=
  libm Llog ((fst (fst s) .- fst (snd s)) ./ sum) ./ libm Llog period .* #100.

(** cmi.cc:21-86; state (sum, extremes, tr), the extremes uninitialised before bar 0 *)
Definition ti_cmi : batchfn := fun size inputs options =>
  match inputs, options with
  | [high; low; close], [o0] =>
    let* period := cast o0 in
    if period <? 1 then Ok (INVALID_OPTION, [[]]) else
    let* tr := ring_new period in
    batch_loops 1 size
    {| bounded := [(1, fun i '(sum, ext, tr) =>
         let* h := rd high i in
         let* l := rd low i in
         let t := h .- l in
         let* tr := ring_set tr t in
         Ok ((sum .+ t, Some ((t, #0), (t, #0)), ring_step tr), [[]]));
         (period - 1, fun i '(sum, ext, tr) =>
         let* h := rd high i in
         let* c1 := rd close (i - 1) in
         let* l := rd low i in
         let t := stdtr h l c1 in
         let* tr := ring_set tr t in
         let* ext := val ext in
         Ok ((sum .+ t, Some (cmi_warm t i ext), ring_step tr), [[]]))];
       final := fun i '(sum, ext, tr) =>
         let* h := rd high i in
         let* c1 := rd close (i - 1) in
         let* l := rd low i in
         let t := stdtr h l c1 in
         let* tr := ring_set tr t in
         let sum := sum .+ t in
         let* ext := val ext in
         let* ext := cmi_next tr t i #(i - period) ext in
         let* old := ring_get tr (period - 1) in
         Ok ((sum .- old, Some ext, ring_step tr), [[cmi_value #period sum ext]]) |} (#0, None, tr)
  | _, _ => Ub BadArgs
  end.

(** cmi.cc:88-114; the length of [sum] is negative, and the allocation throws, when the series
    is shorter than the period by two bars or more *)
Definition ti_cmi_ref : batchfn := fun size inputs options =>
  match inputs, options with
  | [high; low; close], [period] =>
    if period .< #1 then Ok (INVALID_OPTION, [[]]) else
    let* n := cast period in
    let* _ := check BadSize (0 <=? size - n + 1) in
    let* (_, trs) := ti_tr size inputs [] in
    let* tr := rd trs 0 in
    let* (_, sums) := ti_sum size [tr] [period] in
    let* sum := rd sums 0 in
    let* i0 := cast (period .- #1) in
    let* out := for_ i0 size (fun i out =>
      let* ih := max_elem (fun x y => x .< y) tr (i - n + 1) (i + 1) in
      let* hh := rd tr ih in
      let* il := max_elem (fun x y => x .> y) tr (i - n + 1) (i + 1) in
      let* ll := rd tr il in
      let* ink := rd sum (i - n + 1) in
      Ok (out ++ [libm Llog ((hh .- ll) ./ ink) ./ libm Llog period .* #100])) [] in
    Ok (OKAY, [out])
  | _, _ => Ub BadArgs
  end.

(** cmi.cc:138-156: constants (period, first, last), the last two being the bound of
    [progress < -period+2] (cmi.cc:181) and the offset [period-1] (cmi.cc:226) that the run
    function computes from the double period; state (sum, extremes, tr, price_close) *)
Definition ti_cmi_stream_new : newfn (stream ((T * Z * Z) * (T * cmi_state * ring * ring))) := fun options =>
  match options with
  | [period] =>
    if period .< #1 then Ok (INVALID_OPTION, None) else
    let* start := ti_cmi_start options in
    let* n := cast period in
    let* tr := ring_new n in
    let* price_close := ring_new 2 in
    let* first := ceilto (.- period .+ #2) in
    let* last := cast (period .- #1) in
    Ok (OKAY, Some {| progress := - start; core := ((period, first, last), (#0, ((#0, #0), (#0, #0)), tr, price_close)) |})
  | _ => Ub BadArgs
  end.

(** cmi.cc:162-237 *)
Definition cmi_loops (k : T * Z * Z) (p : Z) (inputs : list (list T)) : loops (T * cmi_state * ring * ring) :=
  match inputs with
  | [high; low; close] =>
    let '(period, first, last) := k in
    {| bounded := [(first - p, fun i '(sum, ext, tr, pc) =>
         let* c := rd close i in
         let* pc := ring_set pc c in
         let* h := rd high i in
         let* l := rd low i in
         let t := h .- l in
         let* tr := ring_set tr t in
         Ok ((sum .+ t, ((t, #(p + i)), (t, #(p + i))), ring_step tr, ring_step pc), [[]]));
         (0 - p, fun i '(sum, ext, tr, pc) =>
         let* c := rd close i in
         let* pc := ring_set pc c in
         let* h := rd high i in
         let* c1 := ring_get pc 1 in
         let* l := rd low i in
         let t := stdtr h l c1 in
         let* tr := ring_set tr t in
         Ok ((sum .+ t, cmi_warm t (p + i) ext, ring_step tr, ring_step pc), [[]]))];
       final := fun i '(sum, ext, tr, pc) =>
         let* c := rd close i in
         let* pc := ring_set pc c in
         let* h := rd high i in
         let* c1 := ring_get pc 1 in
         let* l := rd low i in
         let t := stdtr h l c1 in
         let* tr := ring_set tr t in
         let sum := sum .+ t in
         let* ext := cmi_next tr t (p + i) (#(p + i) .- period) ext in
         let* old := ring_get tr last in
         Ok ((sum .- old, ext, ring_step tr, ring_step pc), [[cmi_value period sum ext]]) |}
  | _ => bad_loops
  end.
Definition ti_cmi_stream_run := mkrun 1 cmi_loops.

End M.

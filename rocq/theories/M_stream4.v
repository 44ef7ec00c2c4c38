(** Models: streaming indicators, fourth group (edcf, rmi, hurst, frama).

    As in M_stream1.v, stream members not set by the constructor are zero. *)
From Verif Require Export M_basic M_stream1 M_stream3.
Section M.
Context {A : Arith}.

(** ** edcf *)
(** edcf.cc:16-20 *)
Definition ti_edcf_start : startfn := fun options =>
  match options with [length] => cast (#2 .* length .- #1) | _ => Ub BadArgs end.

(** The two nested loops over one window, edcf.cc:43-50 and 124-130.  [bound] is the number of
    passes of [count < length], [n] the size of the vectors coef and distance2; their values
    from earlier bars are overwritten before they are read. *)
Definition edcf_coef (n bound : Z) (price : list T) : res (list T) :=
  for_ 0 bound (fun count coef =>
    let* _ := check OobRead (count <? n) in
    let* d := for_ 1 bound (fun lookback d =>
      let* x := rd price count in
      let* y := rd price (count + lookback) in
      Ok (d .+ (x .- y) .* (x .- y))) #0 in
    Ok (coef ++ [d])) [].

(** edcf.cc:51-57 and 132-138 *)
Definition edcf_value (n bound : Z) (price : list T) : res T :=
  let* coef := edcf_coef n bound price in
  let* (num, sumcoef) := for_ 0 bound (fun count '(num, sumcoef) =>
    let* c := rd coef count in
    let* x := rd price count in
    Ok (num .+ c .* x, sumcoef .+ c)) (#0, #0) in
  Ok (if sumcoef .!= #0 then num ./ sumcoef else #0).

(** edcf.cc:22-63.  The deque is a list with its front first; pop_back drops the last element. *)
Definition ti_edcf : batchfn := fun size inputs options =>
  match inputs, options with
  | [series], [length] =>
    if length .< #1 then Ok (INVALID_OPTION, [[]]) else
    let* n := cast (#2 .* length) in
    let* start := ti_edcf_start options in
    let* bound := ceilto length in
    batch_loops 1 size
    {| bounded := [(start, fun i price =>
         let* x := rd series i in
         Ok (x :: price, [[]]))];
       final := fun i price =>
         let* x := rd series i in
         let price := x :: price in
         let* v := edcf_value n bound price in
         Ok (removelast price, [[v]]) |} []
  | _, _ => Ub BadArgs
  end.

(** edcf.cc:82-101: constants (size of the vectors, passes of the loops); state price *)
Definition ti_edcf_stream_new : newfn (stream ((Z * Z) * list T)) := fun options =>
  match options with
  | [length] =>
    if length .< #1 then Ok (INVALID_OPTION, None) else
    let* start := ti_edcf_start options in
    let* n := cast (#2 .* length) in
    let* bound := ceilto length in
    Ok (OKAY, Some {| progress := - start; core := ((n, bound), []) |})
  | _ => Ub BadArgs
  end.

(** edcf.cc:107-146 *)
Definition edcf_loops (k : Z * Z) (p : Z) (inputs : list (list T)) : loops (list T) :=
  match inputs with
  | [series] =>
    let '(n, bound) := k in
    {| bounded := [(0 - p, fun i price =>
         let* x := rd series i in
         Ok (x :: price, [[]]))];
       final := fun i price =>
         let* x := rd series i in
         let price := x :: price in
         let* v := edcf_value n bound price in
         Ok (removelast price, [[v]]) |}
  | _ => bad_loops
  end.
Definition ti_edcf_stream_run := mkrun 1 edcf_loops.

(** ** rmi *)
(** rmi.cc:13-18 *)
Definition ti_rmi_start : startfn := fun options =>
  match options with [_; lookback] => cast lookback | _ => Ub BadArgs end.

(** rmi.cc:41, 46, 160, 168 *)
Definition rmi_out (gains losses : T) : T :=
  if truth gains then gains ./ (gains .+ losses) .* #100 else #0.

(** rmi.cc:21-52 *)
Definition ti_rmi : batchfn := fun size inputs options =>
  match inputs, options with
  | [series], [period; lookback] =>
    if period .< #1 then Ok (INVALID_OPTION, [[]]) else
    if lookback .< #1 then Ok (INVALID_OPTION, [[]]) else
    if #size .< lookback .+ #1 then Ok (OKAY, [[]]) else
    let* n := cast lookback in
    batch_loops 1 size
    {| bounded := [(n, skip 1);
         (n + 1, fun i '(gains, losses) =>
         let* x := rd series i in
         let* xn := rd series (i - n) in
         let gains := MAXf #0 (x .- xn) in
         let losses := MAXf #0 (xn .- x) in
         Ok ((Some gains, Some losses), [[rmi_out gains losses]]))];
       final := fun i '(gains, losses) =>
         let* x := rd series i in
         let* xn := rd series (i - n) in
         let* gains := val gains in
         let* losses := val losses in
         let gains := (MAXf #0 (x .- xn) .- gains) .* #2 ./ (#1 .+ period) .+ gains in
         let losses := (MAXf #0 (xn .- x) .- losses) .* #2 ./ (#1 .+ period) .+ losses in
         Ok ((Some gains, Some losses), [[rmi_out gains losses]]) |} (None, None)
  | _, _ => Ub BadArgs
  end.

(** rmi.cc:54-84; ti_ema and ti_add read every element before they overwrite it *)
Definition ti_rmi_ref : batchfn := fun size inputs options =>
  match inputs, options with
  | [series], [period; lookback] =>
    if period .< #1 then Ok (INVALID_OPTION, [[]]) else
    if lookback .< #1 then Ok (INVALID_OPTION, [[]]) else
    let* start := ti_rmi_start options in
    let* _ := check BadSize (0 <=? size - start) in
    let* n := cast lookback in
    let* (gains, losses) := for_ n size (fun i '(gains, losses) =>
      let* x := rd series i in
      let* xn := rd series (i - n) in
      Ok (gains ++ [MAXf #0 (x .- xn)], losses ++ [MAXf #0 (xn .- x)])) ([], []) in
    let* (_, o) := ti_ema (size - start) [gains] [period] in
    let* gains := rd o 0 in
    let* (_, o) := ti_ema (size - start) [losses] [period] in
    let* losses := rd o 0 in
    let* (_, o) := ti_add (size - start) [gains; losses] [] in
    let* losses := rd o 0 in
    let* out := for_ 0 (size - start) (fun i out =>
      let* g := rd gains i in
      let* l := rd losses i in
      Ok (out ++ [g ./ l .* #100])) [] in
    Ok (OKAY, [out])
  | _, _ => Ub BadArgs
  end.

(** rmi.cc:103-127: constants (period, lookback); state (gains_ema, losses_ema, price) *)
Definition ti_rmi_stream_new : newfn (stream ((T * Z) * (T * T * ring))) := fun options =>
  match options with
  | [period; lookback] =>
    if period .< #1 then Ok (INVALID_OPTION, None) else
    if lookback .< #1 then Ok (INVALID_OPTION, None) else
    let* start := ti_rmi_start options in
    let* n1 := cast (lookback .+ #1) in
    let* n := cast lookback in
    let* price := ring_new n1 in
    Ok (OKAY, Some {| progress := - start; core := ((period, n), (#0, #0, price)) |})
  | _ => Ub BadArgs
  end.

(** rmi.cc:134-180 *)
Definition rmi_loops (k : T * Z) (p : Z) (inputs : list (list T)) : loops (T * T * ring) :=
  match inputs with
  | [series] =>
    let '(period, n) := k in
    {| bounded := [(0 - p, fun i '(gains, losses, price) =>
         let* x := rd series i in
         let* price := ring_set price x in
         Ok ((gains, losses, ring_step price), [[]]));
         (1 - p, fun i '(gains, losses, price) =>
         let* x := rd series i in
         let* price := ring_set price x in
         let* xn := ring_get price n in
         let gains := stdmax #0 (x .- xn) in
         let losses := stdmax #0 (xn .- x) in
         Ok ((gains, losses, ring_step price), [[rmi_out gains losses]]))];
       final := fun i '(gains, losses, price) =>
         let* x := rd series i in
         let* price := ring_set price x in
         let* xn := ring_get price n in
         let gains := (stdmax #0 (x .- xn) .- gains) .* #2 ./ (period .+ #1) .+ gains in
         let losses := (stdmax #0 (xn .- x) .- losses) .* #2 ./ (period .+ #1) .+ losses in
         Ok ((gains, losses, ring_step price), [[rmi_out gains losses]]) |}
  | _ => bad_loops
  end.
Definition ti_rmi_stream_run := mkrun 1 rmi_loops.

(** ** hurst *)
(** hurst.cc:16-20 *)
Definition ti_hurst_start : startfn := fun options =>
  match options with [period] => cast period | _ => Ub BadArgs end.

(** hurst.cc:35, 39, 183, 189 *)
Definition hurst_ret (x x1 : T) : T := if truth x && truth x1 then libm Llog (x ./ x1) else #0.

(** The inner loop and the two outputs, hurst.cc:42-62 and 192-212; [bound] is the number of
    passes of [j < period] *)
Definition hurst_value (period : T) (bound : Z) (sum : T) (r : ring) : res T :=
  let mean := sum ./ period in
  let* (_, mx, mn, sd) := for_ 0 bound (fun j '(cum, mx, mn, sd) =>
    let* x := ring_get r j in
    let cum := cum .+ (x .- mean) in
    Ok (cum, stdmax mx cum, stdmin mn cum, sd .+ fpow (x .- mean) #2)) (#0, .- finf, finf, #0) in
  let S := fsqrt (sd ./ period) in
  let R := mx .- mn in
  Ok (if truth R then libm Llog (R ./ S) ./ libm Llog period else #0).

(** hurst.cc:22-70.  The counter starts at 1. *)
Definition ti_hurst : batchfn := fun size inputs options =>
  match inputs, options with
  | [series], [period] =>
    if period .< #2 then Ok (INVALID_OPTION, [[]; []]) else
    let* n := cast period in
    let* r := ring_new n in
    let* bound := ceilto period in
    let* last := cast (period .- #1) in
    batch_loops 2 size
    {| bounded := [(1, skip 2);
         (bound, fun i '(sum, r) =>
         let* x := rd series i in
         let* x1 := rd series (i - 1) in
         let* r := ring_set r (hurst_ret x x1) in
         let* v := ring_cur r in
         Ok ((sum .+ v, ring_step r), [[]; []]))];
       final := fun i '(sum, r) =>
         let* x := rd series i in
         let* x1 := rd series (i - 1) in
         let* r := ring_set r (hurst_ret x x1) in
         let* v := ring_cur r in
         let sum := sum .+ v in
         let* H := hurst_value period bound sum r in
         let* old := ring_get r last in
         Ok ((sum .- old, ring_step r), [[H]; [#2 .- H]]) |} (#0, r)
  | _, _ => Ub BadArgs
  end.

(** hurst.cc:72-117, with the macro r (hurst.cc:81) *)
Definition hurst_ref_r (series : list T) (i : Z) : res T :=
  let* x := rd series i in
  let* x1 := rd series (i - 1) in
  Ok (libm Llog (x ./ x1)).
Definition ti_hurst_ref : batchfn := fun size inputs options =>
  match inputs, options with
  | [series], [period] =>
    if period .< #2 then Ok (INVALID_OPTION, [[]; []]) else
    let* n := cast period in
    let* bound := ceilto period in
    let* (h, f) := for_ n size (fun i '(h, f) =>
      let* mean := for_ 0 bound (fun j mean =>
        let* v := hurst_ref_r series (i - j) in Ok (mean .+ v)) #0 in
      let mean := mean ./ period in
      let* (_, mx, mn) := for_ 0 bound (fun j '(cum, mx, mn) =>
        let* v := hurst_ref_r series (i - j) in
        let cum := cum .+ (v .- mean) in
        Ok (cum, stdmax mx cum, stdmin mn cum)) (#0, .- finf, finf) in
      let* sd := for_ 0 bound (fun j sd =>
        let* v := hurst_ref_r series (i - j) in Ok (sd .+ fpow (v .- mean) #2)) #0 in
      let S := fsqrt (sd ./ period) in
      let R := mx .- mn in
      let H := libm Llog (R ./ S) ./ libm Llog period in
      Ok (h ++ [H], f ++ [#2 .- H])) ([], []) in
    Ok (OKAY, [h; f])
  | _, _ => Ub BadArgs
  end.

(** hurst.cc:136-158: constants (period, bound of the first loop, passes of the inner loop,
    index period-1); state (sum, price, r) *)
Definition ti_hurst_stream_new : newfn (stream ((T * Z * Z * Z) * (T * ring2 * ring))) := fun options =>
  match options with
  | [period] =>
    if period .< #2 then Ok (INVALID_OPTION, None) else
    let* start := ti_hurst_start options in
    let* n := cast period in
    let* r := ring_new n in
    let* first := ceilto (.- period .+ #1) in
    let* bound := ceilto period in
    let* last := cast (period .- #1) in
    Ok (OKAY, Some {| progress := - start;
      core := ((period, first, bound, last), (#0, ring2_new, r)) |})
  | _ => Ub BadArgs
  end.

(** hurst.cc:164-221 *)
Definition hurst_loops (k : T * Z * Z * Z) (p : Z) (inputs : list (list T)) : loops (T * ring2 * ring) :=
  match inputs with
  | [series] =>
    let '(period, first, bound, last) := k in
    {| bounded := [(first - p, fun i '(sum, price, r) =>
         let* x := rd series i in
         Ok ((sum, ring2_step (ring2_set price x), r), [[]; []]));
         (0 - p, fun i '(sum, price, r) =>
         let* x := rd series i in
         let price := ring2_set price x in
         let* x1 := ring2_get price 1 in
         let* r := ring_set r (hurst_ret (ring2_cur price) x1) in
         let* v := ring_cur r in
         Ok ((sum .+ v, ring2_step price, ring_step r), [[]; []]))];
       final := fun i '(sum, price, r) =>
         let* x := rd series i in
         let price := ring2_set price x in
         let* x1 := ring2_get price 1 in
         let* r := ring_set r (hurst_ret (ring2_cur price) x1) in
         let* v := ring_cur r in
         let sum := sum .+ v in
         let* H := hurst_value period bound sum r in
         let* old := ring_get r last in
         Ok ((sum .- old, ring2_step price, ring_step r), [[H]; [#2 .- H]]) |}
  | _ => bad_loops
  end.
Definition ti_hurst_stream_run := mkrun 2 hurst_loops.

(** ** frama *)
(** frama.cc:15-20 *)
Definition ti_frama_start : startfn := fun options =>
  match options with [_; _] => Ok 0 | _ => Ub BadArgs end.

(** frama.cc:35, 156 *)
Definition frama_w (average : T) : T := libm Llog (#2 ./ (#1 .+ average)).

(** The state of the loop over the window: highest, lowest and the pairs of the first and of
    the second half, which start uninitialised (frama.cc:51-52) *)
Definition frama_win : Type := (T * T) * (option T * option T) * (option T * option T).

(** One pass of the loop over the window, frama.cc:55-88 *)
Definition frama_scan (high low : list T) (center : Z) (j : Z) (s : frama_win) : res frama_win :=
  let '((hi, lo), (h1, l1), (h2, l2)) := s in
  let* h := rd high j in
  let* l := rd low j in
  let '(h1, l1) := if j =? center then (Some hi, Some lo) else (h1, l1) in
  let hi := if h .> hi then h else hi in
  let lo := if l .< lo then l else lo in
  let* (h2, l2) := if j >=? center then
      if j =? center then Ok (Some h, Some l) else
      let* a := val h2 in
      let* b := val l2 in
      Ok (Some (if h .> a then h else a), Some (if l .< b then l else b))
    else Ok (h2, l2) in
  Ok ((hi, lo), (h1, l1), (h2, l2)).

(** frama.cc:91-98 *)
Definition frama_dim (n1 n2 n3 : T) : T :=
  if (n1 .> #0) && (n2 .> #0) && (n3 .> #0)
  then (libm Llog (n1 .+ n2) .- libm Llog n3) ./ libm Llog #2 else #0.

(** frama.cc:23-109.  The first loop counts up to the double [period], the second starts again
    at (int)period. *)
Definition ti_frama : batchfn := fun size inputs options =>
  match inputs, options with
  | [high; low], [period; average] =>
    if period .< #1 then Ok (INVALID_OPTION, [[]]) else
    if average .< #2 then Ok (INVALID_OPTION, [[]]) else
    let* n := cast period in
    if negb (Z.rem n 2 =? 0) then Ok (INVALID_OPTION, [[]]) else
    let* start := ti_frama_start options in
    if size <=? start then Ok (OKAY, [[]]) else
    let w := frama_w average in
    let* half := cast (period ./ #2) in
    let* bound := ceilto period in
    let* so := emits 0 (Z.min bound size) (fun i _ =>
      let* h := rd high i in
      let* l := rd low i in
      let filt := (h .+ l) ./ #2 in
      Ok (Some filt, [[filt]])) (None, [[]]) in
    let* (_, outs) := emits n size (fun i filt =>
      let center := i - half + 1 in
      let* first := cast (#i .- period .+ #1) in
      let* h0 := rd high first in
      let* l0 := rd low first in
      let* ((hi, lo), (h1, l1), (h2, l2)) :=
        for_ first (i + 1) (frama_scan high low center) ((h0, l0), (None, None), (None, None)) in
      let* h1 := val h1 in
      let* l1 := val l1 in
      let* h2 := val h2 in
      let* l2 := val l2 in
      let n3 := (hi .- lo) ./ period in
      let n2 := (h1 .- l1) ./ #half in
      let n1 := (h2 .- l2) ./ #half in
      let alpha := libm Lexp (w .* (frama_dim n1 n2 n3 .- #1)) in
      let alpha := if alpha .< lit 1 2 then lit 1 2 else alpha in
      let alpha := if alpha .> #1 then #1 else alpha in
      let* h := rd high i in
      let* l := rd low i in
      let* filt := val filt in
      let filt := alpha .* (h .+ l) ./ #2 .+ (#1 .- alpha) .* filt in
      Ok (Some filt, [[filt]])) so in
    Ok (OKAY, outs)
  | _, _ => Ub BadArgs
  end.

(** An extremum and the bar it was seen at (max1 and max1_idx etc., frama.cc:121-128) *)
Definition frama_ext : Type := T * Z.
(** filt, (max1, min1), (max2, min2), high_store, low_store; frama.cc:118-132 *)
Definition frama_state : Type := T * (frama_ext * frama_ext) * (frama_ext * frama_ext) * list T * list T.

(** Constants: period, w, (int)period, passes of [j < period / 2], (int)(period / 2) and the
    bound of [progress < period] *)
Definition frama_const : Type := T * T * Z * Z * Z * Z.

(** frama.cc:139-159 *)
Definition ti_frama_stream_new : newfn (stream (frama_const * frama_state)) := fun options =>
  match options with
  | [period; average] =>
    if period .< #1 then Ok (INVALID_OPTION, None) else
    let* n := cast period in
    if negb (Z.rem n 2 =? 0) then Ok (INVALID_OPTION, None) else
    let* start := ti_frama_start options in
    let* c2 := ceilto (period ./ #2) in
    let* h := cast (period ./ #2) in
    let* bound := ceilto period in
    let z := (#0, 0) in
    Ok (OKAY, Some {| progress := - start;
      core := ((period, frama_w average, n, c2, h, bound), (#0, (z, z), (z, z), [], [])) |})
  | _ => Ub BadArgs
  end.

(** frama.cc:207-214, 233-240: [cmp old new] tells whether the new value replaces the old one *)
Definition frama_push (cmp : T -> T -> bool) (x : T) (now : Z) (m : frama_ext) : frama_ext :=
  if cmp (fst m) x then (x, now) else m.

(** The maintenance of one extremum, frama.cc:249-261, 262-274, 275-287, 288-300: [out] is the
    age at which it leaves its half, [base] the age of the oldest bar of the half, [top] the
    age of the newest one, [c2] the bound of the loop; [cmp x m] tells whether x replaces m *)
Definition frama_track (cmp : T -> T -> bool) (store : list T) (now out base top c2 : Z) (m : frama_ext)
  : res frama_ext :=
  if snd m =? now - out then
    let* x := rd store base in
    for_ 1 c2 (fun j '(m, idx) =>
      let* y := rd store (base - j) in
      Ok (if cmp y m then (y, now - (base - j)) else (m, idx))) (x, now - base)
  else
    let* y := rd store top in
    Ok (if cmp y (fst m) then (y, now - top) else m).

(** frama.cc:165-329.  [progress == 0] and [progress == (int)period/2] are true for at most one
    bar; the third loop is skipped when the second one ends beyond (int)period/2.  The deques
    are lists with their front first. *)
Definition frama_loops (k : frama_const) (p : Z) (inputs : list (list T)) : loops frama_state :=
  match inputs with
  | [high; low] =>
    let '(period, w, n, c2, h2, bound) := k in
    let warm (f : T -> T -> Z -> (frama_ext * frama_ext) -> (frama_ext * frama_ext) ->
                  (frama_ext * frama_ext) * (frama_ext * frama_ext)) : body frama_state :=
      fun i '(filt, e1, e2, hs, ls) =>
        let* h := rd high i in
        let* l := rd low i in
        let filt := (h .+ l) ./ #2 in
        let '(e1, e2) := f h l (p + i) e1 e2 in
        Ok ((filt, e1, e2, h :: hs, l :: ls), [[filt]]) in
    let le := fun x y => x .<= y in
    let ge := fun x y => x .>= y in
    {| bounded := [(1 - p, warm (fun h l now e1 e2 => (e1, ((h, now), (l, now)))));
         (c2 - p, warm (fun h l now e1 '(mx, mn) => (e1, (frama_push le h now mx, frama_push ge l now mn))));
         ((if c2 =? Z.quot n 2 then Z.quot n 2 + 1 else 0) - p,
            warm (fun h l now e1 e2 => (((h, now), (l, now)), e2)));
         (bound - p, warm (fun h l now '(mx, mn) e2 => ((frama_push le h now mx, frama_push ge l now mn), e2)))];
       final := fun i '(filt, (mx1, mn1), (mx2, mn2), hs, ls) =>
         let now := p + i in
         let* _ := check OobRead (0 <? zlen hs) in
         let* h := rd high i in
         let* l := rd low i in
         let hs := h :: removelast hs in
         let ls := l :: removelast ls in
         let* mx2 := frama_track ge hs now n (n - 1) h2 c2 mx2 in
         let* mn2 := frama_track le ls now n (n - 1) h2 c2 mn2 in
         let q := Z.quot n 2 in
         let* mx1 := frama_track ge hs now q (q - 1) 0 c2 mx1 in
         let* mn1 := frama_track le ls now q (q - 1) 0 c2 mn1 in
         let n3 := (MAXf (fst mx1) (fst mx2) .- MINf (fst mn1) (fst mn2)) ./ period in
         let n1 := (fst mx1 .- fst mn1) ./ (period ./ #2) in
         let n2 := (fst mx2 .- fst mn2) ./ (period ./ #2) in
         let alpha := libm Lexp (w .* (frama_dim n1 n2 n3 .- #1)) in
         let alpha := MAXf alpha (lit 1 2) in
         let alpha := MINf alpha #1 in
         let filt := alpha .* (h .+ l) ./ #2 .+ (#1 .- alpha) .* filt in
         Ok ((filt, (mx1, mn1), (mx2, mn2), hs, ls), [[filt]]) |}
  | _ => bad_loops
  end.
Definition ti_frama_stream_run := mkrun 1 frama_loops.

End M.

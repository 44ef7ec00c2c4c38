(** Models: streaming indicators, sixth group: those that follow the extremes of a window
    (pc, ce, mhlma, ichi, smi).

    As in M_stream1.v, stream members not set by the constructor are zero. *)
From Verif Require Export M_basic M_window M_stream1 M_stream3 M_stream5.
From Verif Require Export M_osc.
Section M.
Context {A : Arith}.

(** ** Following one extreme *)
(** The extreme of the window and the bar it comes from. *)
Definition trk : Type := T * Z.

(** max <= x (resp. min >= x): take [x], at bar [now]; pc.cc:37-44, 51-53, 59-61 and the same
    lines everywhere below.  [x >= max] in the sources is the same test. *)
Definition trk_push (dom : T -> T -> bool) (x : T) (now : Z) (s : trk) : trk :=
  if dom (fst s) x then (x, now) else s.

(** The same after the test whether the extreme has left the window; pc.cc:47-54 *)
Definition trk_next (dom : T -> T -> bool) (rescan : res trk) (expired : bool) (x : T) (now : Z) (s : trk) : res trk :=
  if expired then rescan else Ok (trk_push dom x now s).

(** std::max_element over reverse iterators, window of [period] bars ending at [i];
    pc.cc:48-50, 56-58, ce.cc:87-89, 95-97 *)
Definition rescan_rev (cmp : T -> T -> bool) (x : list T) (period i : Z) : res trk :=
  let* it := max_elem_rev cmp x (i + 1) (i - period + 1) in
  let* v := rd x it in
  Ok (v, it).

(** std::max_element forwards; mhlma.cc:70-72, ichi.cc:66-68 *)
Definition rescan_fwd (cmp : T -> T -> bool) (x : list T) (period i : Z) : res trk :=
  let* it := max_elem cmp x (i - period + 1) (i + 1) in
  let* v := rd x it in
  Ok (v, it).

(** find_max(period) and iterator_to_age of a ring buffer, at progress [now]; pc.cc:173-175,
    ce.cc:253-255, ichi.cc:360-362, smi.cc:260-262 *)
Definition rescan_ring (cmp : T -> T -> bool) (r : ring) (period now : Z) : res trk :=
  let* it := ring_find cmp r period in
  let* v := rd (rbuf r) it in
  let* age := ring_age r it in
  Ok (v, now - age).

(** std::max_element over the whole ring buffer in memory order; mhlma.cc:259-261, 284-286 *)
Definition rescan_phys (cmp : T -> T -> bool) (r : ring) (now : Z) : res trk :=
  let* it := max_elem cmp (rbuf r) 0 (rM r) in
  let* v := rd (rbuf r) it in
  let* age := ring_age r it in
  Ok (v, now - age).

(** Search backwards by hand, bars i, i-1, ..., i-bound+1; smi.cc:79-87, 93-101 *)
Definition rescan_hand (cmp : T -> T -> bool) (x : list T) (bound i now : Z) : res trk :=
  let* v := rd x i in
  for_ 1 bound (fun j s =>
    let* var1 := rd x (i - j) in
    Ok (if cmp (fst s) var1 then (var1, now - j) else s)) (v, now).

(** The comparisons: std::less and [max <= x] for the maximum, std::greater and [min >= x] for
    the minimum *)
Definition lessf : T -> T -> bool := fun x y => x .< y.
Definition moref : T -> T -> bool := fun x y => x .> y.
Definition le_f : T -> T -> bool := fun m x => m .<= x.
Definition ge_f : T -> T -> bool := fun m x => m .>= x.

(** ** pc *)
(** pc.cc:15-18 *)
Definition ti_pc_start : startfn := fun options =>
  match options with [o0] => start_fm1 o0 | _ => Ub BadArgs end.

(** pc.cc:20-69; state (max, max_idx, min, min_idx), the indices uninitialised at first *)
Definition ti_pc : batchfn := fun size inputs options =>
  match inputs, options with
  | [high; low], [o0] =>
    let* period := cast o0 in
    if period <? 1 then Ok (INVALID_OPTION, [[]; []]) else
    batch_loops 2 size
    {| bounded := [(period - 1, fun i '(max, max_idx, min, min_idx) =>
         let* h := rd high i in
         let* l := rd low i in
         let '(max, max_idx) := if max .<= h then (h, Some i) else (max, max_idx) in
         let '(min, min_idx) := if min .>= l then (l, Some i) else (min, min_idx) in
         Ok ((max, max_idx, min, min_idx), [[]; []]))];
       final := fun i '(max, max_idx, min, min_idx) =>
         let* h := rd high i in
         let* l := rd low i in
         let* k := val max_idx in
         let* hi := trk_next le_f (rescan_rev lessf high period i) (k =? i - period) h i (max, k) in
         let* k := val min_idx in
         let* lo := trk_next ge_f (rescan_rev moref low period i) (k =? i - period) l i (min, k) in
         Ok ((fst hi, Some (snd hi), fst lo, Some (snd lo)), [[fst lo]; [fst hi]]) |} (.- finf, None, finf, None)
  | _, _ => Ub BadArgs
  end.

(** pc.cc:71-85 *)
Definition ti_pc_ref : batchfn := fun size inputs options =>
  match inputs, options with
  | [high; low], [period] =>
    if period .< #1 then Ok (INVALID_OPTION, [[]; []]) else
    let* start := ti_pc_start options in
    if size <=? start then Ok (OKAY, [[]; []]) else
    let* (_, mn) := ti_min size [low] [period] in
    let* (_, mx) := ti_max size [high] [period] in
    Ok (OKAY, mn ++ mx)
  | _, _ => Ub BadArgs
  end.

(** pc.cc:107-129: constant period; state (maximum, minimum, price_high, price_low) *)
Definition ti_pc_stream_new : newfn (stream (Z * (trk * trk * ring * ring))) := fun options =>
  match options with
  | [period] =>
    if period .< #1 then Ok (INVALID_OPTION, None) else
    let* start := ti_pc_start options in
    let* n := cast period in
    let* price_high := ring_new n in
    let* price_low := ring_new n in
    Ok (OKAY, Some {| progress := - start; core := (n, ((.- finf, 0), (finf, 0), price_high, price_low)) |})
  | _ => Ub BadArgs
  end.

(** pc.cc:135-200 *)
Definition pc_loops (period : Z) (p : Z) (inputs : list (list T)) : loops (trk * trk * ring * ring) :=
  match inputs with
  | [high; low] =>
    {| bounded := [(0 - p, fun i '(hi, lo, ph, pl) =>
         let* l := rd low i in
         let* pl := ring_set pl l in
         let* h := rd high i in
         let* ph := ring_set ph h in
         Ok ((trk_push le_f h (p + i) hi, trk_push ge_f l (p + i) lo, ring_step ph, ring_step pl), [[]; []]))];
       final := fun i '(hi, lo, ph, pl) =>
         let* l := rd low i in
         let* pl := ring_set pl l in
         let* h := rd high i in
         let* ph := ring_set ph h in
         let* hi := trk_next le_f (rescan_ring lessf ph period (p + i)) (snd hi =? p + i - period) h (p + i) hi in
         let* lo := trk_next ge_f (rescan_ring moref pl period (p + i)) (snd lo =? p + i - period) l (p + i) lo in
         Ok ((hi, lo, ring_step ph, ring_step pl), [[fst lo]; [fst hi]]) |}
  | _ => bad_loops
  end.
Definition ti_pc_stream_run := mkrun 2 pc_loops.

(** ** ce *)
(** ce.cc:14-16 *)
Definition ti_ce_start : startfn := fun options =>
  match options with [o0; _] => let* n := cast o0 in ck (n - 1) | _ => Ub BadArgs end.

(** max - coef*atr and min + coef*atr, ce.cc:79-80, 103-104, 298-299, 327-328 *)
Definition ce_out (coef atr : T) (hi lo : trk) : list (list T) :=
  [[fst hi .- coef .* atr]; [fst lo .+ coef .* atr]].

(** ce.cc:26-110; state (atr, extremes), the extremes' indices uninitialised before bar 0 (their
    values, minus and plus infinity, are not read before that either) *)
Definition ti_ce : batchfn := fun size inputs options =>
  match inputs, options with
  | [high; low; close], [o0; coef] =>
    let* period := cast o0 in
    if period <? 1 then Ok (INVALID_OPTION, [[]; []]) else
    let per := #1 ./ #period in
    batch_loops 2 size
    {| bounded := [(1, fun i '(atr, ext) =>
         let* h := rd high i in
         let* l := rd low i in
         Ok (((h .- l) .* per, Some ((h, 0), (l, 0))), [[]; []]));
         (period - 1, fun i '(atr, ext) =>
         let* h := rd high i in
         let* c1 := rd close (i - 1) in
         let* l := rd low i in
         let atr := atr .+ stdtr h l c1 .* per in
         let* (hi, lo) := val ext in
         Ok ((atr, Some (trk_push le_f h i hi, trk_push ge_f l i lo)), [[]; []]));
         (period, fun i '(atr, ext) =>
         let* h := rd high i in
         let* c1 := rd close (i - 1) in
         let* l := rd low i in
         let atr := atr .+ stdtr h l c1 .* per in
         let* (hi, lo) := val ext in
         let hi := trk_push le_f h i hi in
         let lo := trk_push ge_f l i lo in
         Ok ((atr, Some (hi, lo)), ce_out coef atr hi lo))];
       final := fun i '(atr, ext) =>
         let* h := rd high i in
         let* c1 := rd close (i - 1) in
         let* l := rd low i in
         let atr := (stdtr h l c1 .- atr) .* per .+ atr in
         let* (hi, lo) := val ext in
         let* hi := trk_next le_f (rescan_rev lessf high period i) (snd hi =? i - period) h i hi in
         let* lo := trk_next ge_f (rescan_rev moref low period i) (snd lo =? i - period) l i lo in
         Ok ((atr, Some (hi, lo)), ce_out coef atr hi lo) |} (#0, None)
  | _, _ => Ub BadArgs
  end.

(** ce.cc:112-148; the size test comes before the option test *)
Definition ti_ce_ref : batchfn := fun size inputs options =>
  match inputs, options with
  | [high; low; close], [period; coef] =>
    let* start := ti_ce_start options in
    if size <=? start then Ok (OKAY, [[]; []]) else
    if period .< #1 then Ok (INVALID_OPTION, [[]; []]) else
    let* (_, atrs) := ti_atr size inputs [period] in
    let* (_, maxs) := ti_max size [high] [period] in
    let* (_, mins) := ti_min size [low] [period] in
    let* atr := rd atrs 0 in
    let* mx := rd maxs 0 in
    let* mn := rd mins 0 in
    let* bound := ceilto (#size .- period .+ #1) in
    let* (hs, ls) := for_ 0 bound (fun i '(hs, ls) =>
      let* a := rd atr i in
      let* x := rd mx i in
      let* n := rd mn i in
      Ok (hs ++ [x .- coef .* a], ls ++ [n .+ coef .* a])) ([], []) in
    Ok (OKAY, [hs; ls])
  | _, _ => Ub BadArgs
  end.

(** ce.cc:175-202: constants (period, coef, per), smth is not used; state (extremes, atr,
    prev_close, price_high, price_low) *)
Definition ti_ce_stream_new : newfn (stream ((Z * T * T) * (trk * trk * T * T * ring * ring))) := fun options =>
  match options with
  | [o0; coef] =>
    let* period := cast o0 in
    if period <? 1 then Ok (INVALID_OPTION, None) else
    let* start := ti_ce_start options in
    let* price_high := ring_new period in
    let* price_low := ring_new period in
    Ok (OKAY, Some {| progress := - start; core := ((period, coef, #1 ./ #period), ((.- finf, 0), (finf, 0), #0, #0, price_high, price_low)) |})
  | _ => Ub BadArgs
  end.

(** The extremes of price_high and price_low, ce.cc:252-267, 281-296, 310-325 *)
Definition ring_ext (period now : Z) (h l : T) (ph pl : ring) (hi lo : trk) : res (trk * trk) :=
  let* hi := trk_next le_f (rescan_ring lessf ph period now) (snd hi =? now - period) h now hi in
  let* lo := trk_next ge_f (rescan_ring moref pl period now) (snd lo =? now - period) l now lo in
  Ok (hi, lo).

(** ce.cc:208-342 *)
Definition ce_loops (k : Z * T * T) (p : Z) (inputs : list (list T)) : loops (trk * trk * T * T * ring * ring) :=
  match inputs with
  | [high; low; close] =>
    let '(period, coef, per) := k in
    {| bounded := [(- period + 1 + 1 - p, fun i '(hi, lo, atr, c1, ph, pl) =>
         let* h := rd high i in
         let* ph := ring_set ph h in
         let* l := rd low i in
         let* pl := ring_set pl l in
         let* c := rd close i in
         Ok (((h, p + i), (l, p + i), (h .- l) .* per, c, ring_step ph, ring_step pl), [[]; []]));
         (0 - p, fun i '(hi, lo, atr, c1, ph, pl) =>
         let* h := rd high i in
         let* ph := ring_set ph h in
         let* l := rd low i in
         let* pl := ring_set pl l in
         let* (hi, lo) := ring_ext period (p + i) h l ph pl hi lo in
         let atr := atr .+ stdtr h l c1 .* per in
         let* c := rd close i in
         Ok ((hi, lo, atr, c, ring_step ph, ring_step pl), [[]; []]));
         (1 - p, fun i '(hi, lo, atr, c1, ph, pl) =>
         let* h := rd high i in
         let* ph := ring_set ph h in
         let* l := rd low i in
         let* pl := ring_set pl l in
         let atr := atr .+ stdtr h l c1 .* per in
         let* (hi, lo) := ring_ext period (p + i) h l ph pl hi lo in
         let* c := rd close i in
         Ok ((hi, lo, atr, c, ring_step ph, ring_step pl), ce_out coef atr hi lo))];
       final := fun i '(hi, lo, atr, c1, ph, pl) =>
         let* h := rd high i in
         let* ph := ring_set ph h in
         let* l := rd low i in
         let* pl := ring_set pl l in
         let atr := (stdtr h l c1 .- atr) .* per .+ atr in
         let* (hi, lo) := ring_ext period (p + i) h l ph pl hi lo in
         let* c := rd close i in
         Ok ((hi, lo, atr, c, ring_step ph, ring_step pl), ce_out coef atr hi lo) |}
  | _ => bad_loops
  end.
Definition ti_ce_stream_run := mkrun 2 ce_loops.

(** ** mhlma *)
(** mhlma.cc:15-20 *)
Definition ti_mhlma_start : startfn := fun options =>
  match options with [_; ma_period] => start_fm1 ma_period | _ => Ub BadArgs end.

(** (hh + ll) / 2, mhlma.cc:48, 63, 86, 109, 233, 250, 275, 300; ichi.cc:114-117 *)
Definition mid (hi lo : trk) : T := (fst hi .+ fst lo) ./ #2.

(** (mhl - ema) * 2. / (ma_period + 1) + ema, mhlma.cc:66, 89, 112, 253, 278, 303 *)
Definition mhl_ema (ma_period : Z) (m ema : T) : res T :=
  let* k := ck (ma_period + 1) in
  Ok ((m .- ema) .* #2 ./ #k .+ ema).

(** mhlma.cc:22-121; state (sum, ema, extremes, mhl) *)
Definition ti_mhlma : batchfn := fun size inputs options =>
  match inputs, options with
  | [series], [o0; o1] =>
    let* period := cast o0 in
    let* ma_period := cast o1 in
    if (period <? 1) || (ma_period <? 1) then Ok (INVALID_OPTION, [[]; []]) else
    let* mhl := ring_new ma_period in
    batch_loops 2 size
    {| bounded := [(1, fun i '(sum, ema, hi, lo, mhl) =>
         let* x := rd series i in
         let hi := (x, 0) in
         let lo := (x, 0) in
         let m := mid hi lo in
         let* mhl := ring_set mhl m in
         Ok ((sum .+ m, m, hi, lo, ring_step mhl), [[]; []]));
         (Z.min period (ma_period - 1), fun i '(sum, ema, hi, lo, mhl) =>
         let* x := rd series i in
         let hi := trk_push le_f x i hi in
         let lo := trk_push ge_f x i lo in
         let m := mid hi lo in
         let* mhl := ring_set mhl m in
         let* ema := mhl_ema ma_period m ema in
         Ok ((sum .+ m, ema, hi, lo, ring_step mhl), [[]; []]));
         (ma_period - 1, fun i '(sum, ema, hi, lo, mhl) =>
         let* x := rd series i in
         let* hi := trk_next le_f (rescan_fwd lessf series period i) (snd hi =? i - period) x i hi in
         let* lo := trk_next ge_f (rescan_fwd moref series period i) (snd lo =? i - period) x i lo in
         let m := mid hi lo in
         let* mhl := ring_set mhl m in
         let* ema := mhl_ema ma_period m ema in
         Ok ((sum .+ m, ema, hi, lo, ring_step mhl), [[]; []]))];
       final := fun i '(sum, ema, hi, lo, mhl) =>
         let* x := rd series i in
         let* hi := trk_next le_f (rescan_fwd lessf series period i) (snd hi =? i - period) x i hi in
         let* lo := trk_next ge_f (rescan_fwd moref series period i) (snd lo =? i - period) x i lo in
         let m := mid hi lo in
         let* mhl := ring_set mhl m in
         let sum := sum .+ m in
         let* ema := mhl_ema ma_period m ema in
         let* old := ring_get mhl (ma_period - 1) in
         Ok ((sum .- old, ema, hi, lo, ring_step mhl), [[sum ./ #ma_period]; [ema]]) |} (#0, #0, (.- finf, 0), (finf, 0), mhl)
  | _, _ => Ub BadArgs
  end.

(** mhlma.cc:123-153; the pointer maximum [std::max(series+i-(int)period+1, series)] is a
    maximum of indices here *)
Definition ti_mhlma_ref : batchfn := fun size inputs options =>
  match inputs, options with
  | [series], [period; ma_period] =>
    if (period .< #1) || (ma_period .< #1) then Ok (INVALID_OPTION, [[]; []]) else
    let* n := cast period in
    let* mhl := for_ 0 size (fun i out =>
      let* ih := max_elem lessf series (Z.max (i - n + 1) 0) (i + 1) in
      let* hh := rd series ih in
      let* il := max_elem moref series (Z.max (i - n + 1) 0) (i + 1) in
      let* ll := rd series il in
      Ok (out ++ [(hh .+ ll) ./ #2])) [] in
    let* (_, sma) := ti_sma size [mhl] [ma_period] in
    let* (_, emas) := ti_ema size [mhl] [ma_period] in
    let* ema := rd emas 0 in
    let* i0 := cast (ma_period .- #1) in
    let* out := for_ i0 size (fun i out =>
      let* e := rd ema i in
      Ok (out ++ [e])) [] in
    let* s := rd sma 0 in
    Ok (OKAY, [s; out])
  | _, _ => Ub BadArgs
  end.

(** mhlma.cc:180-200: constants (period, ma_period); state (sum, ema, extremes, mhl, price) *)
Definition ti_mhlma_stream_new : newfn (stream ((Z * Z) * (T * T * trk * trk * ring * ring))) := fun options =>
  match options with
  | [o0; o1] =>
    let* period := cast o0 in
    let* ma_period := cast o1 in
    if (period <? 1) || (ma_period <? 1) then Ok (INVALID_OPTION, None) else
    let* start := ti_mhlma_start options in
    let* mhl := ring_new ma_period in
    let* price := ring_new period in
    Ok (OKAY, Some {| progress := - start; core := ((period, ma_period), (#0, #0, (.- finf, 0), (finf, 0), mhl, price)) |})
  | _ => Ub BadArgs
  end.

(** mhlma.cc:206-320 *)
Definition mhlma_loops (k : Z * Z) (p : Z) (inputs : list (list T)) : loops (T * T * trk * trk * ring * ring) :=
  match inputs with
  | [series] =>
    let '(period, ma_period) := k in
    {| bounded := [(- ma_period + 2 - p, fun i '(sum, ema, hi, lo, mhl, price) =>
         let* x := rd series i in
         let* price := ring_set price x in
         let hi := (x, p + i) in
         let lo := (x, p + i) in
         let m := mid hi lo in
         let* mhl := ring_set mhl m in
         Ok ((sum .+ m, m, hi, lo, ring_step mhl, ring_step price), [[]; []]));
         (Z.min (- ma_period + 1 + period) 0 - p, fun i '(sum, ema, hi, lo, mhl, price) =>
         let* x := rd series i in
         let* price := ring_set price x in
         let hi := trk_push le_f x (p + i) hi in
         let lo := trk_push ge_f x (p + i) lo in
         let m := mid hi lo in
         let* mhl := ring_set mhl m in
         let* ema := mhl_ema ma_period m ema in
         Ok ((sum .+ m, ema, hi, lo, ring_step mhl, ring_step price), [[]; []]));
         (0 - p, fun i '(sum, ema, hi, lo, mhl, price) =>
         let* x := rd series i in
         let* price := ring_set price x in
         let* hi := trk_next le_f (rescan_phys lessf price (p + i)) (snd hi =? p + i - period) x (p + i) hi in
         let* lo := trk_next ge_f (rescan_phys moref price (p + i)) (snd lo =? p + i - period) x (p + i) lo in
         let m := mid hi lo in
         let* mhl := ring_set mhl m in
         let* ema := mhl_ema ma_period m ema in
         Ok ((sum .+ m, ema, hi, lo, ring_step mhl, ring_step price), [[]; []]))];
       final := fun i '(sum, ema, hi, lo, mhl, price) =>
         let* x := rd series i in
         let* price := ring_set price x in
         let* hi := trk_next le_f (rescan_phys lessf price (p + i)) (snd hi =? p + i - period) x (p + i) hi in
         let* lo := trk_next ge_f (rescan_phys moref price (p + i)) (snd lo =? p + i - period) x (p + i) lo in
         let m := mid hi lo in
         let* mhl := ring_set mhl m in
         let sum := sum .+ m in
         let* ema := mhl_ema ma_period m ema in
         let* old := ring_get mhl (ma_period - 1) in
         Ok ((sum .- old, ema, hi, lo, ring_step mhl, ring_step price), [[sum ./ #ma_period]; [ema]]) |}
  | _ => bad_loops
  end.
Definition ti_mhlma_stream_run := mkrun 2 mhlma_loops.

(** ** ichi *)
(** ichi.cc:16-26 *)
Definition ti_ichi_start : startfn := fun options =>
  match options with
  | [o0; o1; o2] =>
    let* p9 := cast o0 in
    let* p26 := cast o1 in
    let* p52 := cast o2 in
    let* a := ck (p9 - 1) in
    let* b := ck (p26 - 1) in
    let* c1 := ck (p52 - 1) in
    let* c := ck (c1 + p26) in
    let* d := ck (a + p26) in
    Ok (Z.max a (Z.max b (Z.max c d)))
  | _ => Ub BadArgs
  end.

(** Not (0 < period9 <= period26 <= period52), ichi.cc:39, 196, 286 *)
Definition ichi_reject (p9 p26 p52 : Z) : bool := negb ((0 <? p9) && (p9 <=? p26) && (p26 <=? p52)).

(** The three pairs of extremes, of 9, 26 and 52 bars *)
Definition ichi_state : Type := (trk * trk) * (trk * trk) * (trk * trk).
(** ichi.cc:44-58, 253-267 *)
Definition ichi_init : ichi_state := (((.- finf, 0), (finf, 0)), ((.- finf, 0), (finf, 0)), ((.- finf, 0), (finf, 0))).

(** One pair, window of [period] bars; [rh], [rl] are the rescans of high and low.
    ichi.cc:65-80, 81-96, 97-112, 120-167, 359-406, 417-464 *)
Definition ichi_pair (rh rl : Z -> res trk) (h l : T) (now period : Z) (s : trk * trk) : res (trk * trk) :=
  let '(hi, lo) := s in
  let* hi := trk_next le_f (rh period) (snd hi =? now - period) h now hi in
  let* lo := trk_next ge_f (rl period) (snd lo =? now - period) l now lo in
  Ok (hi, lo).
Definition ichi_next (rh rl : Z -> res trk) (h l : T) (now p9 p26 p52 : Z) (s : ichi_state) : res ichi_state :=
  let '(a, b, c) := s in
  let* a := ichi_pair rh rl h l now p9 a in
  let* b := ichi_pair rh rl h l now p26 b in
  let* c := ichi_pair rh rl h l now p52 c in
  Ok (a, b, c).
(** tenkan_sen, kijun_sen and the two values put into the ring buffers; ichi.cc:114-117, 169-172,
    408-411, 466-469 *)
Definition ichi_tenkan (s : ichi_state) : T := mid (fst (fst (fst s))) (snd (fst (fst s))).
Definition ichi_kijun (s : ichi_state) : T := mid (fst (snd (fst s))) (snd (snd (fst s))).
Definition ichi_spanA (s : ichi_state) : T := (ichi_tenkan s .+ ichi_kijun s) ./ #2.
Definition ichi_spanB (s : ichi_state) : T := mid (fst (snd s)) (snd (snd s)).

(** ichi.cc:28-183; state (extremes, buf_ichi_senkou_span_A, buf_ichi_senkou_span_B) *)
Definition ti_ichi : batchfn := fun size inputs options =>
  match inputs, options with
  | [high; low], [o0; o1; o2] =>
    let* p9 := cast o0 in
    let* p26 := cast o1 in
    let* p52 := cast o2 in
    if ichi_reject p9 p26 p52 then Ok (INVALID_OPTION, [[]; []; []; []]) else
    let* m := ck (p26 + 1) in
    let* bufA := ring_new m in
    let* bufB := ring_new m in
    let* b := ck (p52 - 1 + p26) in
    batch_loops 4 size
    {| bounded := [(b, fun i '(s, bufA, bufB) =>
         let* h := rd high i in
         let* l := rd low i in
         let* s := ichi_next (fun n => rescan_fwd lessf high n i) (fun n => rescan_fwd moref low n i) h l i p9 p26 p52 s in
         let* bufA := ring_set bufA (ichi_spanA s) in
         let* bufB := ring_set bufB (ichi_spanB s) in
         Ok ((s, ring_step bufA, ring_step bufB), [[]; []; []; []]))];
       final := fun i '(s, bufA, bufB) =>
         let* h := rd high i in
         let* l := rd low i in
         let* s := ichi_next (fun n => rescan_fwd lessf high n i) (fun n => rescan_fwd moref low n i) h l i p9 p26 p52 s in
         let* bufA := ring_set bufA (ichi_spanA s) in
         let* bufB := ring_set bufB (ichi_spanB s) in
         let* a := ring_get bufA p26 in
         let* b := ring_get bufB p26 in
         Ok ((s, ring_step bufA, ring_step bufB), [[ichi_tenkan s]; [ichi_kijun s]; [a]; [b]]) |} (ichi_init, bufA, bufB)
  | _, _ => Ub BadArgs
  end.

(** ichi.cc:185-241; the arrays hh9 ... have [size] elements and are filled from offset
    period-1 on, so element [i] is value [i-period+1] of the ti_max/ti_min call.  When the
    series is shorter than the offset, forming &hh9[period9-1] is out of bounds without being
    dereferenced; not modelled. *)
Definition ti_ichi_ref : batchfn := fun size inputs options =>
  match inputs, options with
  | [high; low], [o0; o1; o2] =>
    let* p9 := cast o0 in
    let* p26 := cast o1 in
    let* p52 := cast o2 in
    if ichi_reject p9 p26 p52 then Ok (INVALID_OPTION, [[]; []; []; []]) else
    let call f x n := let* (_, o) := f size [x] [#n] in rd o 0 in
    let* hh9 := call ti_max high p9 in
    let* ll9 := call ti_min low p9 in
    let* hh26 := call ti_max high p26 in
    let* ll26 := call ti_min low p26 in
    let* hh52 := call ti_max high p52 in
    let* ll52 := call ti_min low p52 in
    let mids hh ll n i :=
      let* h := rd hh (i - n + 1) in
      let* l := rd ll (i - n + 1) in
      Ok ((h .+ l) ./ #2) in
    let* b := ck (p52 - 1 + p26) in
    let* (t, k, a, b) := for_ b size (fun i '(t, k, a, b) =>
      let* t1 := mids hh9 ll9 p9 i in
      let* k1 := mids hh26 ll26 p26 i in
      let* a1 := mids hh9 ll9 p9 (i - p26) in
      let* a2 := mids hh26 ll26 p26 (i - p26) in
      let* b1 := mids hh52 ll52 p52 (i - p26) in
      Ok (t ++ [t1], k ++ [k1], a ++ [(a1 .+ a2) ./ #2], b ++ [b1])) ([], [], [], []) in
    Ok (OKAY, [t; k; a; b])
  | _, _ => Ub BadArgs
  end.

(** ichi.cc:281-312: constants (period9, period26, period52); state (extremes,
    buf_ichi_senkou_span_A, buf_ichi_senkou_span_B, price_high, price_low) *)
Definition ti_ichi_stream_new : newfn (stream ((Z * Z * Z) * (ichi_state * ring * ring * ring * ring))) := fun options =>
  match options with
  | [o0; o1; o2] =>
    let* p9 := cast o0 in
    let* p26 := cast o1 in
    let* p52 := cast o2 in
    if ichi_reject p9 p26 p52 then Ok (INVALID_OPTION, None) else
    let* start := ti_ichi_start options in
    let* m := ck (p26 + 1) in
    let* bufA := ring_new m in
    let* bufB := ring_new m in
    let* price_high := ring_new p52 in
    let* price_low := ring_new p52 in
    Ok (OKAY, Some {| progress := - start; core := ((p9, p26, p52), (ichi_init, bufA, bufB, price_high, price_low)) |})
  | _ => Ub BadArgs
  end.

(** ichi.cc:318-492 *)
Definition ichi_loops (k : Z * Z * Z) (p : Z) (inputs : list (list T)) : loops (ichi_state * ring * ring * ring * ring) :=
  match inputs with
  | [high; low] =>
    let '(p9, p26, p52) := k in
    {| bounded := [(0 - p, fun i '(s, bufA, bufB, ph, pl) =>
         let* h := rd high i in
         let* ph := ring_set ph h in
         let* l := rd low i in
         let* pl := ring_set pl l in
         let* s := ichi_next (fun n => rescan_ring lessf ph n (p + i)) (fun n => rescan_ring moref pl n (p + i)) h l (p + i) p9 p26 p52 s in
         let* bufA := ring_set bufA (ichi_spanA s) in
         let* bufB := ring_set bufB (ichi_spanB s) in
         Ok ((s, ring_step bufA, ring_step bufB, ring_step ph, ring_step pl), [[]; []; []; []]))];
       final := fun i '(s, bufA, bufB, ph, pl) =>
         let* h := rd high i in
         let* ph := ring_set ph h in
         let* l := rd low i in
         let* pl := ring_set pl l in
         let* s := ichi_next (fun n => rescan_ring lessf ph n (p + i)) (fun n => rescan_ring moref pl n (p + i)) h l (p + i) p9 p26 p52 s in
         let* bufA := ring_set bufA (ichi_spanA s) in
         let* bufB := ring_set bufB (ichi_spanB s) in
         let* a := ring_get bufA p26 in
         let* b := ring_get bufB p26 in
         Ok ((s, ring_step bufA, ring_step bufB, ring_step ph, ring_step pl), [[ichi_tenkan s]; [ichi_kijun s]; [a]; [b]]) |}
  | _ => bad_loops
  end.
Definition ti_ichi_stream_run := mkrun 4 ichi_loops.

(** ** smi *)
(** smi.cc:13-18 *)
Definition ti_smi_start : startfn := fun options =>
  match options with [q; _; _] => start_fm1 q | _ => Ub BadArgs end.

(** ema_r_num, ema_s_num, ema_r_den, ema_s_den *)
Definition smi_emas : Type := T * T * T * T.
(** smi.cc:72-73, 297-298 *)
Definition smi_first (c : T) (hi lo : trk) : smi_emas :=
  let n := c .- lit 5 1 .* (fst hi .+ fst lo) in
  let d := fst hi .- fst lo in
  (n, n, d, d).
(** smi.cc:107-111, 323-327; [r] and [s] are the two periods *)
Definition smi_next (r s c : T) (hi lo : trk) (e : smi_emas) : smi_emas :=
  let '(rn, sn, rd, sd) := e in
  let rn := ((c .- lit 5 1 .* (fst hi .+ fst lo)) .- rn) .* (#2 ./ (#1 .+ r)) .+ rn in
  let sn := (rn .- sn) .* (#2 ./ (#1 .+ s)) .+ sn in
  let rd := ((fst hi .- fst lo) .- rd) .* (#2 ./ (#1 .+ r)) .+ rd in
  let sd := (rd .- sd) .* (#2 ./ (#1 .+ s)) .+ sd in
  (rn, sn, rd, sd).
(** ema_s_den ? 100 * ema_s_num / (0.5 * ema_s_den) : 0, smi.cc:75, 113, 300, 329 *)
Definition smi_value (e : smi_emas) : T :=
  let '(_, sn, _, sd) := e in
  if truth sd then #100 .* sn ./ (lit 5 1 .* sd) else #0.

(** smi.cc:20-119; state (extremes, averages), all uninitialised at first.  The first loop runs
    once when -q_period+1 is an integer and not at all otherwise ([progress] is its integer
    part). *)
Definition ti_smi : batchfn := fun size inputs options =>
  match inputs, options with
  | [high; low; close], [q; r; s] =>
    if (q .< #1) || (r .< #1) || (s .< #1) then Ok (INVALID_OPTION, [[]]) else
    let* p := cast (.- q .+ #1) in
    let* b := ceilto q in
    batch_loops 1 size
    {| bounded := [((if #p .== .- q .+ #1 then 1 else 0), fun i '(ext, ema) =>
         let* h := rd high i in
         let* l := rd low i in
         Ok ((Some ((h, p + i), (l, p + i)), ema), [[]]));
         (0 - p, fun i '(ext, ema) =>
         let* (hi, lo) := val ext in
         let* h := rd high i in
         let* l := rd low i in
         Ok ((Some (trk_push le_f h (p + i) hi, trk_push ge_f l (p + i) lo), ema), [[]]));
         (1 - p, fun i '(ext, ema) =>
         let* (hi, lo) := val ext in
         let* h := rd high i in
         let* l := rd low i in
         let hi := trk_push le_f h (p + i) hi in
         let lo := trk_push ge_f l (p + i) lo in
         let* c := rd close i in
         let e := smi_first c hi lo in
         Ok ((Some (hi, lo), Some e), [[smi_value e]]))];
       final := fun i '(ext, ema) =>
         let* (hi, lo) := val ext in
         let* h := rd high i in
         let* hi := trk_next le_f (rescan_hand lessf high b i (p + i)) (#(snd hi) .== #(p + i) .- q) h (p + i) hi in
         let* l := rd low i in
         let* lo := trk_next ge_f (rescan_hand moref low b i (p + i)) (#(snd lo) .== #(p + i) .- q) l (p + i) lo in
         let* c := rd close i in
         let* e := val ema in
         let e := smi_next r s c hi lo e in
         Ok ((Some (hi, lo), Some e), [[smi_value e]]) |} (None, None)
  | _, _ => Ub BadArgs
  end.

(** smi.cc:121-164; the ti_ema calls work in place.  A negative [outsize] is a size beyond
    memory for malloc. *)
Definition ti_smi_ref : batchfn := fun size inputs options =>
  match inputs, options with
  | [high; low; close], [q; r; s] =>
    if (q .< #1) || (r .< #1) || (s .< #1) then Ok (INVALID_OPTION, [[]]) else
    let* start := start_p1 [q] in
    let outsize := size - start in
    let* _ := check BadSize (0 <=? outsize) in
    let call (f : batchfn) n x o := let* (_, o) := f n [x] [o] in rd o 0 in
    let* mx := call ti_max size high q in
    let* mn := call ti_min size low q in
    let* (num, den) := for_ 0 outsize (fun i '(num, den) =>
      let* c := rd close (size - outsize + i) in
      let* h := rd mx i in
      let* l := rd mn i in
      Ok (num ++ [c .- lit 5 1 .* (h .+ l)], den ++ [h .- l])) ([], []) in
    let* num := call ti_ema outsize num r in
    let* num := call ti_ema outsize num s in
    let* den := call ti_ema outsize den r in
    let* den := call ti_ema outsize den s in
    let* out := for_ 0 outsize (fun i out =>
      let* n := rd num i in
      let* d := rd den i in
      Ok (out ++ [#100 .* n ./ (lit 5 1 .* d)])) [] in
    Ok (OKAY, [out])
  | _, _ => Ub BadArgs
  end.

(** smi.cc:192-219: constants (q_period, r_period, s_period); state (extremes, averages,
    price_high, price_low).  The object is default-initialised, so the averages are
    indeterminate until the first output; copying them in and out (smi.cc:240-243, 334-337)
    before that is harmless here. *)
Definition ti_smi_stream_new : newfn (stream ((Z * Z * Z) * (trk * trk * option smi_emas * ring * ring))) := fun options =>
  match options with
  | [q; r; s] =>
    if (q .< #1) || (r .< #1) || (s .< #1) then Ok (INVALID_OPTION, None) else
    let* start := ti_smi_start options in
    let* qn := cast q in
    let* rn := cast r in
    let* sn := cast s in
    let* price_low := ring_new qn in
    let* price_high := ring_new qn in
    Ok (OKAY, Some {| progress := - start; core := ((qn, rn, sn), ((.- finf, 0), (finf, 0), None, price_high, price_low)) |})
  | _ => Ub BadArgs
  end.

(** smi.cc:226-345; the extremes (259-274, 280-295, 306-321) are those of ce *)
Definition smi_loops (k : Z * Z * Z) (p : Z) (inputs : list (list T)) : loops (trk * trk * option smi_emas * ring * ring) :=
  match inputs with
  | [high; low; close] =>
    let '(q, r, s) := k in
    {| bounded := [(0 - p, fun i '(hi, lo, ema, ph, pl) =>
         let* l := rd low i in
         let* pl := ring_set pl l in
         let* h := rd high i in
         let* ph := ring_set ph h in
         let* (hi, lo) := ring_ext q (p + i) h l ph pl hi lo in
         Ok ((hi, lo, ema, ring_step ph, ring_step pl), [[]]));
         (1 - p, fun i '(hi, lo, ema, ph, pl) =>
         let* l := rd low i in
         let* pl := ring_set pl l in
         let* h := rd high i in
         let* ph := ring_set ph h in
         let* (hi, lo) := ring_ext q (p + i) h l ph pl hi lo in
         let* c := rd close i in
         let e := smi_first c hi lo in
         Ok ((hi, lo, Some e, ring_step ph, ring_step pl), [[smi_value e]]))];
       final := fun i '(hi, lo, ema, ph, pl) =>
         let* l := rd low i in
         let* pl := ring_set pl l in
         let* h := rd high i in
         let* ph := ring_set ph h in
         let* (hi, lo) := ring_ext q (p + i) h l ph pl hi lo in
         let* c := rd close i in
         let* e := val ema in
         let e := smi_next #r #s c hi lo e in
         Ok ((hi, lo, Some e, ring_step ph, ring_step pl), [[smi_value e]]) |}
  | _ => bad_loops
  end.
Definition ti_smi_stream_run := mkrun 1 smi_loops.

End M.

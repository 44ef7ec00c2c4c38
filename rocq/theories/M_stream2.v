(** Models: streaming moving averages and oscillators (second group).

    As in M_stream1.v, stream members not set by the constructor are zero. *)
From Verif Require Export M_basic M_stream1.
Section M.
Context {A : Arith}.

(** ** sma (the batch function is in M_basic.v) *)
(** sma.cc:64-87: constants (period, per) *)
Definition ti_sma_stream_new : newfn (stream ((Z * T) * (T * ring))) := fun options =>
  match options with
  | [o0] =>
    let* period := cast o0 in
    if period <? 1 then Ok (INVALID_OPTION, None) else
    let* start := start_p1 options in
    let* price := ring_new period in
    Ok (OKAY, Some {| progress := - start; core := ((period, #1 ./ #period), (#0, price)) |})
  | _ => Ub BadArgs
  end.

(** sma.cc:93-124 *)
Definition sma_loops (k : Z * T) (p : Z) (inputs : list (list T)) : loops (T * ring) :=
  match inputs with
  | [series] =>
    let '(period, per) := k in
    {| bounded := [(0 - p, fun i '(sum, price) =>
         let* x := rd series i in
         let* price := ring_set price x in
         let* c := ring_cur price in
         Ok ((sum .+ c, ring_step price), [[]]))];
       final := fun i '(sum, price) =>
         let* x := rd series i in
         let* price := ring_set price x in
         let* c := ring_cur price in
         let sum := sum .+ c in
         let* old := ring_get price (period - 1) in
         Ok ((sum .- old, ring_step price), [[sum .* per]]) |}
  | _ => bad_loops
  end.
Definition ti_sma_stream_run := mkrun 1 sma_loops.

(** ** ahma *)
(** ahma.cc:12-16 *)
Definition ti_ahma_start : startfn := fun options =>
  match options with [_] => Ok 0 | _ => Ub BadArgs end.

(** ahma.cc:18-34; the state is the part of the output array written so far *)
Definition ti_ahma : batchfn := fun size inputs options =>
  match inputs, options with
  | [series], [o0] =>
    let* period := cast o0 in
    if period <? 1 then Ok (INVALID_OPTION, [[]]) else
    batch_loops 1 size
    {| bounded := [(period, fun i ahma =>
         let* x := rd series i in
         Ok (ahma ++ [x], [[x]]))];
       final := fun i ahma =>
         let* x := rd series i in
         let* a1 := rd ahma (i - 1) in
         let* ap := rd ahma (i - period) in
         let v := a1 .+ (x .- (a1 .+ ap) ./ #2) ./ #period in
         Ok (ahma ++ [v], [[v]]) |} []
  | _, _ => Ub BadArgs
  end.

(** ahma.cc:36-52; [period] is real here: [i < period] compares as double *)
Definition ti_ahma_ref : batchfn := fun size inputs options =>
  match inputs, options with
  | [series], [period] =>
    if period .< #1 then Ok (INVALID_OPTION, [[]]) else
    let* (ahma, _) := for_ 0 size (fun i '(ahma, first) =>
      let* x := rd series i in
      if first && (#i .< period) then Ok (ahma ++ [x], true) else
      let* n := cast period in
      let* a1 := rd ahma (i - 1) in
      let* ap := rd ahma (i - n) in
      Ok (ahma ++ [a1 .+ (x .- (a1 .+ ap) ./ #2) ./ period], false)) ([], true) in
    Ok (OKAY, [ahma])
  | _, _ => Ub BadArgs
  end.

(** ahma.cc:69-86 *)
Definition ti_ahma_stream_new : newfn (stream (Z * ring)) := fun options =>
  match options with
  | [o0] =>
    let* period := cast o0 in
    if period <? 1 then Ok (INVALID_OPTION, None) else
    let* start := ti_ahma_start options in
    let* n := ck (period + 1) in
    let* filt := ring_new n in
    Ok (OKAY, Some {| progress := - start; core := (period, filt) |})
  | _ => Ub BadArgs
  end.

(** ahma.cc:92-115 *)
Definition ahma_loops (period : Z) (p : Z) (inputs : list (list T)) : loops ring :=
  match inputs with
  | [series] =>
    {| bounded := [(period - p, fun i filt =>
         let* x := rd series i in
         let* filt := ring_set filt x in
         let* o := ring_cur filt in
         Ok (ring_step filt, [[o]]))];
       final := fun i filt =>
         let* x := rd series i in
         let* a1 := ring_get filt 1 in
         let* ap := ring_get filt period in
         let* filt := ring_set filt (a1 .+ (x .- (a1 .+ ap) ./ #2) ./ #period) in
         let* o := ring_cur filt in
         Ok (ring_step filt, [[o]]) |}
  | _ => bad_loops
  end.
Definition ti_ahma_stream_run := mkrun 1 ahma_loops.

(** ** swma *)
(** swma.cc:14-18 *)
Definition ti_swma_start : startfn := fun options =>
  match options with [o0] => let* period := cast o0 in ck (period - 1) | _ => Ub BadArgs end.

(** swma.cc:20-35 *)
Definition swma_table : list T :=
  map (fun k => libm Lsin (#k .* PI ./ #6)) [1; 2; 3; 4; 5; 6; 7; 8; 9; 10; 11; 12].

(** swma.cc:42-43, 68-69, 103-104: rejected? *)
Definition swma_reject (period : Z) : res bool :=
  if period <? 1 then Ok true else
  if Z.rem period 6 =? 0 then Ok true else
  let* q := ck (period + 1) in
  Ok (Z.rem q 6 =? 0).

(** swma.cc:45-49, 121-125 *)
Definition swma_denom (period : Z) : res T :=
  for_ 0 period (fun j denom =>
    let* c := rd swma_table (Z.rem j 12) in
    Ok (denom .+ c)) #0.

(** swma.cc:37-61 *)
Definition ti_swma : batchfn := fun size inputs options =>
  match inputs, options with
  | [series], [o0] =>
    let* period := cast o0 in
    let* rj := swma_reject period in
    if rj then Ok (INVALID_OPTION, [[]]) else
    let* denom := swma_denom period in
    let* out := for_ (period - 1) size (fun i out =>
      let* numer := for_ 0 period (fun j numer =>
        let* c := rd swma_table (Z.rem j 12) in
        let* x := rd series (i - j) in
        Ok (numer .+ c .* x)) #0 in
      Ok (out ++ [numer ./ denom])) [] in
    Ok (OKAY, [out])
  | _, _ => Ub BadArgs
  end.

(** swma.cc:63-83 *)
Definition ti_swma_ref : batchfn := fun size inputs options =>
  match inputs, options with
  | [series], [o0] =>
    let* period := cast o0 in
    let* rj := swma_reject period in
    if rj then Ok (INVALID_OPTION, [[]]) else
    let* out := for_ (period - 1) size (fun i out =>
      let* (numer, denom) := for_ 0 period (fun j '(numer, denom) =>
        let c := libm Lsin (#(j + 1) .* PI ./ #6) in
        let* x := rd series (i - j) in
        Ok (numer .+ c .* x, denom .+ c)) (#0, #0) in
      Ok (out ++ [numer ./ denom])) [] in
    Ok (OKAY, [out])
  | _, _ => Ub BadArgs
  end.

(** swma.cc:100-128: constants (period, denom) *)
Definition ti_swma_stream_new : newfn (stream ((Z * T) * ring)) := fun options =>
  match options with
  | [o0] =>
    let* period := cast o0 in
    let* rj := swma_reject period in
    if rj then Ok (INVALID_OPTION, None) else
    let* start := ti_swma_start options in
    let* price := ring_new period in
    let* denom := swma_denom period in
    Ok (OKAY, Some {| progress := - start; core := ((period, denom), price) |})
  | _ => Ub BadArgs
  end.

(** swma.cc:134-160 *)
Definition swma_loops (k : Z * T) (p : Z) (inputs : list (list T)) : loops ring :=
  match inputs with
  | [series] =>
    let '(period, denom) := k in
    {| bounded := [(0 - p, fun i price =>
         let* x := rd series i in
         let* price := ring_set price x in
         Ok (ring_step price, [[]]))];
       final := fun i price =>
         let* x := rd series i in
         let* price := ring_set price x in
         let* numer := for_ 0 period (fun j numer =>
           let* c := rd swma_table (Z.rem j 12) in
           let* y := ring_get price j in
           Ok (numer .+ c .* y)) #0 in
         Ok (ring_step price, [[numer ./ denom]]) |}
  | _ => bad_loops
  end.
Definition ti_swma_stream_run := mkrun 1 swma_loops.

(** ** idwma *)
(** idwma.cc:15-20; the double period-1 is converted to int *)
Definition ti_idwma_start : startfn := fun options =>
  match options with [period; _] => cast (period .- #1) | _ => Ub BadArgs end.

(** idwma.cc:32-37, 113-119: (coefficients, denom) *)
Definition idwma_coefficients (period : Z) (exponent : T) : res (list T * T) :=
  for_ 0 period (fun i '(coefficients, denom) =>
    let* i1 := ck (i + 1) in
    let c := #1 ./ fpow #i1 exponent in
    Ok (coefficients ++ [c], denom .+ c)) ([], #0).

(** idwma.cc:22-48 *)
Definition ti_idwma : batchfn := fun size inputs options =>
  match inputs, options with
  | [series], [o0; exponent] =>
    let* period := cast o0 in
    if period <? 1 then Ok (INVALID_OPTION, [[]]) else
    if exponent .< #1 then Ok (INVALID_OPTION, [[]]) else
    if exponent .> #2 then Ok (INVALID_OPTION, [[]]) else
    let* (coefficients, denom) := idwma_coefficients period exponent in
    let* out := for_ (period - 1) size (fun i out =>
      let* numer := for_ 0 period (fun j numer =>
        let* x := rd series (i - j) in
        let* c := rd coefficients j in
        Ok (numer .+ x .* c)) #0 in
      Ok (out ++ [numer ./ denom])) [] in
    Ok (OKAY, [out])
  | _, _ => Ub BadArgs
  end.

(** idwma.cc:93-122: constants (period, denom, coefficients) *)
Definition ti_idwma_stream_new : newfn (stream ((Z * T * list T) * ring)) := fun options =>
  match options with
  | [o0; exponent] =>
    let* period := cast o0 in
    if period <? 1 then Ok (INVALID_OPTION, None) else
    if exponent .< #1 then Ok (INVALID_OPTION, None) else
    if exponent .> #2 then Ok (INVALID_OPTION, None) else
    let* start := ti_idwma_start options in
    let* price := ring_new period in
    let* (coefficients, denom) := idwma_coefficients period exponent in
    Ok (OKAY, Some {| progress := - start; core := ((period, denom, coefficients), price) |})
  | _ => Ub BadArgs
  end.

(** idwma.cc:128-159 *)
Definition idwma_loops (k : Z * T * list T) (p : Z) (inputs : list (list T)) : loops ring :=
  match inputs with
  | [series] =>
    let '(period, denom, coefficients) := k in
    {| bounded := [(0 - p, fun i price =>
         let* x := rd series i in
         let* price := ring_set price x in
         Ok (ring_step price, [[]]))];
       final := fun i price =>
         let* x := rd series i in
         let* price := ring_set price x in
         let* numer := for_ 0 period (fun j numer =>
           let* y := ring_get price j in
           let* c := rd coefficients j in
           Ok (numer .+ y .* c)) #0 in
         Ok (ring_step price, [[numer ./ denom]]) |}
  | _ => bad_loops
  end.
Definition ti_idwma_stream_run := mkrun 1 idwma_loops.

(** ** t3 *)
(** t3.cc:16-21 *)
Definition ti_t3_start : startfn := fun options =>
  match options with [_; _] => Ok 0 | _ => Ub BadArgs end.

(** t3.cc:23-77: locals (ema1_1, ema2_1, ema1_2, ema2_2, ema1_3, ema2_3), uninitialised before
    the first loop; gd1, gd2, gd3 are assigned before each use *)
Definition ti_t3 : batchfn := fun size inputs options =>
  match inputs, options with
  | [series], [period; v] =>
    if period .< #1 then Ok (INVALID_OPTION, [[]]) else
    if v .< #0 then Ok (INVALID_OPTION, [[]]) else
    batch_loops 1 size
    {| bounded := [(1, fun i s =>
         let* x := rd series i in
         Ok (Some (x, x, x, x, x, x), [[x]]))];
       final := fun i s =>
         let* x := rd series i in
         let* (ema1_1, ema2_1, ema1_2, ema2_2, ema1_3, ema2_3) := val s in
         let ema1_1 := (x .- ema1_1) .* #2 ./ (period .+ #1) .+ ema1_1 in
         let ema2_1 := (ema1_1 .- ema2_1) .* #2 ./ (period .+ #1) .+ ema2_1 in
         let gd1 := ema1_1 .* (#1 .+ v) .- ema2_1 .* v in
         let ema1_2 := (gd1 .- ema1_2) .* #2 ./ (period .+ #1) .+ ema1_2 in
         let ema2_2 := (ema1_2 .- ema2_2) .* #2 ./ (period .+ #1) .+ ema2_2 in
         let gd2 := ema1_2 .* (#1 .+ v) .- ema2_2 .* v in
         let ema1_3 := (gd2 .- ema1_3) .* #2 ./ (period .+ #1) .+ ema1_3 in
         let ema2_3 := (ema1_3 .- ema2_3) .* #2 ./ (period .+ #1) .+ ema2_3 in
         let gd3 := ema1_3 .* (#1 .+ v) .- ema2_3 .* v in
         Ok (Some (ema1_1, ema2_1, ema1_2, ema2_2, ema1_3, ema2_3), [[gd3]]) |} None
  | _, _ => Ub BadArgs
  end.

(** t3.cc:88-107, the lambda GD; a failing ti_ema leaves the zero-filled vectors, which does not
    happen for the periods that get here *)
Definition t3_GD (period v : T) (size : Z) (input : list T) : res (list T) :=
  let* (_, o1) := ti_ema size [input] [period] in
  let* ema1 := rd o1 0 in
  let* (_, o2) := ti_ema size [ema1] [period] in
  let* ema2 := rd o2 0 in
  for_ 0 size (fun i output =>
    let* a := rd ema1 i in
    let* b := rd ema2 i in
    Ok (output ++ [a .* (#1 .+ v) .- b .* v])) [].

(** t3.cc:79-115 *)
Definition ti_t3_ref : batchfn := fun size inputs options =>
  match inputs, options with
  | [series], [period; v] =>
    if period .< #1 then Ok (INVALID_OPTION, [[]]) else
    if v .< #0 then Ok (INVALID_OPTION, [[]]) else
    let* g1 := t3_GD period v size series in
    let* g2 := t3_GD period v size g1 in
    let* g3 := t3_GD period v size g2 in
    Ok (OKAY, [g3])
  | _, _ => Ub BadArgs
  end.

(** t3.cc:143-161 *)
Definition ti_t3_stream_new : newfn (stream ((T * T) * (T * T * T * T * T * T))) := fun options =>
  match options with
  | [period; v] =>
    if period .< #1 then Ok (INVALID_OPTION, None) else
    if v .< #0 then Ok (INVALID_OPTION, None) else
    let* start := ti_t3_start options in
    Ok (OKAY, Some {| progress := - start; core := ((period, v), (#0, #0, #0, #0, #0, #0)) |})
  | _ => Ub BadArgs
  end.

(** t3.cc:167-232 *)
Definition t3_loops (k : T * T) (p : Z) (inputs : list (list T)) : loops (T * T * T * T * T * T) :=
  match inputs with
  | [series] =>
    let '(period, v) := k in
    {| bounded := [(1 - p, fun i s =>
         let* x := rd series i in
         Ok ((x, x, x, x, x, x), [[x]]))];
       final := fun i '(ema1_1, ema2_1, ema1_2, ema2_2, ema1_3, ema2_3) =>
         let* x := rd series i in
         let ema1_1 := (x .- ema1_1) .* #2 ./ (period .+ #1) .+ ema1_1 in
         let ema2_1 := (ema1_1 .- ema2_1) .* #2 ./ (period .+ #1) .+ ema2_1 in
         let gd1 := ema1_1 .* (#1 .+ v) .- ema2_1 .* v in
         let ema1_2 := (gd1 .- ema1_2) .* #2 ./ (period .+ #1) .+ ema1_2 in
         let ema2_2 := (ema1_2 .- ema2_2) .* #2 ./ (period .+ #1) .+ ema2_2 in
         let gd2 := ema1_2 .* (#1 .+ v) .- ema2_2 .* v in
         let ema1_3 := (gd2 .- ema1_3) .* #2 ./ (period .+ #1) .+ ema1_3 in
         let ema2_3 := (ema1_3 .- ema2_3) .* #2 ./ (period .+ #1) .+ ema2_3 in
         let gd3 := ema1_3 .* (#1 .+ v) .- ema2_3 .* v in
         Ok ((ema1_1, ema2_1, ema1_2, ema2_2, ema1_3, ema2_3), [[gd3]]) |}
  | _ => bad_loops
  end.
Definition ti_t3_stream_run := mkrun 1 t3_loops.

(** ** er *)
(** er.cc:12-17 *)
Definition ti_er_start : startfn := fun options =>
  match options with [o0] => cast o0 | _ => Ub BadArgs end.

(** er.cc:19-43; the loops start at i = 1, bar 0 is skipped *)
Definition ti_er : batchfn := fun size inputs options =>
  match inputs, options with
  | [series], [o0] =>
    let* period := cast o0 in
    let n := period in
    if period <? 1 then Ok (INVALID_OPTION, [[]]) else
    batch_loops 1 size
    {| bounded := [
         (1, fun i trajectory => Ok (trajectory, [[]]));
         (n, fun i trajectory =>
           let* x := rd series i in
           let* x1 := rd series (i - 1) in
           Ok (trajectory .+ fabs (x .- x1), [[]]))];
       final := fun i trajectory =>
         let* x := rd series i in
         let* x1 := rd series (i - 1) in
         let trajectory := trajectory .+ fabs (x .- x1) in
         let* xn := rd series (i - n) in
         let net_change := fabs (x .- xn) in
         let* xn1 := rd series (i - n + 1) in
         Ok (trajectory .- fabs (xn1 .- xn),
             [[if truth net_change then net_change ./ trajectory else #0]]) |} #0
  | _, _ => Ub BadArgs
  end.

(** er.cc:45-63 *)
Definition ti_er_ref : batchfn := fun size inputs options =>
  match inputs, options with
  | [series], [o0] =>
    let* period := cast o0 in
    let n := period in
    if period <? 1 then Ok (INVALID_OPTION, [[]]) else
    let* n1 := ck (n + 1) in
    let* out := for_ n1 (size + 1) (fun i out =>
      let* a := rd series (i - 1) in
      let* b := rd series (i - n - 1) in
      let net_change := fabs (a .- b) in
      let* trajectory := for_ (i - n) i (fun j trajectory =>
        let* y := rd series j in
        let* z := rd series (j - 1) in
        Ok (trajectory .+ fabs (y .- z))) #0 in
      Ok (out ++ [if truth net_change then net_change ./ trajectory else #0])) [] in
    Ok (OKAY, [out])
  | _, _ => Ub BadArgs
  end.

(** er.cc:81-99 *)
Definition ti_er_stream_new : newfn (stream (Z * (T * ring))) := fun options =>
  match options with
  | [o0] =>
    let* period := cast o0 in
    if period <? 1 then Ok (INVALID_OPTION, None) else
    let* start := ti_er_start options in
    let* n := ck (period + 1) in
    let* price := ring_new n in
    Ok (OKAY, Some {| progress := - start; core := (period, (#0, price)) |})
  | _ => Ub BadArgs
  end.

(** er.cc:105-138 *)
Definition er_loops (n : Z) (p : Z) (inputs : list (list T)) : loops (T * ring) :=
  match inputs with
  | [series] =>
    {| bounded := [
         (- n + 1 - p, fun i '(trajectory, price) =>
           let* x := rd series i in
           let* price := ring_set price x in
           Ok ((trajectory, ring_step price), [[]]));
         (0 - p, fun i '(trajectory, price) =>
           let* x := rd series i in
           let* price := ring_set price x in
           let* c := ring_cur price in
           let* c1 := ring_get price 1 in
           Ok ((trajectory .+ fabs (c .- c1), ring_step price), [[]]))];
       final := fun i '(trajectory, price) =>
         let* x := rd series i in
         let* price := ring_set price x in
         let* c := ring_cur price in
         let* c1 := ring_get price 1 in
         let trajectory := trajectory .+ fabs (c .- c1) in
         let* cn := ring_get price n in
         let net_change := fabs (c .- cn) in
         let* cn1 := ring_get price (n - 1) in
         Ok ((trajectory .- fabs (cn1 .- cn), ring_step price),
             [[if truth net_change then net_change ./ trajectory else #0]]) |}
  | _ => bad_loops
  end.
Definition ti_er_stream_run := mkrun 1 er_loops.

(** ** tsi *)
(** tsi.cc:11-13 *)
Definition ti_tsi_start : startfn := fun options =>
  match options with [_; _] => Ok 1 | _ => Ub BadArgs end.

(** tsi.cc:15-59: locals price and (y_ema_num, z_ema_num, y_ema_den, z_ema_den), uninitialised
    before the first and second loop *)
Definition ti_tsi : batchfn := fun size inputs options =>
  match inputs, options with
  | [series], [y_period; z_period] =>
    if y_period .< #1 then Ok (INVALID_OPTION, [[]]) else
    if z_period .< #1 then Ok (INVALID_OPTION, [[]]) else
    batch_loops 1 size
    {| bounded := [
         (1, fun i '(price, e) =>
           let* x := rd series i in
           Ok ((Some x, e), [[]]));
         (2, fun i '(price, e) =>
           let* x := rd series i in
           let* price := val price in
           let num := x .- price in
           let den := fabs (x .- price) in
           Ok ((Some x, Some (num, num, den, den)), [[#100 .* (if truth den then num ./ den else #0)]]))];
       final := fun i '(price, e) =>
         let* x := rd series i in
         let* price := val price in
         let* (y_ema_num, z_ema_num, y_ema_den, z_ema_den) := val e in
         let y_ema_num := ((x .- price) .- y_ema_num) .* #2 ./ (#1 .+ y_period) .+ y_ema_num in
         let y_ema_den := (fabs (x .- price) .- y_ema_den) .* #2 ./ (#1 .+ y_period) .+ y_ema_den in
         let z_ema_num := (y_ema_num .- z_ema_num) .* #2 ./ (#1 .+ z_period) .+ z_ema_num in
         let z_ema_den := (y_ema_den .- z_ema_den) .* #2 ./ (#1 .+ z_period) .+ z_ema_den in
         Ok ((Some x, Some (y_ema_num, z_ema_num, y_ema_den, z_ema_den)),
             [[#100 .* (if truth z_ema_den then z_ema_num ./ z_ema_den else #0)]]) |} (None, None)
  | _, _ => Ub BadArgs
  end.

(** tsi.cc:109-125 *)
Definition ti_tsi_stream_new : newfn (stream ((T * T) * (T * T * T * T * T))) := fun options =>
  match options with
  | [y_period; z_period] =>
    if y_period .< #1 then Ok (INVALID_OPTION, None) else
    if z_period .< #1 then Ok (INVALID_OPTION, None) else
    let* start := ti_tsi_start options in
    Ok (OKAY, Some {| progress := - start; core := ((y_period, z_period), (#0, #0, #0, #0, #0)) |})
  | _ => Ub BadArgs
  end.

(** tsi.cc:131-183; [progress == -1] and [progress == 0] as [progress < 0] and [progress < 1]:
    the counter starts at -1 and never decreases *)
Definition tsi_loops (k : T * T) (p : Z) (inputs : list (list T)) : loops (T * T * T * T * T) :=
  match inputs with
  | [series] =>
    let '(y_period, z_period) := k in
    {| bounded := [
         (0 - p, fun i '(price, y_ema_num, z_ema_num, y_ema_den, z_ema_den) =>
           let* x := rd series i in
           Ok ((x, y_ema_num, z_ema_num, y_ema_den, z_ema_den), [[]]));
         (1 - p, fun i '(price, _, _, _, _) =>
           let* x := rd series i in
           let num := x .- price in
           let den := fabs (x .- price) in
           Ok ((x, num, num, den, den), [[#100 .* (if truth den then num ./ den else #0)]]))];
       final := fun i '(price, y_ema_num, z_ema_num, y_ema_den, z_ema_den) =>
         let* x := rd series i in
         let y_ema_num := ((x .- price) .- y_ema_num) .* #2 ./ (#1 .+ y_period) .+ y_ema_num in
         let y_ema_den := (fabs (x .- price) .- y_ema_den) .* #2 ./ (#1 .+ y_period) .+ y_ema_den in
         let z_ema_num := (y_ema_num .- z_ema_num) .* #2 ./ (#1 .+ z_period) .+ z_ema_num in
         let z_ema_den := (y_ema_den .- z_ema_den) .* #2 ./ (#1 .+ z_period) .+ z_ema_den in
         Ok ((x, y_ema_num, z_ema_num, y_ema_den, z_ema_den),
             [[#100 .* (if truth z_ema_den then z_ema_num ./ z_ema_den else #0)]]) |}
  | _ => bad_loops
  end.
Definition ti_tsi_stream_run := mkrun 1 tsi_loops.

(** ** kc *)
(** kc.cc:14-19 *)
Definition ti_kc_start : startfn := fun options =>
  match options with [_; _] => Ok 0 | _ => Ub BadArgs end.

(** kc.cc:21-67: locals (price_ema, tr_ema) *)
Definition ti_kc : batchfn := fun size inputs options =>
  match inputs, options with
  | [high; low; close], [period; multiple] =>
    if period .< #1 then Ok (INVALID_OPTION, [[]; []; []]) else
    if multiple .< #0 then Ok (INVALID_OPTION, [[]; []; []]) else
    let per := #2 ./ (period .+ #1) in
    batch_loops 3 size
    {| bounded := [(1, fun i s =>
         let* c := rd close i in
         let* h := rd high i in
         let* l := rd low i in
         let price_ema := c in
         let tr_ema := h .- l in
         Ok (Some (price_ema, tr_ema),
             [[price_ema .- multiple .* tr_ema]; [price_ema]; [price_ema .+ multiple .* tr_ema]]))];
       final := fun i s =>
         let* (price_ema, tr_ema) := val s in
         let* c := rd close i in
         let* h := rd high i in
         let* l := rd low i in
         let* c1 := rd close (i - 1) in
         let price_ema := (c .- price_ema) .* per .+ price_ema in
         let truerange := stdmax h c1 .- stdmin l c1 in
         let tr_ema := (truerange .- tr_ema) .* per .+ tr_ema in
         Ok (Some (price_ema, tr_ema),
             [[price_ema .- multiple .* tr_ema]; [price_ema]; [price_ema .+ multiple .* tr_ema]]) |} None
  | _, _ => Ub BadArgs
  end.

(** kc.cc:89-109; rejects period < 0 where the batch function rejects period < 1 *)
Definition ti_kc_stream_new : newfn (stream ((T * T) * (T * T * T))) := fun options =>
  match options with
  | [period; multiple] =>
    if period .< #0 then Ok (INVALID_OPTION, None) else
    if multiple .< #0 then Ok (INVALID_OPTION, None) else
    let* start := ti_kc_start options in
    Ok (OKAY, Some {| progress := - start; core := ((multiple, #2 ./ (period .+ #1)), (#0, #0, #0)) |})
  | _ => Ub BadArgs
  end.

(** kc.cc:115-165 *)
Definition kc_loops (k : T * T) (p : Z) (inputs : list (list T)) : loops (T * T * T) :=
  match inputs with
  | [high; low; close] =>
    let '(multiple, per) := k in
    {| bounded := [(1 - p, fun i s =>
         let* c := rd close i in
         let* h := rd high i in
         let* l := rd low i in
         let price_ema := c in
         let tr_ema := h .- l in
         Ok ((price_ema, tr_ema, c),
             [[price_ema .- multiple .* tr_ema]; [price_ema]; [price_ema .+ multiple .* tr_ema]]))];
       final := fun i '(price_ema, tr_ema, prev_close) =>
         let* c := rd close i in
         let* h := rd high i in
         let* l := rd low i in
         let price_ema := (c .- price_ema) .* per .+ price_ema in
         let truerange := stdmax h prev_close .- stdmin l prev_close in
         let tr_ema := (truerange .- tr_ema) .* per .+ tr_ema in
         Ok ((price_ema, tr_ema, c),
             [[price_ema .- multiple .* tr_ema]; [price_ema]; [price_ema .+ multiple .* tr_ema]]) |}
  | _ => bad_loops
  end.
Definition ti_kc_stream_run := mkrun 3 kc_loops.

(** ** evwma *)
(** evwma.cc:15-20 *)
Definition ti_evwma_start : startfn := fun options =>
  match options with [o0; _] => let* period := cast o0 in ck (period - 1) | _ => Ub BadArgs end.

(** evwma.cc:22-53: locals (filt, N) *)
Definition ti_evwma : batchfn := fun size inputs options =>
  match inputs, options with
  | [close; volume], [o0; gamma] =>
    let* period := cast o0 in
    if period <? 1 then Ok (INVALID_OPTION, [[]]) else
    if gamma .<= #0 then Ok (INVALID_OPTION, [[]]) else
    batch_loops 1 size
    {| bounded := [
         (period - 1, fun i '(filt, N) =>
           let* v := rd volume i in
           Ok ((filt, N .+ v), [[]]));
         (period, fun i '(filt, N) =>
           let* v := rd volume i in
           let* c := rd close i in
           Ok ((Some c, N .+ v), [[c]]))];
       final := fun i '(filt, N) =>
         let* v := rd volume i in
         let* vp := rd volume (i - period) in
         let* c := rd close i in
         let N := N .+ (v .- vp) in
         let* filt := val filt in
         let filt := if truth N then filt .* (#1 .- v ./ (gamma .* N)) .+ v ./ (gamma .* N) .* c else #0 in
         Ok ((Some filt, N), [[filt]]) |} (None, #0)
  | _, _ => Ub BadArgs
  end.

(** evwma.cc:55-82; std::accumulate with the int 0 as initial value adds in double and converts
    the partial sum back to int after every addition *)
Definition ti_evwma_ref : batchfn := fun size inputs options =>
  match inputs, options with
  | [close; volume], [o0; gamma] =>
    let* period := cast o0 in
    if period <? 1 then Ok (INVALID_OPTION, [[]]) else
    if gamma .<= #0 then Ok (INVALID_OPTION, [[]]) else
    if size <? period then Ok (OKAY, [[]]) else
    let* filt := rd close (period - 1) in
    let* (_, out) := for_ period size (fun i '(filt, out) =>
      let* N := for_ (i - period + 1) (i + 1) (fun j N =>
        let* v := rd volume j in cast (#N .+ v)) 0 in
      let* v := rd volume i in
      let* c := rd close i in
      let filt := filt .* (#1 .- v ./ (gamma .* #N)) .+ v ./ (gamma .* #N) .* c in
      Ok (filt, out ++ [filt])) (filt, [filt]) in
    Ok (OKAY, [out])
  | _, _ => Ub BadArgs
  end.

(** evwma.cc:102-126 *)
Definition ti_evwma_stream_new : newfn (stream ((Z * T) * (T * T * ring))) := fun options =>
  match options with
  | [o0; gamma] =>
    let* period := cast o0 in
    if period <? 1 then Ok (INVALID_OPTION, None) else
    if gamma .<= #0 then Ok (INVALID_OPTION, None) else
    let* start := ti_evwma_start options in
    let* n := ck (period + 1) in
    let* volume := ring_new n in
    Ok (OKAY, Some {| progress := - start; core := ((period, gamma), (#0, #0, volume)) |})
  | _ => Ub BadArgs
  end.

(** evwma.cc:132-170 *)
Definition evwma_loops (k : Z * T) (p : Z) (inputs : list (list T)) : loops (T * T * ring) :=
  match inputs with
  | [close; volume] =>
    let '(period, gamma) := k in
    {| bounded := [
         (0 - p, fun i '(filt, N, volume_buf) =>
           let* v := rd volume i in
           let* volume_buf := ring_set volume_buf v in
           Ok ((filt, N .+ v, ring_step volume_buf), [[]]));
         (1 - p, fun i '(filt, N, volume_buf) =>
           let* v := rd volume i in
           let* c := rd close i in
           let* volume_buf := ring_set volume_buf v in
           Ok ((c, N .+ v, ring_step volume_buf), [[c]]))];
       final := fun i '(filt, N, volume_buf) =>
         let* v := rd volume i in
         let* c := rd close i in
         let* volume_buf := ring_set volume_buf v in
         let* b := ring_cur volume_buf in
         let* bp := ring_get volume_buf period in
         let N := N .+ (b .- bp) in
         let filt := if truth N then filt .* (#1 .- v ./ (gamma .* N)) .+ v ./ (gamma .* N) .* c else #0 in
         Ok ((filt, N, ring_step volume_buf), [[filt]]) |}
  | _ => bad_loops
  end.
Definition ti_evwma_stream_run := mkrun 1 evwma_loops.

(** ** hd *)
(** hd.cc:15-17 *)
Definition ti_hd_start : startfn := fun options =>
  match options with [] => Ok 5 | _ => Ub BadArgs end.

(** hd.cc:26-36, 144-156 *)
Record hd_state := { hd_Smooth : ring; hd_Detrender : ring; hd_I1 : ring; hd_Q1 : ring;
  hd_I2 : ring2; hd_Q2 : ring2; hd_Re : ring2; hd_Im : ring2; hd_Period : ring2; hd_SmoothPeriod : ring2;
  hd_Price : ring }.
Definition hd_init : res hd_state :=
  let* a := ring_new 7 in let* b := ring_new 7 in let* c := ring_new 7 in let* d := ring_new 7 in
  let* e := ring_new 4 in
  Ok {| hd_Smooth := a; hd_Detrender := b; hd_I1 := c; hd_Q1 := d; hd_I2 := ring2_new; hd_Q2 := ring2_new;
        hd_Re := ring2_new; hd_Im := ring2_new; hd_Period := ring2_new; hd_SmoothPeriod := ring2_new; hd_Price := e |}.

(** (.0962*X + .5769*X[2] - .5769*X[4] - .0962*X[6]) * (.075*Period[1] + .54), hd.cc:46-52 and 203-209 *)
Definition hd_hilbert (X : ring) (Period1 : T) : res T :=
  let* x := ring_cur X in let* x2 := ring_get X 2 in let* x4 := ring_get X 4 in let* x6 := ring_get X 6 in
  Ok ((lit 962 4 .* x .+ lit 5769 4 .* x2 .- lit 5769 4 .* x4 .- lit 962 4 .* x6) .* (lit 75 3 .* Period1 .+ lit 54 2)).

(** Warm-up body, hd.cc:39-41 and 196-198: only Price is stepped *)
Definition hd_warm (series : list T) : body hd_state := fun i s =>
  let* x := rd series i in
  let* Price := ring_set (hd_Price s) x in
  Ok ({| hd_Smooth := hd_Smooth s; hd_Detrender := hd_Detrender s; hd_I1 := hd_I1 s; hd_Q1 := hd_Q1 s;
         hd_I2 := hd_I2 s; hd_Q2 := hd_Q2 s; hd_Re := hd_Re s; hd_Im := hd_Im s; hd_Period := hd_Period s;
         hd_SmoothPeriod := hd_SmoothPeriod s; hd_Price := ring_step Price |}, [[]]).

(** Main body; hd.cc:43-73 (batch) and 200-230 (stream) are the same text *)
Definition hd_main (series : list T) : body hd_state := fun i s =>
  let* x := rd series i in
  let* Price := ring_set (hd_Price s) x in
  let* p0 := ring_cur Price in let* p1 := ring_get Price 1 in let* p2 := ring_get Price 2 in let* p3 := ring_get Price 3 in
  let* Smooth := ring_set (hd_Smooth s) ((#4 .* p0 .+ #3 .* p1 .+ #2 .* p2 .+ p3) ./ #10) in
  let* Period1 := ring2_get (hd_Period s) 1 in
  let* v := hd_hilbert Smooth Period1 in
  let* Detrender := ring_set (hd_Detrender s) v in
  let* v := hd_hilbert Detrender Period1 in
  let* Q1 := ring_set (hd_Q1 s) v in
  let* v := ring_get Detrender 3 in
  let* I1 := ring_set (hd_I1 s) v in
  let* jI := hd_hilbert I1 Period1 in
  let* jQ := hd_hilbert Q1 Period1 in
  let* i1 := ring_cur I1 in let* q1 := ring_cur Q1 in
  let I2 := ring2_set (hd_I2 s) (i1 .- jQ) in
  let Q2 := ring2_set (hd_Q2 s) (q1 .+ jI) in
  let* I2_1 := ring2_get I2 1 in let* Q2_1 := ring2_get Q2 1 in
  let I2 := ring2_set I2 (lit 2 1 .* ring2_cur I2 .+ lit 8 1 .* I2_1) in
  let Q2 := ring2_set Q2 (lit 2 1 .* ring2_cur Q2 .+ lit 8 1 .* Q2_1) in
  let Re := ring2_set (hd_Re s) (ring2_cur I2 .* I2_1 .+ ring2_cur Q2 .* Q2_1) in
  let Im := ring2_set (hd_Im s) (ring2_cur I2 .* Q2_1 .- ring2_cur Q2 .* I2_1) in
  let* Re_1 := ring2_get Re 1 in let* Im_1 := ring2_get Im 1 in
  let Re := ring2_set Re (lit 2 1 .* ring2_cur Re .+ lit 8 1 .* Re_1) in
  let Im := ring2_set Im (lit 2 1 .* ring2_cur Im .+ lit 8 1 .* Im_1) in
  let Period := hd_Period s in
  let Period := if (ring2_cur Im .!= #0) && (ring2_cur Re .!= #0)
                then ring2_set Period (#2 .* PI ./ libm Latan (ring2_cur Im ./ ring2_cur Re)) else Period in
  let Period := ring2_set Period (stdmin (ring2_cur Period) (lit 15 1 .* Period1)) in
  let Period := ring2_set Period (stdmax (ring2_cur Period) (lit 67 2 .* Period1)) in
  let Period := ring2_set Period (stdmax (ring2_cur Period) #6) in
  let Period := ring2_set Period (stdmin (ring2_cur Period) #50) in
  let Period := ring2_set Period (lit 2 1 .* ring2_cur Period .+ lit 8 1 .* Period1) in
  let* sp1 := ring2_get (hd_SmoothPeriod s) 1 in
  let SmoothPeriod := ring2_set (hd_SmoothPeriod s) (lit 33 2 .* ring2_cur Period .+ lit 67 2 .* sp1) in
  Ok ({| hd_Smooth := ring_step Smooth; hd_Detrender := ring_step Detrender; hd_I1 := ring_step I1; hd_Q1 := ring_step Q1;
         hd_I2 := ring2_step I2; hd_Q2 := ring2_step Q2; hd_Re := ring2_step Re; hd_Im := ring2_step Im;
         hd_Period := ring2_step Period; hd_SmoothPeriod := ring2_step SmoothPeriod; hd_Price := ring_step Price |},
      [[ring2_cur SmoothPeriod]]).

(** hd.cc:21-77 *)
Definition ti_hd : batchfn := fun size inputs options =>
  match inputs, options with
  | [series], [] =>
    let* s := hd_init in
    batch_loops 1 size {| bounded := [(5, hd_warm series)]; final := hd_main series |} s
  | _, _ => Ub BadArgs
  end.

(** hd.cc:163-172 *)
Definition ti_hd_stream_new : newfn (stream (unit * hd_state)) := fun options =>
  match options with
  | [] => let* start := ti_hd_start options in
          let* s := hd_init in
          Ok (OKAY, Some {| progress := - start; core := (tt, s) |})
  | _ => Ub BadArgs
  end.

(** hd.cc:178-235 *)
Definition hd_loops (k : unit) (p : Z) (inputs : list (list T)) : loops hd_state :=
  match inputs with
  | [series] => {| bounded := [(0 - p, hd_warm series)]; final := hd_main series |}
  | _ => bad_loops
  end.
Definition ti_hd_stream_run := mkrun 1 hd_loops.

(** ** rvi *)
(** rvi.cc:12-16; the double stddev_period-1 is converted to int *)
Definition ti_rvi_start : startfn := fun options =>
  match options with [_; stddev_period] => cast (stddev_period .- #1) | _ => Ub BadArgs end.

(** Main step, rvi.cc:45-56 and 161-172 (same text): new (gains_ema, losses_ema) and the output *)
Definition rvi_step (ema_period stddev_period : Z) (x_sum xsq_sum xy_sum y_sum x gains_ema losses_ema : T) : T * T * T :=
  let sd := #stddev_period in
  let b := (xy_sum ./ sd .- x_sum ./ sd .* y_sum ./ sd) ./ (xsq_sum ./ sd .- (x_sum ./ sd) .* (x_sum ./ sd)) in
  let a := y_sum ./ sd .- b .* x_sum ./ sd in
  let above := x .- (a .+ b .* sd) in
  let '(gains_ema, losses_ema) :=
    if above .> #0
    then ((above .* above ./ sd .- gains_ema) .* #2 ./ #(ema_period + 1) .+ gains_ema, losses_ema)
    else (gains_ema, (above .* above ./ sd .- losses_ema) .* #2 ./ #(ema_period + 1) .+ losses_ema) in
  (gains_ema, losses_ema,
   if truth gains_ema then gains_ema ./ (gains_ema .+ losses_ema) .* #100 else #50).

(** rvi.cc:18-65: int products in x_sum and xsq_sum; locals (xy_sum, y_sum, gains_ema, losses_ema).
    [ema_period + 1] is an int expression evaluated once per bar of the second loop. *)
Definition ti_rvi : batchfn := fun size inputs options =>
  match inputs, options with
  | [series], [o0; o1] =>
    let* ema_period := cast o0 in
    let* stddev_period := cast o1 in
    if ema_period <? 1 then Ok (INVALID_OPTION, [[]]) else
    if stddev_period <? 1 then Ok (INVALID_OPTION, [[]]) else
    let* s1 := ck (stddev_period + 1) in
    let* m := ck (stddev_period * s1) in
    let x_sum := #m ./ #2 in
    let* d := ck (2 * stddev_period) in
    let* d1 := ck (d + 1) in
    let* q := ck (m * d1) in
    let xsq_sum := #q ./ #6 in
    batch_loops 1 size
    {| bounded := [(stddev_period - 1, fun i '(xy_sum, y_sum, gains_ema, losses_ema) =>
         let* x := rd series i in
         Ok ((xy_sum .+ x .* #(i + 1), y_sum .+ x, gains_ema, losses_ema), [[]]))];
       final := fun i '(xy_sum, y_sum, gains_ema, losses_ema) =>
         let* x := rd series i in
         let xy_sum := xy_sum .+ x .* #stddev_period in
         let y_sum := y_sum .+ x in
         let* _ := ck (ema_period + 1) in
         let '(gains_ema, losses_ema, o) := rvi_step ema_period stddev_period x_sum xsq_sum xy_sum y_sum x gains_ema losses_ema in
         let xy_sum := xy_sum .- y_sum in
         let* old := rd series (i - stddev_period + 1) in
         Ok ((xy_sum, y_sum .- old, gains_ema, losses_ema), [[o]]) |} (#0, #0, #0, #0)
  | _, _ => Ub BadArgs
  end.

(** rvi.cc:88-120: constants (ema_period, stddev_period, x_sum, xsq_sum); real products here *)
Definition ti_rvi_stream_new : newfn (stream ((Z * Z * T * T) * (T * T * T * T * ring))) := fun options =>
  match options with
  | [ema_period; stddev_period] =>
    if ema_period .< #1 then Ok (INVALID_OPTION, None) else
    if stddev_period .< #1 then Ok (INVALID_OPTION, None) else
    let* start := ti_rvi_start options in
    let* e := cast ema_period in
    let* sd := cast stddev_period in
    let x_sum := stddev_period .* (stddev_period .+ #1) ./ #2 in
    let xsq_sum := stddev_period .* (stddev_period .+ #1) .* (#2 .* stddev_period .+ #1) ./ #6 in
    let* n := cast (stddev_period .+ #1) in
    let* price := ring_new n in
    Ok (OKAY, Some {| progress := - start; core := ((e, sd, x_sum, xsq_sum), (#0, #0, #0, #0, price)) |})
  | _ => Ub BadArgs
  end.

(** rvi.cc:126-189; [progress] in the first loop is p + i *)
Definition rvi_loops (k : Z * Z * T * T) (p : Z) (inputs : list (list T)) : loops (T * T * T * T * ring) :=
  match inputs with
  | [series] =>
    let '(ema_period, stddev_period, x_sum, xsq_sum) := k in
    {| bounded := [(0 - p, fun i '(xy_sum, y_sum, gains_ema, losses_ema, price) =>
         let* x := rd series i in
         let* price := ring_set price x in
         Ok ((xy_sum .+ x .* #(p + i - (- stddev_period + 1) + 1), y_sum .+ x, gains_ema, losses_ema, ring_step price), [[]]))];
       final := fun i '(xy_sum, y_sum, gains_ema, losses_ema, price) =>
         let* x := rd series i in
         let* price := ring_set price x in
         let xy_sum := xy_sum .+ x .* #stddev_period in
         let y_sum := y_sum .+ x in
         let* _ := ck (ema_period + 1) in
         let '(gains_ema, losses_ema, o) := rvi_step ema_period stddev_period x_sum xsq_sum xy_sum y_sum x gains_ema losses_ema in
         let xy_sum := xy_sum .- y_sum in
         let* old := ring_get price (stddev_period - 1) in
         Ok ((xy_sum, y_sum .- old, gains_ema, losses_ema, ring_step price), [[o]]) |}
  | _ => bad_loops
  end.
Definition ti_rvi_stream_run := mkrun 1 rvi_loops.

(** ** fi *)
(** fi.cc:12-14 *)
Definition ti_fi_start : startfn := fun options =>
  match options with [_] => Ok 1 | _ => Ub BadArgs end.

(** fi.cc:17-36 *)
Definition ti_fi : batchfn := fun size inputs options =>
  match inputs, options with
  | [close; volume], [period] =>
    if period .< #1 then Ok (INVALID_OPTION, [[]]) else
    let* start := ti_fi_start options in
    if size <=? start then Ok (OKAY, [[]]) else
    let per := #2 ./ (period .+ #1) in
    let* v1 := rd volume 1 in let* c1 := rd close 1 in let* c0 := rd close 0 in
    let ema := v1 .* (c1 .- c0) in
    let* (_, out) := for_ 1 size (fun i '(ema, out) =>
      let* v := rd volume i in let* c := rd close i in let* d := rd close (i - 1) in
      let ema := (v .* (c .- d) .- ema) .* per .+ ema in
      Ok (ema, out ++ [ema])) (ema, []) in
    Ok (OKAY, [out])
  | _, _ => Ub BadArgs
  end.

(** fi.cc:38-53: no option check of its own; ti_ema runs in place on the output array and its
    return code is ignored *)
Definition ti_fi_ref : batchfn := fun size inputs options =>
  match inputs, options with
  | [close; volume], [period] =>
    let* start := ti_fi_start options in
    if size <=? start then Ok (OKAY, [[]]) else
    let* fi := for_ 1 size (fun i out =>
      let* v := rd volume i in let* c := rd close i in let* d := rd close (i - 1) in
      Ok (out ++ [v .* (c .- d)])) [] in
    let* (cd, o) := ti_ema (size - 1) [fi] [period] in
    match cd with OKAY => Ok (OKAY, o) | _ => Ok (OKAY, [fi]) end
  | _, _ => Ub BadArgs
  end.

(** fi.cc:62-74 *)
Definition ti_fi_stream_new : newfn (stream (T * (T * T))) := fun options =>
  match options with
  | [period] =>
    if period .< #1 then Ok (INVALID_OPTION, None) else
    Ok (OKAY, Some {| progress := -1; core := (#2 ./ (period .+ #1), (#0, #0)) |})
  | _ => Ub BadArgs
  end.

(** fi.cc:80-112; [progress == -1], [progress == 0] as [progress < 0], [progress < 1] *)
Definition fi_loops (per : T) (p : Z) (inputs : list (list T)) : loops (T * T) :=
  match inputs with
  | [close; volume] =>
    {| bounded := [
         (0 - p, fun i '(ema, previous_close) =>
           let* c := rd close i in
           Ok ((ema, c), [[]]));
         (1 - p, fun i '(ema, previous_close) =>
           let* v := rd volume i in
           let* c := rd close i in
           let ema := v .* (c .- previous_close) in
           Ok ((ema, c), [[ema]]))];
       final := fun i '(ema, previous_close) =>
         let* v := rd volume i in
         let* c := rd close i in
         let ema := (v .* (c .- previous_close) .- ema) .* per .+ ema in
         Ok ((ema, c), [[ema]]) |}
  | _ => bad_loops
  end.
Definition ti_fi_stream_run := mkrun 1 fi_loops.

(** ** hwma *)
(** hwma.cc:14-18 *)
Definition ti_hwma_start : startfn := fun options =>
  match options with [o0] => let* period := cast o0 in ck (period - 1) | _ => Ub BadArgs end.

(** hwma.cc:20-30, in thousandths *)
Definition hwma_tables : list (list T) := map (map (fun m => lit m 3))
  [[0;0;0;0;0;0;-92;-58;12;120;244;353;421];
   [0;0;0;0;0;-43;-38;2;80;174;254;292;279];
   [0;0;0;0;-16;-25;3;68;149;216;241;216;148];
   [0;0;0;-9;-22;4;66;145;208;230;201;131;46];
   [0;0;-11;-22;3;67;145;210;235;205;136;50;-18];
   [0;-17;-25;1;66;147;213;238;212;144;61;-6;-34];
   [-19;-28;0;66;147;214;240;214;147;66;0;-28;-19]].

(** hwma.cc:32-50; the reference [tables.coefficients[period-7]] formed before the check is not
    dereferenced for rejected periods *)
Definition ti_hwma : batchfn := fun size inputs options =>
  match inputs, options with
  | [series], [o0] =>
    let* period := cast o0 in
    let* _ := ck (period - 7) in
    if (period <? 7) || (period >? 13) then Ok (INVALID_OPTION, [[]]) else
    let* c := rd hwma_tables (period - 7) in
    let* out := for_ (period - 1) size (fun i out =>
      let* filt := for_ 0 period (fun j filt =>
        let* cj := rd c (12 - j) in
        let* x := rd series (i - j) in
        Ok (filt .+ cj .* x)) #0 in
      Ok (out ++ [filt])) [] in
    Ok (OKAY, [out])
  | _, _ => Ub BadArgs
  end.

(** hwma.cc:52-70 *)
Definition ti_hwma_ref : batchfn := fun size inputs options =>
  match inputs, options with
  | [series], [o0] =>
    let* period := cast o0 in
    if (period <? 7) || (period >? 13) then Ok (INVALID_OPTION, [[]]) else
    let* c := rd hwma_tables (period - 7) in
    let* out := for_ (period - 1) size (fun i out =>
      let* filt := for_ 0 period (fun j filt =>
        let* cj := rd c (12 - j) in
        let* x := rd series (i - j) in
        Ok (filt .+ cj .* x)) #0 in
      Ok (out ++ [filt])) [] in
    Ok (OKAY, [out])
  | _, _ => Ub BadArgs
  end.

(** hwma.cc:87-103 *)
Definition ti_hwma_stream_new : newfn (stream (Z * ring)) := fun options =>
  match options with
  | [o0] =>
    let* period := cast o0 in
    if (period <? 7) || (period >? 13) then Ok (INVALID_OPTION, None) else
    let* start := ti_hwma_start options in
    let* price := ring_new 13 in
    Ok (OKAY, Some {| progress := - start; core := (period, price) |})
  | _ => Ub BadArgs
  end.

(** hwma.cc:109-144; the sum starts with c[0]*price[12] *)
Definition hwma_loops (period : Z) (p : Z) (inputs : list (list T)) : loops ring :=
  match inputs with
  | [series] =>
    {| bounded := [(0 - p, fun i price =>
         let* x := rd series i in
         let* price := ring_set price x in
         Ok (ring_step price, [[]]))];
       final := fun i price =>
         let* x := rd series i in
         let* price := ring_set price x in
         let* c := rd hwma_tables (period - 7) in
         let* c0 := rd c 0 in
         let* x12 := ring_get price 12 in
         let* sum := for_ 1 13 (fun j sum =>
           let* cj := rd c j in
           let* y := ring_get price (12 - j) in
           Ok (sum .+ cj .* y)) (c0 .* x12) in
         Ok (ring_step price, [[sum]]) |}
  | _ => bad_loops
  end.
Definition ti_hwma_stream_run := mkrun 1 hwma_loops.

(** ** pvt *)
(** pvt.cc:15-17 *)
Definition ti_pvt_start : startfn := fun options =>
  match options with [] => Ok 1 | _ => Ub BadArgs end.

(** pvt.cc:19-35; *(pvt - 1) is the value written last, kept as state *)
Definition ti_pvt : batchfn := fun size inputs options =>
  match inputs, options with
  | [close; volume], [] =>
    batch_loops 1 size
    {| bounded := [
         (1, fun i last => Ok (last, [[]]));
         (2, fun i last =>
           let* v := rd volume i in let* v1 := rd volume (i - 1) in
           let* c := rd close i in let* c1 := rd close (i - 1) in
           let o := if truth v && truth v1 then v .* (c .- c1) ./ c1 .+ v1 else #0 in
           Ok (Some o, [[o]]))];
       final := fun i last =>
         let* v := rd volume i in let* v1 := rd volume (i - 1) in
         let* c := rd close i in let* c1 := rd close (i - 1) in
         let* last := val last in
         let o := if truth v && truth v1 then last .+ v .* (c .- c1) ./ c1 else #0 in
         Ok (Some o, [[o]]) |} None
  | _, _ => Ub BadArgs
  end.

(** pvt.cc:37-50; writes one value whatever [size] is *)
Definition ti_pvt_ref : batchfn := fun size inputs options =>
  match inputs, options with
  | [close; volume], [] =>
    let* v1 := rd volume 1 in let* v0 := rd volume 0 in
    let* c1 := rd close 1 in let* c0 := rd close 0 in
    let last := v1 .* (c1 .- c0) ./ c0 .+ v0 in
    let* (_, out) := for_ 2 size (fun i '(last, out) =>
      let* v := rd volume i in let* c := rd close i in let* c1 := rd close (i - 1) in
      let o := last .+ v .* (c .- c1) ./ c1 in
      Ok (o, out ++ [o])) (last, [last]) in
    Ok (OKAY, [out])
  | _, _ => Ub BadArgs
  end.

(** pvt.cc:61-71: state (last_close, starting, last_pvt) *)
Definition ti_pvt_stream_new : newfn (stream (unit * (T * T * T))) := fun options =>
  match options with
  | [] => let* start := ti_pvt_start options in
          Ok (OKAY, Some {| progress := - start; core := (tt, (#0, #0, #0)) |})
  | _ => Ub BadArgs
  end.

(** pvt.cc:77-121; the two [if]s are loops that run while progress < 0 and progress < 1: the
    counter starts at -1 and never decreases, so each runs at most once *)
Definition pvt_loops (k : unit) (p : Z) (inputs : list (list T)) : loops (T * T * T) :=
  match inputs with
  | [close; volume] =>
    {| bounded := [
         (0 - p, fun i '(last_close, starting, last_pvt) =>
           let* c := rd close i in
           let* v := rd volume i in
           Ok ((c, v, last_pvt), [[]]));
         (1 - p, fun i '(last_close, starting, last_pvt) =>
           let* v := rd volume i in
           let* c := rd close i in
           let last_pvt := if truth v && truth starting then v .* (c .- last_close) ./ last_close .+ starting else #0 in
           Ok ((c, starting, last_pvt), [[last_pvt]]))];
       final := fun i '(last_close, starting, last_pvt) =>
         let* v := rd volume i in
         let* c := rd close i in
         let last_pvt := last_pvt .+ (if truth v && truth last_pvt then v .* (c .- last_close) ./ last_close else #0) in
         Ok ((c, starting, last_pvt), [[last_pvt]]) |}
  | _ => bad_loops
  end.
Definition ti_pvt_stream_run := mkrun 1 pvt_loops.

End M.

(** Models: the remaining batch-only indicators. *)
From Verif Require Export M_basic Ring.
Section M.
Context {A : Arith}.

(** hma.cc:14-18; [(int)(sqrt(period))] goes through [TI_REAL] *)
Definition ti_hma_start : startfn := fun options =>
  match options with
  | [o0] =>
    let* period := cast o0 in
    let* periodsqrt := cast (fsqrt #period) in
    if period >=? 0 then let* a := ck (period + periodsqrt) in ck (a - 2) else Ok (-1)
  | _ => Ub BadArgs
  end.

(** hma.cc:21-99 *)
Definition ti_hma : batchfn := fun size inputs options =>
  match inputs, options with
  | [input], [o0] =>
    let* period := cast o0 in
    if period <? 1 then Ok (INVALID_OPTION, [[]]) else
    let* start := ti_hma_start options in
    if size <=? start then Ok (OKAY, [[]]) else
    let period2 := Z.quot period 2 in
    let* periodsqrt := cast (fsqrt #period) in
    let* p1 := ck (period + 1) in
    let* w := ck (period * p1) in
    let weights := #(Z.quot w 2) in
    let* w2 := ck (period2 * (period2 + 1)) in
    let weights2 := #(Z.quot w2 2) in
    let* ws := ck (periodsqrt * (periodsqrt + 1)) in
    let weightssqrt := #(Z.quot ws 2) in
    let* (weight_sum, sum, weight_sum2, sum2) :=
      for_ 0 (period - 1) (fun i '(weight_sum, sum, weight_sum2, sum2) =>
        let* x := rd input i in
        let weight_sum := weight_sum .+ x .* #(i + 1) in
        let sum := sum .+ x in
        if i >=? period - period2 then
          Ok (weight_sum, sum, weight_sum2 .+ x .* #(i + 1 - (period - period2)), sum2 .+ x)
        else Ok (weight_sum, sum, weight_sum2, sum2)) (#0, #0, #0, #0) in
    let* buff := buffer_new periodsqrt in
    let* (_, _, _, _, _, _, _, out) :=
      for_ (period - 1) size
        (fun i '(weight_sum, sum, weight_sum2, sum2, weight_sumsqrt, sumsqrt, buff, out) =>
        let* x := rd input i in
        let weight_sum := weight_sum .+ x .* #period in
        let sum := sum .+ x in
        let weight_sum2 := weight_sum2 .+ x .* #period2 in
        let sum2 := sum2 .+ x in
        let wma := weight_sum ./ weights in
        let wma2 := weight_sum2 ./ weights2 in
        let diff := #2 .* wma2 .- wma in
        let weight_sumsqrt := weight_sumsqrt .+ diff .* #periodsqrt in
        let sumsqrt := sumsqrt .+ diff in
        let* buff := buffer_qpush buff diff in
        let* (weight_sumsqrt, sumsqrt, out) :=
          if i >=? (period - 1) + (periodsqrt - 1) then
            let out := out ++ [weight_sumsqrt ./ weightssqrt] in
            let* b := buffer_get buff 1 in
            Ok (weight_sumsqrt .- sumsqrt, sumsqrt .- b, out)
          else Ok (weight_sumsqrt .- sumsqrt, sumsqrt, out) in
        let weight_sum := weight_sum .- sum in
        let* y := rd input (i - period + 1) in
        let sum := sum .- y in
        let weight_sum2 := weight_sum2 .- sum2 in
        let* z := rd input (i - period2 + 1) in
        let sum2 := sum2 .- z in
        Ok (weight_sum, sum, weight_sum2, sum2, weight_sumsqrt, sumsqrt, buff, out))
      (weight_sum, sum, weight_sum2, sum2, #0, #0, buff, []) in
    let* _ := check Assert (zlen out =? size - start) in
    Ok (OKAY, [out])
  | _, _ => Ub BadArgs
  end.

(** tema.cc:11-14, adxr.cc:15-17 *)
Definition start_p13 : startfn := fun options =>
  match options with
  | [o0] => let* p := cast o0 in let* q := ck (p - 1) in ck (q * 3)
  | _ => Ub BadArgs
  end.

(** cci.cc:17-20, adx.cc:13-15 *)
Definition start_p12 : startfn := fun options =>
  match options with
  | [o0] => let* p := cast o0 in let* q := ck (p - 1) in ck (q * 2)
  | _ => Ub BadArgs
  end.

(** tema.cc:17-61 *)
Definition ti_tema : batchfn := fun size inputs options =>
  match inputs, options with
  | [input], [o0] =>
    let* period := cast o0 in
    if period <? 1 then Ok (INVALID_OPTION, [[]]) else
    let* start := start_p13 options in
    if size <=? start then Ok (OKAY, [[]]) else
    let per := #2 ./ (#period .+ #1) in
    let per1 := #1 .- per in
    let* x0 := rd input 0 in
    let* (_, _, _, out) := for_ 0 size (fun i '(ema, ema2, ema3, out) =>
        let* x := rd input i in
        let ema := ema .* per1 .+ x .* per in
        let ema2 := if i =? period - 1 then ema else ema2 in
        if i >=? period - 1 then
          let ema2 := ema2 .* per1 .+ ema .* per in
          let ema3 := if i =? (period - 1) * 2 then ema2 else ema3 in
          if i >=? (period - 1) * 2 then
            let ema3 := ema3 .* per1 .+ ema2 .* per in
            let out := if i >=? (period - 1) * 3
                       then out ++ [#3 .* ema .- #3 .* ema2 .+ ema3] else out in
            Ok (ema, ema2, ema3, out)
          else Ok (ema, ema2, ema3, out)
        else Ok (ema, ema2, ema3, out)) (x0, #0, #0, []) in
    let* _ := check Assert (zlen out =? size - start) in
    Ok (OKAY, [out])
  | _, _ => Ub BadArgs
  end.

(** trima.cc:16-88 *)
Definition ti_trima : batchfn := fun size inputs options =>
  match inputs, options with
  | [input], [o0] =>
    let* period := cast o0 in
    if period <? 1 then Ok (INVALID_OPTION, [[]]) else
    let* start := start_p1 options in
    if size <=? start then Ok (OKAY, [[]]) else
    if period <=? 2 then ti_sma size inputs options else
    let* w0 := if negb (Z.rem period 2 =? 0)
               then ck ((Z.quot period 2 + 1) * (Z.quot period 2 + 1))
               else ck ((Z.quot period 2 + 1) * Z.quot period 2) in
    let weights := #1 ./ #w0 in
    let lead_period := if negb (Z.rem period 2 =? 0) then Z.quot period 2 else Z.quot period 2 - 1 in
    let trail_period := lead_period + 1 in
    let* (weight_sum, lead_sum, trail_sum, w) :=
      for_ 0 (period - 1) (fun i '(weight_sum, lead_sum, trail_sum, w) =>
        let* x := rd input i in
        let weight_sum := weight_sum .+ x .* #w in
        let lead_sum := if i + 1 >? period - lead_period then lead_sum .+ x else lead_sum in
        let trail_sum := if i + 1 <=? trail_period then trail_sum .+ x else trail_sum in
        let w := if i + 1 <? trail_period then w + 1 else w in
        let w := if i + 1 >=? period - lead_period then w - 1 else w in
        Ok (weight_sum, lead_sum, trail_sum, w)) (#0, #0, #0, 1) in
    let lsi := (period - 1) - lead_period + 1 in
    let tsi1 := (period - 1) - period + 1 + trail_period in
    let tsi2 := (period - 1) - period + 1 in
    let* (_, _, _, _, _, _, out) :=
      for_ (period - 1) size (fun i '(weight_sum, lead_sum, trail_sum, lsi, tsi1, tsi2, out) =>
        let* x := rd input i in
        let weight_sum := weight_sum .+ x in
        let out := out ++ [weight_sum .* weights] in
        let lead_sum := lead_sum .+ x in
        let weight_sum := weight_sum .+ lead_sum in
        let weight_sum := weight_sum .- trail_sum in
        let* a := rd input lsi in
        let lead_sum := lead_sum .- a in
        let* b := rd input tsi1 in
        let trail_sum := trail_sum .+ b in
        let* c := rd input tsi2 in
        let trail_sum := trail_sum .- c in
        Ok (weight_sum, lead_sum, trail_sum, lsi + 1, tsi1 + 1, tsi2 + 1, out))
      (weight_sum, lead_sum, trail_sum, lsi, tsi1, tsi2, []) in
    let* _ := check Assert (zlen out =? size - start) in
    Ok (OKAY, [out])
  | _, _ => Ub BadArgs
  end.

(** vidya.cc:13-15 *)
Definition ti_vidya_start : startfn := fun options =>
  match options with
  | [_; o1; _] => let* p := cast o1 in ck (p - 2)
  | _ => Ub BadArgs
  end.

(** vidya.cc:57-62 and 81-85: the smoothing factor *)
Definition vidya_k (short_sum short_sum2 short_div long_sum long_sum2 long_div alpha : T) : T :=
  let short_stddev := fsqrt (short_sum2 .* short_div .- (short_sum .* short_div) .* (short_sum .* short_div)) in
  let long_stddev := fsqrt (long_sum2 .* long_div .- (long_sum .* long_div) .* (long_sum .* long_div)) in
  let k := if truth short_stddev then short_stddev ./ long_stddev else #0 in
  let k := if k .!= k then #0 else k in
  k .* alpha.

(** vidya.cc:18-94 *)
Definition ti_vidya : batchfn := fun size inputs options =>
  match inputs, options with
  | [input], [o0; o1; alpha] =>
    let* short_period := cast o0 in
    let* long_period := cast o1 in
    let short_div := #1 ./ #short_period in
    let long_div := #1 ./ #long_period in
    if short_period <? 1 then Ok (INVALID_OPTION, [[]]) else
    if long_period <? short_period then Ok (INVALID_OPTION, [[]]) else
    if long_period <? 2 then Ok (INVALID_OPTION, [[]]) else
    if (alpha .< #0) || (alpha .> #1) then Ok (INVALID_OPTION, [[]]) else
    let* start := ti_vidya_start options in
    if size <=? start then Ok (OKAY, [[]]) else
    let* (ss, ss2, ls, ls2) := for_ 0 long_period (fun i '(ss, ss2, ls, ls2) =>
        let* x := rd input i in
        let ls := ls .+ x in
        let ls2 := ls2 .+ x .* x in
        if i >=? long_period - short_period then Ok (ss .+ x, ss2 .+ x .* x, ls, ls2)
        else Ok (ss, ss2, ls, ls2)) (#0, #0, #0, #0) in
    let* val := rd input (long_period - 2) in
    let out := [val] in
    let* (val, out) :=
      if long_period - 1 <? size then
        let k := vidya_k ss ss2 short_div ls ls2 long_div alpha in
        let* x := rd input (long_period - 1) in
        let val := (x .- val) .* k .+ val in
        Ok (val, out ++ [val])
      else Ok (val, out) in
    let* (_, _, _, _, _, out) := for_ long_period size (fun i '(ss, ss2, ls, ls2, val, out) =>
        let* x := rd input i in
        let ls := ls .+ x in
        let ls2 := ls2 .+ x .* x in
        let ss := ss .+ x in
        let ss2 := ss2 .+ x .* x in
        let* y := rd input (i - long_period) in
        let ls := ls .- y in
        let ls2 := ls2 .- y .* y in
        let* z := rd input (i - short_period) in
        let ss := ss .- z in
        let ss2 := ss2 .- z .* z in
        let k := vidya_k ss ss2 short_div ls ls2 long_div alpha in
        let val := (x .- val) .* k .+ val in
        Ok (ss, ss2, ls, ls2, val, out ++ [val])) (ss, ss2, ls, ls2, val, out) in
    let* _ := check Assert (zlen out =? size - start) in
    Ok (OKAY, [out])
  | _, _ => Ub BadArgs
  end.

(** kama.cc:17-61 *)
Definition ti_kama : batchfn := fun size inputs options =>
  match inputs, options with
  | [input], [o0] =>
    let* period := cast o0 in
    if period <? 1 then Ok (INVALID_OPTION, [[]]) else
    let* start := start_p1 options in
    if size <=? start then Ok (OKAY, [[]]) else
    let short_per := #2 ./ (#2 .+ #1) in
    let long_per := #2 ./ (#30 .+ #1) in
    let* sum := for_ 1 period (fun i sum =>
        let* a := rd input i in
        let* b := rd input (i - 1) in
        Ok (sum .+ fabs (a .- b))) #0 in
    let* kama := rd input (period - 1) in
    let out := [kama] in
    let* (_, _, out) := for_ period size (fun i '(sum, kama, out) =>
        let* a := rd input i in
        let* b := rd input (i - 1) in
        let sum := sum .+ fabs (a .- b) in
        let* sum := if i >? period then
                      let* c := rd input (i - period) in
                      let* d := rd input (i - period - 1) in
                      Ok (sum .- fabs (c .- d))
                    else Ok sum in
        let* er := if sum .!= #0 then
                     let* c := rd input (i - period) in
                     Ok (fabs (a .- c) ./ sum)
                   else Ok #1 in
        let sc := fpow (er .* (short_per .- long_per) .+ long_per) #2 in
        let kama := kama .+ sc .* (a .- kama) in
        Ok (sum, kama, out ++ [kama])) (sum, kama, out) in
    let* _ := check Assert (zlen out =? size - start) in
    Ok (OKAY, [out])
  | _, _ => Ub BadArgs
  end.

(** psar.cc:17-108 *)
Definition ti_psar : batchfn := fun size inputs options =>
  match inputs, options with
  | [high; low], [accel_step; accel_max] =>
    if accel_step .<= #0 then Ok (INVALID_OPTION, [[]]) else
    if accel_max .<= accel_step then Ok (INVALID_OPTION, [[]]) else
    if size <? 2 then Ok (OKAY, [[]]) else
    let* h0 := rd high 0 in
    let* l0 := rd low 0 in
    let* h1 := rd high 1 in
    let* l1 := rd low 1 in
    let lng := (h0 .+ l0) .<= (h1 .+ l1) in
    let extreme := if lng then h0 else l0 in
    let sar := if lng then l0 else h0 in
    let accel := accel_step in
    let* (_, _, _, _, out) := for_ 1 size (fun i '(lng, sar, extreme, accel, out) =>
        let sar := (extreme .- sar) .* accel .+ sar in
        let* hi := rd high i in
        let* lo := rd low i in
        let* (sar, extreme, accel) :=
          if lng : bool then
            let* sar := if i >=? 2 then
                          let* l2 := rd low (i - 2) in
                          Ok (if sar .> l2 then l2 else sar)
                        else Ok sar in
            let* l1 := rd low (i - 1) in
            let sar := if sar .> l1 then l1 else sar in
            let accel := if (accel .< accel_max) && (hi .> extreme) then
                           let accel := accel .+ accel_step in
                           if accel .> accel_max then accel_max else accel
                         else accel in
            let extreme := if hi .> extreme then hi else extreme in
            Ok (sar, extreme, accel)
          else
            let* sar := if i >=? 2 then
                          let* h2 := rd high (i - 2) in
                          Ok (if sar .< h2 then h2 else sar)
                        else Ok sar in
            let* h1 := rd high (i - 1) in
            let sar := if sar .< h1 then h1 else sar in
            let accel := if (accel .< accel_max) && (lo .< extreme) then
                           let accel := accel .+ accel_step in
                           if accel .> accel_max then accel_max else accel
                         else accel in
            let extreme := if lo .< extreme then lo else extreme in
            Ok (sar, extreme, accel) in
        if (lng && (lo .< sar)) || (negb lng && (hi .> sar)) then
          let accel := accel_step in
          let sar := extreme in
          let lng := negb lng in
          let extreme := if negb lng then lo else hi in
          Ok (lng, sar, extreme, accel, out ++ [sar])
        else Ok (lng, sar, extreme, accel, out ++ [sar])) (lng, sar, extreme, accel, []) in
    let* _ := check Assert (zlen out =? size - 1) in
    Ok (OKAY, [out])
  | _, _ => Ub BadArgs
  end.

(** bbands.cc:11-13 *)
Definition ti_bbands_start : startfn := fun options =>
  match options with
  | [o0; _] => let* p := cast o0 in ck (p - 1)
  | _ => Ub BadArgs
  end.

(** bbands.cc:16-63; outputs: lower, middle, upper *)
Definition ti_bbands : batchfn := fun size inputs options =>
  match inputs, options with
  | [input], [o0; stddev] =>
    let* period := cast o0 in
    let scale := #1 ./ #period in
    if period <? 1 then Ok (INVALID_OPTION, [[]; []; []]) else
    let* start := ti_bbands_start options in
    if size <=? start then Ok (OKAY, [[]; []; []]) else
    let* (sum, sum2) := for_ 0 period (fun i '(sum, sum2) =>
        let* x := rd input i in
        Ok (sum .+ x, sum2 .+ x .* x)) (#0, #0) in
    let sd := fsqrt (sum2 .* scale .- (sum .* scale) .* (sum .* scale)) in
    let mid := sum .* scale in
    let lower := [mid .- stddev .* sd] in
    let upper := [mid .+ stddev .* sd] in
    let middle := [mid] in
    let* (_, _, lower, middle, upper) :=
      for_ period size (fun i '(sum, sum2, lower, middle, upper) =>
        let* x := rd input i in
        let sum := sum .+ x in
        let sum2 := sum2 .+ x .* x in
        let* y := rd input (i - period) in
        let sum := sum .- y in
        let sum2 := sum2 .- y .* y in
        let sd := fsqrt (sum2 .* scale .- (sum .* scale) .* (sum .* scale)) in
        let mid := sum .* scale in
        let upper := upper ++ [mid .+ stddev .* sd] in
        let lower := lower ++ [mid .- stddev .* sd] in
        let middle := middle ++ [mid] in
        Ok (sum, sum2, lower, middle, upper)) (sum, sum2, lower, middle, upper) in
    let* _ := check Assert (zlen lower =? size - start) in
    let* _ := check Assert (zlen middle =? size - start) in
    let* _ := check Assert (zlen upper =? size - start) in
    Ok (OKAY, [lower; middle; upper])
  | _, _ => Ub BadArgs
  end.

(** [return (int)(options[1])-1;] with two options (adosc.cc:11-13, vosc.cc:11-13) *)
Definition start_l1 : startfn := fun options =>
  match options with
  | [_; o1] => let* p := cast o1 in ck (p - 1)
  | _ => Ub BadArgs
  end.

(** adosc.cc:16-59 *)
Definition ti_adosc : batchfn := fun size inputs options =>
  match inputs, options with
  | [high; low; close; volume], [o0; o1] =>
    let* short_period := cast o0 in
    let* long_period := cast o1 in
    let* start := ck (long_period - 1) in
    if short_period <? 1 then Ok (INVALID_OPTION, [[]]) else
    if long_period <? short_period then Ok (INVALID_OPTION, [[]]) else
    let* start' := start_l1 options in
    if size <=? start' then Ok (OKAY, [[]]) else
    let short_per := #2 ./ (#short_period .+ #1) in
    let long_per := #2 ./ (#long_period .+ #1) in
    let* (_, _, _, out) := for_ 0 size (fun i '(sum, short_ema, long_ema, out) =>
        let* h := rd high i in
        let* l := rd low i in
        let hl := h .- l in
        let* sum := if hl .!= #0 then
                      let* c := rd close i in
                      let* v := rd volume i in
                      Ok (sum .+ (c .- l .- h .+ c) ./ hl .* v)
                    else Ok sum in
        let short_ema := if i =? 0 then sum else (sum .- short_ema) .* short_per .+ short_ema in
        let long_ema := if i =? 0 then sum else (sum .- long_ema) .* long_per .+ long_ema in
        let out := if i >=? start then out ++ [short_ema .- long_ema] else out in
        Ok (sum, short_ema, long_ema, out)) (#0, #0, #0, []) in
    let* _ := check Assert (zlen out =? size - start') in
    Ok (OKAY, [out])
  | _, _ => Ub BadArgs
  end.

(** abands.cc:34, macro MULT *)
Definition abands_MULT (h l : T) : T :=
  if (h .+ l) .> #0 then #4 .* (h .- l) ./ (h .+ l) else #0.

(** abands.cc:22-79; outputs: lower, upper, middle *)
Definition ti_abands : batchfn := fun size inputs options =>
  match inputs, options with
  | [high; low; close], [o0] =>
    let* period := cast o0 in
    if period <? 1 then Ok (INVALID_OPTION, [[]; []; []]) else
    let* start := start_p1 options in
    if size <=? start then Ok (OKAY, [[]; []; []]) else
    let per := #1 ./ #period in
    let* bh := buffer_new period in
    let* bl := buffer_new period in
    let* (bh, bl, close_sum) := for_ 0 period (fun i '(bh, bl, close_sum) =>
        let* h := rd high i in
        let* l := rd low i in
        let mult := abands_MULT h l in
        let* bh := buffer_push bh ((#1 .+ mult) .* h) in
        let* bl := buffer_push bl ((#1 .- mult) .* l) in
        let* c := rd close i in
        Ok (bh, bl, close_sum .+ c)) (bh, bl, #0) in
    let upper := [bsum bh .* per] in
    let lower := [bsum bl .* per] in
    let middle := [close_sum .* per] in
    let* (_, _, _, lower, upper, middle) :=
      for_ period size (fun i '(bh, bl, close_sum, lower, upper, middle) =>
        let* h := rd high i in
        let* l := rd low i in
        let mult := abands_MULT h l in
        let* bh := buffer_push bh ((#1 .+ mult) .* h) in
        let* bl := buffer_push bl ((#1 .- mult) .* l) in
        let* c := rd close i in
        let* d := rd close (i - period) in
        let close_sum := close_sum .+ (c .- d) in
        Ok (bh, bl, close_sum, lower ++ [bsum bl .* per], upper ++ [bsum bh .* per],
            middle ++ [close_sum .* per])) (bh, bl, close_sum, lower, upper, middle) in
    let* _ := check Assert (zlen lower =? size - start) in
    Ok (OKAY, [lower; upper; middle])
  | _, _ => Ub BadArgs
  end.

(** abands.cc:81-108; [period] is a TI_REAL that holds an int, so [period-1] and
    [i-period+1] are the exact integers.  No check that the series is long enough. *)
Definition ti_abands_ref : batchfn := fun size inputs options =>
  match inputs, options with
  | [high; low; close], [o0] =>
    let* period := cast o0 in
    if period <? 1 then Ok (INVALID_OPTION, [[]; []; []]) else
    let* (lower, upper, middle) := for_ (period - 1) size (fun i '(lower, upper, middle) =>
        let* (up, mid, low) := for_ (i - period + 1) (i + 1) (fun j '(up, mid, lo) =>
            let* h := rd high j in
            let* l := rd low j in
            let* c := rd close j in
            let x := ((h .- l) ./ ((h .+ l) ./ #2)) .* #1000 .* lit 1 3 in
            Ok (up .+ (h .* (#1 .+ #2 .* x)) ./ #period, mid .+ c ./ #period,
                lo .+ (l .* (#1 .- #2 .* x)) ./ #period)) (#0, #0, #0) in
        Ok (lower ++ [low], upper ++ [up], middle ++ [mid])) ([], [], []) in
    let* start := start_p1 options in
    let* _ := check Assert (zlen lower =? size - start) in
    Ok (OKAY, [lower; upper; middle])
  | _, _ => Ub BadArgs
  end.

(** ao.cc:11-14 *)
Definition ti_ao_start : startfn := fun _ => Ok 33.

(** ao.cc:17-55 *)
Definition ti_ao : batchfn := fun size inputs options =>
  match inputs, options with
  | [high; low], [] =>
    let* start := ti_ao_start options in
    if size <=? start then Ok (OKAY, [[]]) else
    let per34 := #1 ./ #34 in
    let per5 := #1 ./ #5 in
    let* (sum34, sum5) := for_ 0 34 (fun i '(sum34, sum5) =>
        let* h := rd high i in
        let* l := rd low i in
        let hl := lit 5 1 .* (h .+ l) in
        Ok (sum34 .+ hl, if i >=? 29 then sum5 .+ hl else sum5)) (#0, #0) in
    let out := [per5 .* sum5 .- per34 .* sum34] in
    let* (_, _, out) := for_ 34 size (fun i '(sum34, sum5, out) =>
        let* h := rd high i in
        let* l := rd low i in
        let hl := lit 5 1 .* (h .+ l) in
        let sum34 := sum34 .+ hl in
        let sum5 := sum5 .+ hl in
        let* h := rd high (i - 34) in
        let* l := rd low (i - 34) in
        let sum34 := sum34 .- lit 5 1 .* (h .+ l) in
        let* h := rd high (i - 5) in
        let* l := rd low (i - 5) in
        let sum5 := sum5 .- lit 5 1 .* (h .+ l) in
        Ok (sum34, sum5, out ++ [per5 .* sum5 .- per34 .* sum34])) (sum34, sum5, out) in
    let* _ := check Assert (zlen out =? size - start) in
    Ok (OKAY, [out])
  | _, _ => Ub BadArgs
  end.

(** cmf.cc:31, macro CHAIKIN_AD; close and volume are read only for a non-zero range *)
Definition CHAIKIN_AD (high low close volume : list T) (i : Z) : res T :=
  let* h := rd high i in
  let* l := rd low i in
  if truth (h .- l) then
    let* v := rd volume i in
    let* c := rd close i in
    Ok (v .* ((c .- l) .- (h .- c)) ./ (h .- l))
  else Ok #0.

(** cmf.cc:20-55; the size check uses ti_wma_start, the same function as ti_cmf_start *)
Definition ti_cmf : batchfn := fun size inputs options =>
  match inputs, options with
  | [high; low; close; volume], [o0] =>
    let* period := cast o0 in
    if period <? 1 then Ok (INVALID_OPTION, [[]]) else
    let* start := start_p1 options in
    if size <=? start then Ok (OKAY, [[]]) else
    let* (ads, vol) := for_ 0 (period - 1) (fun i '(ads, vol) =>
        let* a := CHAIKIN_AD high low close volume i in
        let* v := rd volume i in
        Ok (ads .+ a, vol .+ v)) (#0, #0) in
    let* (_, _, out) := for_ (period - 1) size (fun i '(ads, vol, out) =>
        let* a := CHAIKIN_AD high low close volume i in
        let* v := rd volume i in
        let ads := ads .+ a in
        let vol := vol .+ v in
        let out := out ++ [if truth vol then ads ./ vol else #0] in
        let* a := CHAIKIN_AD high low close volume (i - period + 1) in
        let* v := rd volume (i - period + 1) in
        Ok (ads .- a, vol .- v, out)) (ads, vol, []) in
    let* _ := check Assert (zlen out =? size - start) in
    Ok (OKAY, [out])
  | _, _ => Ub BadArgs
  end.

(** cci.cc:14, mfi.cc:11, macro TYPPRICE *)
Definition TYPPRICE (high low close : list T) (i : Z) : res T :=
  let* h := rd high i in
  let* l := rd low i in
  let* c := rd close i in
  Ok ((h .+ l .+ c) .* (#1 ./ #3)).

(** cci.cc:23-62 *)
Definition ti_cci : batchfn := fun size inputs options =>
  match inputs, options with
  | [high; low; close], [o0] =>
    let* period := cast o0 in
    let scale := #1 ./ #period in
    if period <? 1 then Ok (INVALID_OPTION, [[]]) else
    let* start := start_p12 options in
    if size <=? start then Ok (OKAY, [[]]) else
    let* sum := buffer_new period in
    let* (_, out) := for_ 0 size (fun i '(sum, out) =>
        let* today := TYPPRICE high low close i in
        let* sum := buffer_push sum today in
        let avg := bsum sum .* scale in
        let* p2 := ck (period * 2) in
        if i >=? p2 - 2 then
          let* acc := for_ 0 period (fun j acc =>
              let* v := rdo (bvals sum) j in
              Ok (acc .+ fabs (avg .- v))) #0 in
          let cci := acc .* scale in
          let cci := cci .* lit 15 3 in
          let cci := if truth cci then (today .- avg) ./ cci else cci in
          Ok (sum, out ++ [cci])
        else Ok (sum, out)) (sum, []) in
    let* _ := check Assert (zlen out =? size - start) in
    Ok (OKAY, [out])
  | _, _ => Ub BadArgs
  end.

(** kvo.cc:13-16 *)
Definition ti_kvo_start : startfn := fun _ => Ok 1.

(** kvo.cc:19-76 *)
Definition ti_kvo : batchfn := fun size inputs options =>
  match inputs, options with
  | [high; low; close; volume], [o0; o1] =>
    let* short_period := cast o0 in
    let* long_period := cast o1 in
    if short_period <? 1 then Ok (INVALID_OPTION, [[]]) else
    if long_period <? short_period then Ok (INVALID_OPTION, [[]]) else
    let* start := ti_kvo_start options in
    if size <=? start then Ok (OKAY, [[]]) else
    let short_per := #2 ./ (#short_period .+ #1) in
    let long_per := #2 ./ (#long_period .+ #1) in
    let* h := rd high 0 in
    let* l := rd low 0 in
    let* c := rd close 0 in
    let prev_hlc := h .+ l .+ c in
    let* (_, _, _, _, _, out) :=
      for_ 1 size (fun i '(cm, prev_hlc, trend, short_ema, long_ema, out) =>
        let* h := rd high i in
        let* l := rd low i in
        let* c := rd close i in
        let hlc := h .+ l .+ c in
        let dm := h .- l in
        let* (trend, cm) :=
          if (hlc .> prev_hlc) && negb (trend =? 1) then
            let* h' := rd high (i - 1) in
            let* l' := rd low (i - 1) in
            Ok (1, h' .- l')
          else if (hlc .< prev_hlc) && negb (trend =? 0) then
            let* h' := rd high (i - 1) in
            let* l' := rd low (i - 1) in
            Ok (0, h' .- l')
          else Ok (trend, cm) in
        let cm := cm .+ dm in
        let* vf := if truth dm then
                     let* v := rd volume i in
                     Ok (v .* fabs (dm ./ cm .* #2 .- #1) .* #100
                           .* (if negb (trend =? 0) then #1 else .- #1))
                   else Ok #0 in
        let short_ema := if i =? 1 then vf else (vf .- short_ema) .* short_per .+ short_ema in
        let long_ema := if i =? 1 then vf else (vf .- long_ema) .* long_per .+ long_ema in
        Ok (cm, hlc, trend, short_ema, long_ema, out ++ [short_ema .- long_ema]))
      (#0, prev_hlc, -1, #0, #0, []) in
    let* _ := check Assert (zlen out =? size - start) in
    Ok (OKAY, [out])
  | _, _ => Ub BadArgs
  end.

(** kst.cc:23-34 *)
Definition ti_kst_start : startfn := fun options =>
  match options with
  | [_; _; _; roc4; _; _; _; _] => cast roc4
  | _ => Ub BadArgs
  end.

(** kst.cc:67, macro ROC *)
Definition kst_ROC (series : list T) (idx period : Z) : res T :=
  let* a := rd series idx in
  let* b := rd series (idx - period) in
  Ok ((a .- b) ./ b).

(** kst.cc:74-85, one of the four warm-up loops *)
Definition kst_warm (size : Z) (series : list T) (roc roc4 : Z) (per v : T) : res T :=
  for_ (roc + 1) (Z.min (roc4 + 1) size) (fun i v =>
      let* r := kst_ROC series i roc in
      Ok ((r .- v) .* per .+ v)) v.

(** kst.cc:36-106; outputs: kst, signal.  max_ma (58-59) is unused. *)
Definition ti_kst : batchfn := fun size inputs options =>
  match inputs, options with
  | [series], [o0; o1; o2; o3; o4; o5; o6; o7] =>
    let* roc1 := cast o0 in
    let* roc2 := cast o1 in
    let* roc3 := cast o2 in
    let* roc4 := cast o3 in
    let* ma1 := cast o4 in
    let* ma2 := cast o5 in
    let* ma3 := cast o6 in
    let* ma4 := cast o7 in
    if negb ((roc1 <? roc2) && (roc2 <? roc3) && (roc3 <? roc4))
    then Ok (INVALID_OPTION, [[]; []]) else
    if existsb (fun o => o .< #1) options then Ok (INVALID_OPTION, [[]; []]) else
    let* m1 := ck (ma1 + 1) in
    let* m2 := ck (ma2 + 1) in
    let* m3 := ck (ma3 + 1) in
    let* m4 := ck (ma4 + 1) in
    let per1 := #2 ./ #m1 in
    let per2 := #2 ./ #m2 in
    let per3 := #2 ./ #m3 in
    let per4 := #2 ./ #m4 in
    let per_signal := #2 ./ (#9 .+ #1) in
    let* v1 := kst_ROC series roc1 roc1 in
    let* v2 := kst_ROC series roc2 roc2 in
    let* v3 := kst_ROC series roc3 roc3 in
    let* v4 := kst_ROC series roc4 roc4 in
    let* r4 := ck (roc4 + 1) in
    let* v1 := kst_warm size series roc1 roc4 per1 v1 in
    let* v2 := kst_warm size series roc2 roc4 per2 v2 in
    let* v3 := kst_warm size series roc3 roc4 per3 v3 in
    let* v4 := kst_warm size series roc4 roc4 per4 v4 in
    let val := (v1 .* #1 .+ v2 .* #2 .+ v3 .* #3 .+ v4 .* #4) ./ #10 in
    let* (_, _, _, _, _, kst, sig) :=
      for_ r4 size (fun i '(v1, v2, v3, v4, s, kst, sig) =>
        let* x1 := kst_ROC series i roc1 in
        let* x2 := kst_ROC series i roc2 in
        let* x3 := kst_ROC series i roc3 in
        let* x4 := kst_ROC series i roc4 in
        let v1 := (x1 .- v1) .* per1 .+ v1 in
        let v2 := (x2 .- v2) .* per2 .+ v2 in
        let v3 := (x3 .- v3) .* per3 .+ v3 in
        let v4 := (x4 .- v4) .* per4 .+ v4 in
        let val := (v1 .* #1 .+ v2 .* #2 .+ v3 .* #3 .+ v4 .* #4) ./ #10 in
        let s := (val .- s) .* per_signal .+ s in
        Ok (v1, v2, v3, v4, s, kst ++ [val], sig ++ [s]))
      (v1, v2, v3, v4, val, [val], [val]) in
    let* start := ti_kst_start options in
    let* _ := check Assert (zlen kst =? size - start) in
    Ok (OKAY, [kst; sig])
  | _, _ => Ub BadArgs
  end.

(** The output list of a call that returns TI_OKAY with one output. *)
Definition one_out (r : code * list (list T)) : res (list T) :=
  match r with (_, [o]) => Ok o | _ => Ub BadArgs end.

(** kst.cc:130-139, one pass of the loop: the smoothed rate of change.  A malloc() of a
    non-positive size is never dereferenced (ti_roc and ti_ema write nothing then), so
    only the written values are modelled. *)
Definition kst_ref_branch (size : Z) (series : list T) (roc ma : T) : res (Z * list T) :=
  let* s := start_p [roc] in
  let* size_roc := ck (size - s) in
  let* r := ti_roc size [series] [roc] in
  let* roc_mem := one_out r in
  let* e := ti_ema size_roc [roc_mem] [ma] in
  let* ema_mem := one_out e in
  Ok (size_roc, ema_mem).

(** kst.cc:108-163; ti_ema_start is 0, so size_ema = size_roc *)
Definition ti_kst_ref : batchfn := fun size inputs options =>
  match inputs, options with
  | [series], [o0; o1; o2; o3; o4; o5; o6; o7] =>
    if negb ((o0 .< o1) && (o1 .< o2) && (o2 .< o3)) then Ok (INVALID_OPTION, [[]; []]) else
    if existsb (fun o => o .< #1) options then Ok (INVALID_OPTION, [[]; []]) else
    let* (n0, e0) := kst_ref_branch size series o0 o4 in
    let* (n1, e1) := kst_ref_branch size series o1 o5 in
    let* (n2, e2) := kst_ref_branch size series o2 o6 in
    let* (n3, e3) := kst_ref_branch size series o3 o7 in
    let min_len := Z.min (Z.min (Z.min n0 n1) n2) n3 in
    let* kst := for_ 0 min_len (fun i kst =>
        let* a := rd e0 (i + (n0 - min_len)) in
        let* b := rd e1 (i + (n1 - min_len)) in
        let* c := rd e2 (i + (n2 - min_len)) in
        let* d := rd e3 (i + (n3 - min_len)) in
        Ok (kst ++ [(a .* #1 .+ b .* #2 .+ c .* #3 .+ d .* #4) ./ #10])) [] in
    let* s := ti_ema min_len [kst] [#9] in
    let* sig := one_out s in
    let* start := ti_kst_start options in
    let* _ := check Assert (zlen kst =? size - start) in
    Ok (OKAY, [kst; sig])
  | _, _ => Ub BadArgs
  end.

(** mass.cc:12-17 *)
Definition ti_mass_start : startfn := fun options =>
  match options with
  | [o0] => let* p := cast o0 in let* q := ck (p - 1) in ck (16 + q)
  | _ => Ub BadArgs
  end.

(** mass.cc:20-66 *)
Definition ti_mass : batchfn := fun size inputs options =>
  match inputs, options with
  | [high; low], [o0] =>
    let* period := cast o0 in
    if period <? 1 then Ok (INVALID_OPTION, [[]]) else
    let* start := ti_mass_start options in
    if size <=? start then Ok (OKAY, [[]]) else
    let per := #2 ./ (#9 .+ #1) in
    let per1 := #1 .- per in
    let* h := rd high 0 in
    let* l := rd low 0 in
    let ema := h .- l in
    let ema2 := ema in
    let* sum := buffer_new period in
    let* (_, _, _, out) := for_ 0 size (fun i '(ema, ema2, sum, out) =>
        let* h := rd high i in
        let* l := rd low i in
        let hl := h .- l in
        let ema := ema .* per1 .+ hl .* per in
        let ema2 := if i =? 8 then ema else ema2 in
        if i >=? 8 then
          let ema2 := ema2 .* per1 .+ ema .* per in
          if i >=? 16 then
            let* sum := buffer_push sum (if truth ema then ema ./ ema2 else #0) in
            Ok (ema, ema2, sum, if i >=? 16 + period - 1 then out ++ [bsum sum] else out)
          else Ok (ema, ema2, sum, out)
        else Ok (ema, ema2, sum, out)) (ema, ema2, sum, []) in
    let* _ := check Assert (zlen out =? size - start) in
    Ok (OKAY, [out])
  | _, _ => Ub BadArgs
  end.

(** mfi.cc:18-64 *)
Definition ti_mfi : batchfn := fun size inputs options =>
  match inputs, options with
  | [high; low; close; volume], [o0] =>
    let* period := cast o0 in
    if period <? 1 then Ok (INVALID_OPTION, [[]]) else
    let* start := start_p options in
    if size <=? start then Ok (OKAY, [[]]) else
    let* ytyp := TYPPRICE high low close 0 in
    let* up := buffer_new period in
    let* down := buffer_new period in
    let* (_, _, _, out) := for_ 1 size (fun i '(ytyp, up, down, out) =>
        let* typ := TYPPRICE high low close i in
        let* v := rd volume i in
        let bar := typ .* v in
        let* (up, down) :=
          if typ .> ytyp then
            let* up := buffer_push up bar in
            let* down := buffer_push down #0 in Ok (up, down)
          else if typ .< ytyp then
            let* down := buffer_push down bar in
            let* up := buffer_push up #0 in Ok (up, down)
          else
            let* up := buffer_push up #0 in
            let* down := buffer_push down #0 in Ok (up, down) in
        let ytyp := typ in
        let out := if i >=? period
                   then out ++ [if truth (bsum up) then bsum up ./ (bsum up .+ bsum down) .* #100 else #0]
                   else out in
        Ok (ytyp, up, down, out)) (ytyp, up, down, []) in
    let* _ := check Assert (zlen out =? size - start) in
    Ok (OKAY, [out])
  | _, _ => Ub BadArgs
  end.

(** macd.cc:11-15 *)
Definition ti_macd_start : startfn := fun options =>
  match options with
  | [_; o1; _] => let* p := cast o1 in ck (p - 1)
  | _ => Ub BadArgs
  end.

(** macd.cc:18-74; outputs: macd, signal, histogram *)
Definition ti_macd : batchfn := fun size inputs options =>
  match inputs, options with
  | [input], [o0; o1; o2] =>
    let* short_period := cast o0 in
    let* long_period := cast o1 in
    let* signal_period := cast o2 in
    if short_period <? 1 then Ok (INVALID_OPTION, [[]; []; []]) else
    if long_period <? 2 then Ok (INVALID_OPTION, [[]; []; []]) else
    if long_period <? short_period then Ok (INVALID_OPTION, [[]; []; []]) else
    if signal_period <? 1 then Ok (INVALID_OPTION, [[]; []; []]) else
    let* start := ti_macd_start options in
    if size <=? start then Ok (OKAY, [[]; []; []]) else
    let special := (short_period =? 12) && (long_period =? 26) in
    let short_per := if special then lit 15 2 else #2 ./ (#short_period .+ #1) in
    let long_per := if special then lit 75 3 else #2 ./ (#long_period .+ #1) in
    let signal_per := #2 ./ (#signal_period .+ #1) in
    let* x0 := rd input 0 in
    let* (_, _, _, macd, signal, hist) :=
      for_ 1 size (fun i '(short_ema, long_ema, signal_ema, macd, signal, hist) =>
        let* x := rd input i in
        let short_ema := (x .- short_ema) .* short_per .+ short_ema in
        let long_ema := (x .- long_ema) .* long_per .+ long_ema in
        let out := short_ema .- long_ema in
        let signal_ema := if i =? long_period - 1 then out else signal_ema in
        if i >=? long_period - 1 then
          let signal_ema := (out .- signal_ema) .* signal_per .+ signal_ema in
          Ok (short_ema, long_ema, signal_ema, macd ++ [out], signal ++ [signal_ema],
              hist ++ [out .- signal_ema])
        else Ok (short_ema, long_ema, signal_ema, macd, signal, hist))
      (x0, x0, #0, [], [], []) in
    let* _ := check Assert (zlen macd =? size - start) in
    let* _ := check Assert (zlen signal =? size - start) in
    let* _ := check Assert (zlen hist =? size - start) in
    Ok (OKAY, [macd; signal; hist])
  | _, _ => Ub BadArgs
  end.

(** stochrsi.cc:12-14, cvi.cc:12-15 *)
Definition start_2p1 : startfn := fun options =>
  match options with
  | [o0] => let* p := cast o0 in let* q := ck (p * 2) in ck (q - 1)
  | _ => Ub BadArgs
  end.

(** stochrsi.cc:57-70 (cmp = [>]) and 72-85 (cmp = [<]): new value, or rescan of the ring
    when the slot about to be overwritten held the extreme *)
Definition stochrsi_ext (cmp : T -> T -> bool) (rsi : buffer) (r : T) (s : Z * T) : res (Z * T) :=
  let (mi, m) := s in
  if cmp r m then Ok (bindex rsi, r)
  else if mi =? bindex rsi then
    for_ 0 (bsize rsi) (fun j '(mi, m) =>
        if j =? bindex rsi then Ok (mi, m) else
        let* v := rdo (bvals rsi) j in
        Ok (if cmp v m then (j, v) else (mi, m))) (mi, r)
  else Ok (mi, m).

(** stochrsi.cc:17-102 *)
Definition ti_stochrsi : batchfn := fun size inputs options =>
  match inputs, options with
  | [input], [o0] =>
    let* period := cast o0 in
    let per := #1 ./ #period in
    if period <? 2 then Ok (INVALID_OPTION, [[]]) else
    let* start := start_2p1 options in
    if size <=? start then Ok (OKAY, [[]]) else
    let* rsi := buffer_new period in
    let* (su, sd) := for_ 1 (period + 1) (fun i '(su, sd) =>
        let* u := UPWARD input i in
        let* d := DOWNWARD input i in
        Ok (su .+ u, sd .+ d)) (#0, #0) in
    let su := su ./ #period in
    let sd := sd ./ #period in
    let r := if truth su then #100 .* (su ./ (su .+ sd)) else #0 in
    let* rsi := buffer_push rsi r in
    let* (_, _, _, _, _, out) := for_ (period + 1) size (fun i '(su, sd, rsi, smax, smin, out) =>
        let* u := UPWARD input i in
        let* d := DOWNWARD input i in
        let su := (u .- su) .* per .+ su in
        let sd := (d .- sd) .* per .+ sd in
        let r := if truth su then #100 .* (su ./ (su .+ sd)) else #0 in
        let* smax := stochrsi_ext (fun a b => a .> b) rsi r smax in
        let* smin := stochrsi_ext (fun a b => a .< b) rsi r smin in
        let* rsi := buffer_qpush rsi r in
        let* p2 := ck (period * 2) in
        let out := if i >? p2 - 2 then
                     let diff := snd smax .- snd smin in
                     out ++ [if diff .== #0 then #0 else (r .- snd smin) ./ diff]
                   else out in
        Ok (su, sd, rsi, smax, smin, out)) (su, sd, rsi, (0, r), (0, r), []) in
    let* _ := check Assert (zlen out =? size - start) in
    Ok (OKAY, [out])
  | _, _ => Ub BadArgs
  end.

(** trix.cc:11-14 *)
Definition ti_trix_start : startfn := fun options =>
  match options with
  | [o0] => let* p := cast o0 in let* q := ck (p - 1) in let* r := ck (q * 3) in ck (r + 1)
  | _ => Ub BadArgs
  end.

(** trix.cc:17-61 *)
Definition ti_trix : batchfn := fun size inputs options =>
  match inputs, options with
  | [input], [o0] =>
    let* period := cast o0 in
    if period <? 1 then Ok (INVALID_OPTION, [[]]) else
    let* tstart := ti_trix_start options in
    if size <=? tstart then Ok (OKAY, [[]]) else
    let* p3 := ck (period * 3) in
    let start := p3 - 2 in
    let* _ := check Assert (start =? tstart) in
    let per := #2 ./ (#period .+ #1) in
    let* x0 := rd input 0 in
    let* (ema1, ema2, ema3) := for_ 1 start (fun i '(ema1, ema2, ema3) =>
        let* x := rd input i in
        let ema1 := (x .- ema1) .* per .+ ema1 in
        if i =? period - 1 then Ok (ema1, ema1, ema3)
        else if i >? period - 1 then
          let ema2 := (ema1 .- ema2) .* per .+ ema2 in
          if i =? period * 2 - 2 then Ok (ema1, ema2, ema2)
          else if i >? period * 2 - 2 then Ok (ema1, ema2, (ema2 .- ema3) .* per .+ ema3)
          else Ok (ema1, ema2, ema3)
        else Ok (ema1, ema2, ema3)) (x0, #0, #0) in
    let* (_, _, _, out) := for_ start size (fun i '(ema1, ema2, ema3, out) =>
        let* x := rd input i in
        let ema1 := (x .- ema1) .* per .+ ema1 in
        let ema2 := (ema1 .- ema2) .* per .+ ema2 in
        let last := ema3 in
        let ema3 := (ema2 .- ema3) .* per .+ ema3 in
        Ok (ema1, ema2, ema3, out ++ [if truth ema3 then (ema3 .- last) ./ ema3 .* #100 else #0]))
      (ema1, ema2, ema3, []) in
    let* _ := check Assert (zlen out =? size - tstart) in
    Ok (OKAY, [out])
  | _, _ => Ub BadArgs
  end.

(** ultosc.cc:13-15 *)
Definition ti_ultosc_start : startfn := fun options =>
  match options with
  | [_; _; o2] => cast o2
  | _ => Ub BadArgs
  end.

(** ultosc.cc:60-63 and 66-69: take the value that leaves the shorter window out of its sum *)
Definition ultosc_drop (bp_buf r_buf : buffer) (long_period period : Z) (s : T * T) : res (T * T) :=
  let (bp_sum, r_sum) := s in
  let index := bindex bp_buf - period - 1 in
  let index := if index <? 0 then index + long_period else index in
  let* b := rdo (bvals bp_buf) index in
  let* r := rdo (bvals r_buf) index in
  Ok (bp_sum .- b, r_sum .- r).

(** ultosc.cc:18-90 *)
Definition ti_ultosc : batchfn := fun size inputs options =>
  match inputs, options with
  | [high; low; close], [o0; o1; o2] =>
    let* short_period := cast o0 in
    let* medium_period := cast o1 in
    let* long_period := cast o2 in
    if short_period <? 1 then Ok (INVALID_OPTION, [[]]) else
    if medium_period <? short_period then Ok (INVALID_OPTION, [[]]) else
    if long_period <? medium_period then Ok (INVALID_OPTION, [[]]) else
    let* start := ti_ultosc_start options in
    if size <=? start then Ok (OKAY, [[]]) else
    let* bp_buf := buffer_new long_period in
    let* r_buf := buffer_new long_period in
    let* (_, _, _, _, out) := for_ 1 size (fun i '(bp_buf, r_buf, ss, ms, out) =>
        let* lo := rd low i in
        let* pc := rd close (i - 1) in
        let true_low := MINf lo pc in
        let* hi := rd high i in
        let true_high := MAXf hi pc in
        let* c := rd close i in
        let bp := c .- true_low in
        let r := true_high .- true_low in
        let ss := (fst ss .+ bp, snd ss .+ r) in
        let ms := (fst ms .+ bp, snd ms .+ r) in
        let* bp_buf := buffer_push bp_buf bp in
        let* r_buf := buffer_push r_buf r in
        let* (ss, ms) :=
          if i >? short_period then
            let* ss := ultosc_drop bp_buf r_buf long_period short_period ss in
            if i >? medium_period then
              let* ms := ultosc_drop bp_buf r_buf long_period medium_period ms in
              Ok (ss, ms)
            else Ok (ss, ms)
          else Ok (ss, ms) in
        let out := if i >=? long_period then
            let first := if truth (fst ss) then #4 .* fst ss ./ snd ss else #0 in
            let second := if truth (fst ms) then #2 .* fst ms ./ snd ms else #0 in
            let third := if truth (bsum bp_buf) then #1 .* bsum bp_buf ./ bsum r_buf else #0 in
            out ++ [(first .+ second .+ third) .* #100 ./ #7]
          else out in
        Ok (bp_buf, r_buf, ss, ms, out)) (bp_buf, r_buf, (#0, #0), (#0, #0), []) in
    let* _ := check Assert (zlen out =? size - start) in
    Ok (OKAY, [out])
  | _, _ => Ub BadArgs
  end.

(** vosc.cc:16-61 *)
Definition ti_vosc : batchfn := fun size inputs options =>
  match inputs, options with
  | [input], [o0; o1] =>
    let* short_period := cast o0 in
    let* long_period := cast o1 in
    let short_div := #1 ./ #short_period in
    let long_div := #1 ./ #long_period in
    if short_period <? 1 then Ok (INVALID_OPTION, [[]]) else
    if long_period <? short_period then Ok (INVALID_OPTION, [[]]) else
    let* start := start_l1 options in
    if size <=? start then Ok (OKAY, [[]]) else
    let* (ss, ls) := for_ 0 long_period (fun i '(ss, ls) =>
        let* x := rd input i in
        Ok (if i >=? long_period - short_period then ss .+ x else ss, ls .+ x)) (#0, #0) in
    let val ss ls :=
      let savg := ss .* short_div in
      let lavg := ls .* long_div in
      if truth (savg .- lavg) then #100 .* (savg .- lavg) ./ lavg else #0 in
    let* (_, _, out) := for_ long_period size (fun i '(ss, ls, out) =>
        let* x := rd input i in
        let ss := ss .+ x in
        let* y := rd input (i - short_period) in
        let ss := ss .- y in
        let ls := ls .+ x in
        let* z := rd input (i - long_period) in
        let ls := ls .- z in
        Ok (ss, ls, out ++ [val ss ls])) (ss, ls, [val ss ls]) in
    let* _ := check Assert (zlen out =? size - start) in
    Ok (OKAY, [out])
  | _, _ => Ub BadArgs
  end.

(** dx.h:22-35, macro CALC_DIRECTION at bar [i]: (up, down) *)
Definition CALC_DIRECTION (high low : list T) (i : Z) : res (T * T) :=
  let* h := rd high i in
  let* h1 := rd high (i - 1) in
  let* l1 := rd low (i - 1) in
  let* l := rd low i in
  let up := h .- h1 in
  let down := l1 .- l in
  let (up, down) := if up .< #0 then (#0, down) else if up .> down then (up, #0) else (up, down) in
  let (up, down) := if down .< #0 then (up, #0) else if down .> up then (#0, down) else (up, down) in
  Ok (up, down).

(** dm.cc:35-41, dx.cc:36-43, adx.cc:37-43, adxr.cc:39-45 *)
Definition dm_init (high low : list T) (period : Z) : res (T * T) :=
  for_ 1 period (fun i '(dmup, dmdown) =>
      let* (dp, dm) := CALC_DIRECTION high low i in
      Ok (dmup .+ dp, dmdown .+ dm)) (#0, #0).

(** dm.cc:17-64; outputs: plus, minus *)
Definition ti_dm : batchfn := fun size inputs options =>
  match inputs, options with
  | [high; low], [o0] =>
    let* period := cast o0 in
    if period <? 1 then Ok (INVALID_OPTION, [[]; []]) else
    let* start := start_p1 options in
    if size <=? start then Ok (OKAY, [[]; []]) else
    let per := (#period .- #1) ./ #period in
    let* (dmup, dmdown) := dm_init high low period in
    let* (_, _, plus, minus) := for_ period size (fun i '(dmup, dmdown, plus, minus) =>
        let* (dp, dm) := CALC_DIRECTION high low i in
        let dmup := dmup .* per .+ dp in
        let dmdown := dmdown .* per .+ dm in
        Ok (dmup, dmdown, plus ++ [dmup], minus ++ [dmdown]))
      (dmup, dmdown, [dmup], [dmdown]) in
    let* _ := check Assert (zlen plus =? size - start) in
    let* _ := check Assert (zlen minus =? size - start) in
    Ok (OKAY, [plus; minus])
  | _, _ => Ub BadArgs
  end.

(** dx.cc:47-52 and 68-73, adx.cc:48-53 and 69-74, adxr.cc:50-55 and 73-78 *)
Definition dx_val (di_up di_down : T) : T :=
  let dm_diff := fabs (di_up .- di_down) in
  let dm_sum := di_up .+ di_down in
  let dx := dm_diff ./ dm_sum .* #100 in
  if dm_sum .== #0 then #0 else dx.

(** dx.cc:19-82 *)
Definition ti_dx : batchfn := fun size inputs options =>
  match inputs, options with
  | [high; low], [o0] =>
    let* period := cast o0 in
    if period <? 1 then Ok (INVALID_OPTION, [[]]) else
    let* start := start_p1 options in
    if size <=? start then Ok (OKAY, [[]]) else
    let per := (#period .- #1) ./ #period in
    let* (dmup, dmdown) := dm_init high low period in
    let* (_, _, out) := for_ period size (fun i '(dmup, dmdown, out) =>
        let* (dp, dm) := CALC_DIRECTION high low i in
        let dmup := dmup .* per .+ dp in
        let dmdown := dmdown .* per .+ dm in
        Ok (dmup, dmdown, out ++ [dx_val dmup dmdown])) (dmup, dmdown, [dx_val dmup dmdown]) in
    let* _ := check Assert (zlen out =? size - start) in
    Ok (OKAY, [out])
  | _, _ => Ub BadArgs
  end.

(** di.cc:19-79; outputs: plus, minus *)
Definition ti_di : batchfn := fun size inputs options =>
  match inputs, options with
  | [high; low; close], [o0] =>
    let* period := cast o0 in
    if period <? 1 then Ok (INVALID_OPTION, [[]; []]) else
    let* start := start_p1 options in
    if size <=? start then Ok (OKAY, [[]; []]) else
    let per := (#period .- #1) ./ #period in
    let* (atr, dmup, dmdown) := for_ 1 (Z.min period size) (fun i '(atr, dmup, dmdown) =>
        let* tr := CALC_TRUERANGE high low close i in
        let* (dp, dm) := CALC_DIRECTION high low i in
        Ok (atr .+ tr, dmup .+ dp, dmdown .+ dm)) (#0, #0, #0) in
    let i := Z.max 1 (Z.min period size) in
    let val dm atr := if truth dm then #100 .* dm ./ atr else #0 in
    let plus := if i =? period then [val dmup atr] else [] in
    let minus := if i =? period then [val dmdown atr] else [] in
    let* (_, _, _, plus, minus) := for_ period size (fun i '(atr, dmup, dmdown, plus, minus) =>
        let* tr := CALC_TRUERANGE high low close i in
        let atr := atr .* per .+ tr in
        let* (dp, dm) := CALC_DIRECTION high low i in
        let dmup := dmup .* per .+ dp in
        let dmdown := dmdown .* per .+ dm in
        Ok (atr, dmup, dmdown, plus ++ [val dmup atr], minus ++ [val dmdown atr]))
      (atr, dmup, dmdown, plus, minus) in
    let* _ := check Assert (zlen plus =? size - start) in
    let* _ := check Assert (zlen minus =? size - start) in
    Ok (OKAY, [plus; minus])
  | _, _ => Ub BadArgs
  end.

(** adx.cc:18-90 *)
Definition ti_adx : batchfn := fun size inputs options =>
  match inputs, options with
  | [high; low], [o0] =>
    let* period := cast o0 in
    if period <? 2 then Ok (INVALID_OPTION, [[]]) else
    let* start := start_p12 options in
    if size <=? start then Ok (OKAY, [[]]) else
    let per := (#period .- #1) ./ #period in
    let invper := #1 ./ #period in
    let* (dmup, dmdown) := dm_init high low period in
    let adx := #0 .+ dx_val dmup dmdown in
    let* (_, _, _, out) := for_ period size (fun i '(dmup, dmdown, adx, out) =>
        let* (dp, dm) := CALC_DIRECTION high low i in
        let dmup := dmup .* per .+ dp in
        let dmdown := dmdown .* per .+ dm in
        let dx := dx_val dmup dmdown in
        if i - period <? period - 2 then Ok (dmup, dmdown, adx .+ dx, out)
        else if i - period =? period - 2 then
          let adx := adx .+ dx in
          Ok (dmup, dmdown, adx, out ++ [adx .* invper])
        else
          let adx := adx .* per .+ dx in
          Ok (dmup, dmdown, adx, out ++ [adx .* invper])) (dmup, dmdown, adx, []) in
    let* _ := check Assert (zlen out =? size - start) in
    Ok (OKAY, [out])
  | _, _ => Ub BadArgs
  end.

(** adxr.cc:20-102 *)
Definition ti_adxr : batchfn := fun size inputs options =>
  match inputs, options with
  | [high; low], [o0] =>
    let* period := cast o0 in
    if period <? 2 then Ok (INVALID_OPTION, [[]]) else
    let* start := start_p13 options in
    if size <=? start then Ok (OKAY, [[]]) else
    let per := (#period .- #1) ./ #period in
    let invper := #1 ./ #period in
    let* (dmup, dmdown) := dm_init high low period in
    let adx := #0 .+ dx_val dmup dmdown in
    let* adxr := buffer_new (period - 1) in
    let* first_adxr := start_p13 options in
    let* (_, _, _, _, out) := for_ period size (fun i '(dmup, dmdown, adx, adxr, out) =>
        let* (dp, dm) := CALC_DIRECTION high low i in
        let dmup := dmup .* per .+ dp in
        let dmdown := dmdown .* per .+ dm in
        let dx := dx_val dmup dmdown in
        if i - period <? period - 2 then Ok (dmup, dmdown, adx .+ dx, adxr, out)
        else if i - period =? period - 2 then
          let adx := adx .+ dx in
          let* adxr := buffer_qpush adxr (adx .* invper) in
          Ok (dmup, dmdown, adx, adxr, out)
        else
          let adx := adx .* per .+ dx in
          let* out := if i >=? first_adxr then
                        let* b := buffer_get adxr 1 in
                        Ok (out ++ [lit 5 1 .* (adx .* invper .+ b)])
                      else Ok out in
          let* adxr := buffer_qpush adxr (adx .* invper) in
          Ok (dmup, dmdown, adx, adxr, out)) (dmup, dmdown, adx, adxr, []) in
    let* _ := check Assert (zlen out =? size - start) in
    Ok (OKAY, [out])
  | _, _ => Ub BadArgs
  end.

(** msw.cc:17-60; outputs: sine, lead *)
Definition ti_msw : batchfn := fun size inputs options =>
  match inputs, options with
  | [input], [o0] =>
    let* period := cast o0 in
    if period <? 1 then Ok (INVALID_OPTION, [[]; []]) else
    let* start := start_p options in
    if size <=? start then Ok (OKAY, [[]; []]) else
    let pi := lit 31415926 7 in
    let tpi := #2 .* pi in
    let* (sine, lead) := for_ period size (fun i '(sine, lead) =>
        let* (rp, ip) := for_ 0 period (fun j '(rp, ip) =>
            let* weight := rd input (i - j) in
            Ok (rp .+ libm Lcos (tpi .* #j ./ #period) .* weight,
                ip .+ libm Lsin (tpi .* #j ./ #period) .* weight)) (#0, #0) in
        let phase := if fabs rp .> lit 1 3 then libm Latan (ip ./ rp)
                     else tpi ./ #2 .* (if ip .< #0 then .- #1 else #1) in
        let phase := if rp .< #0 then phase .+ pi else phase in
        let phase := phase .+ pi ./ #2 in
        let phase := if phase .< #0 then phase .+ tpi else phase in
        let phase := if phase .> tpi then phase .- tpi else phase in
        Ok (sine ++ [libm Lsin phase], lead ++ [libm Lsin (phase .+ pi ./ #4)])) ([], []) in
    let* _ := check Assert (zlen sine =? size - start) in
    let* _ := check Assert (zlen lead =? size - start) in
    Ok (OKAY, [sine; lead])
  | _, _ => Ub BadArgs
  end.

(** natr.cc:19-56 *)
Definition ti_natr : batchfn := fun size inputs options =>
  match inputs, options with
  | [high; low; close], [o0] =>
    let* period := cast o0 in
    if period <? 1 then Ok (INVALID_OPTION, [[]]) else
    let* start := start_p1 options in
    if size <=? start then Ok (OKAY, [[]]) else
    let per := #1 ./ #period in
    let* h := rd high 0 in
    let* l := rd low 0 in
    let sum := #0 .+ (h .- l) in
    let* sum := for_ 1 period (fun i sum =>
        let* tr := CALC_TRUERANGE high low close i in
        Ok (sum .+ tr)) sum in
    let val := sum ./ #period in
    let* v := if truth val then
                let* c := rd close (period - 1) in Ok (#100 .* val ./ c)
              else Ok #0 in
    let* (_, out) := for_ period size (fun i '(val, out) =>
        let* tr := CALC_TRUERANGE high low close i in
        let val := (tr .- val) .* per .+ val in
        let* v := if truth val then
                    let* c := rd close i in Ok (#100 .* val ./ c)
                  else Ok #0 in
        Ok (val, out ++ [v])) (val, [v]) in
    let* _ := check Assert (zlen out =? size - start) in
    Ok (OKAY, [out])
  | _, _ => Ub BadArgs
  end.

(** volatility.cc:12, macro CHANGE *)
Definition CHANGE (input : list T) (i : Z) : res T :=
  let* b := rd input (i - 1) in
  if truth b then let* a := rd input i in Ok (a ./ b .- #1) else Ok #0.

(** volatility.cc:21-58 *)
Definition ti_volatility : batchfn := fun size inputs options =>
  match inputs, options with
  | [input], [o0] =>
    let* period := cast o0 in
    let scale := #1 ./ #period in
    let annual := fsqrt #252 in
    if period <? 1 then Ok (INVALID_OPTION, [[]]) else
    let* start := start_p options in
    if size <=? start then Ok (OKAY, [[]]) else
    let* (sum, sum2) := for_ 1 (period + 1) (fun i '(sum, sum2) =>
        let* c := CHANGE input i in
        Ok (sum .+ c, sum2 .+ c .* c)) (#0, #0) in
    let val sum sum2 := fsqrt (sum2 .* scale .- (sum .* scale) .* (sum .* scale)) .* annual in
    let* (_, _, out) := for_ (period + 1) size (fun i '(sum, sum2, out) =>
        let* c := CHANGE input i in
        let sum := sum .+ c in
        let sum2 := sum2 .+ c .* c in
        let* cp := CHANGE input (i - period) in
        let sum := sum .- cp in
        let sum2 := sum2 .- cp .* cp in
        Ok (sum, sum2, out ++ [val sum sum2])) (sum, sum2, [val sum sum2]) in
    let* _ := check Assert (zlen out =? size - start) in
    Ok (OKAY, [out])
  | _, _ => Ub BadArgs
  end.

(** cvi.cc:18-52 *)
Definition ti_cvi : batchfn := fun size inputs options =>
  match inputs, options with
  | [high; low], [o0] =>
    let* period := cast o0 in
    if period <? 1 then Ok (INVALID_OPTION, [[]]) else
    let* start := start_2p1 options in
    if size <=? start then Ok (OKAY, [[]]) else
    let per := #2 ./ (#period .+ #1) in
    let* lag := buffer_new period in
    let* h := rd high 0 in
    let* l := rd low 0 in
    let val := h .- l in
    let* p2 := ck (period * 2) in
    let* (val, lag) := for_ 1 (p2 - 1) (fun i '(val, lag) =>
        let* h := rd high i in
        let* l := rd low i in
        let val := ((h .- l) .- val) .* per .+ val in
        let* lag := buffer_qpush lag val in
        Ok (val, lag)) (val, lag) in
    let* (_, _, out) := for_ (p2 - 1) size (fun i '(val, lag, out) =>
        let* h := rd high i in
        let* l := rd low i in
        let val := ((h .- l) .- val) .* per .+ val in
        let* old := rdo (bvals lag) (bindex lag) in
        let out := out ++ [if truth (val .- old) then #100 .* (val .- old) ./ old else #0] in
        let* lag := buffer_qpush lag val in
        Ok (val, lag, out)) (val, lag, []) in
    let* _ := check Assert (zlen out =? size - start) in
    Ok (OKAY, [out])
  | _, _ => Ub BadArgs
  end.
End M.

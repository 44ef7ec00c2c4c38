(** Models: element-wise functions, price transforms, rolling sums, basic averages,
    look-back and cumulative indicators. *)
From Verif Require Export Spec.
Section M.
Context {A : Arith}.

(** Value of a local that may not have been assigned yet. *)
Definition get {B} (o : option B) : res B :=
  match o with Some v => Ok v | None => Ub Uninit end.

(** Conversion of a C++ [bool] / comparison result to [TI_REAL]. *)
Definition b2f (b : bool) : T := if b then #1 else #0.

(** Truth value of a [TI_REAL] used as a condition ([x ? ..]). *)
Definition truth (x : T) : bool := x .!= #0.

(** [return 0;] / [return 1;] start functions (e.g. simple1.h:24-27, crossover.cc:11-14);
    they ignore [options]. *)
Definition start0 : startfn := fun _ => Ok 0.
Definition start1 : startfn := fun _ => Ok 1.

(** M_PI, simple1.h:18-20 *)
Definition M_PI : T := lit 314159265358979323846 20.

(** simple1.h:30-41, macro SIMPLE1 *)
Definition SIMPLE1 (op : T -> res T) : batchfn := fun size inputs options =>
  match inputs, options with
  | [in1], [] =>
    let* out := for_ 0 size (fun i out =>
        let* x := rd in1 i in
        let* y := op x in
        Ok (out ++ [y])) [] in
    Ok (OKAY, [out])
  | _, _ => Ub BadArgs
  end.

(** simple2.h:24-38, macro SIMPLE2 *)
Definition SIMPLE2 (op : T -> T -> T) : batchfn := fun size inputs options =>
  match inputs, options with
  | [in1; in2], [] =>
    let* out := for_ 0 size (fun i out =>
        let* x := rd in1 i in
        let* y := rd in2 i in
        Ok (out ++ [op x y])) [] in
    Ok (OKAY, [out])
  | _, _ => Ub BadArgs
  end.

(** abs.cc:14 *)
Definition ti_abs : batchfn := SIMPLE1 (fun x => Ok (fabs x)).
(** acos.cc:14 *)
Definition ti_acos : batchfn := SIMPLE1 (fun x => Ok (libm Lacos x)).
(** asin.cc:14 *)
Definition ti_asin : batchfn := SIMPLE1 (fun x => Ok (libm Lasin x)).
(** atan.cc:14 *)
Definition ti_atan : batchfn := SIMPLE1 (fun x => Ok (libm Latan x)).
(** ceil.cc:14 *)
Definition ti_ceil : batchfn := SIMPLE1 (fun x => Ok (libm Lceil x)).
(** cos.cc:14 *)
Definition ti_cos : batchfn := SIMPLE1 (fun x => Ok (libm Lcos x)).
(** cosh.cc:14 *)
Definition ti_cosh : batchfn := SIMPLE1 (fun x => Ok (libm Lcosh x)).
(** exp.cc:14 *)
Definition ti_exp : batchfn := SIMPLE1 (fun x => Ok (libm Lexp x)).
(** floor.cc:14 *)
Definition ti_floor : batchfn := SIMPLE1 (fun x => Ok (libm Lfloor x)).
(** ln.cc:14 *)
Definition ti_ln : batchfn := SIMPLE1 (fun x => Ok (libm Llog x)).
(** log10.cc:14 *)
Definition ti_log10 : batchfn := SIMPLE1 (fun x => Ok (libm Llog10 x)).
(** round.cc:14 *)
Definition ti_round : batchfn := SIMPLE1 (fun x => Ok (libm Lfloor (x .+ lit 5 1))).
(** sin.cc:14 *)
Definition ti_sin : batchfn := SIMPLE1 (fun x => Ok (libm Lsin x)).
(** sinh.cc:14 *)
Definition ti_sinh : batchfn := SIMPLE1 (fun x => Ok (libm Lsinh x)).
(** sqrt.cc:14 *)
Definition ti_sqrt : batchfn := SIMPLE1 (fun x => Ok (fsqrt x)).
(** tan.cc:14 *)
Definition ti_tan : batchfn := SIMPLE1 (fun x => Ok (libm Ltan x)).
(** tanh.cc:14 *)
Definition ti_tanh : batchfn := SIMPLE1 (fun x => Ok (libm Ltanh x)).
(** todeg.cc:14 *)
Definition ti_todeg : batchfn := SIMPLE1 (fun x => Ok (x .* (#180 ./ M_PI))).
(** torad.cc:14 *)
Definition ti_torad : batchfn := SIMPLE1 (fun x => Ok (x .* (M_PI ./ #180))).
(** trunc.cc:12; the value goes through [int] *)
Definition ti_trunc : batchfn := SIMPLE1 (fun x => let* n := cast x in Ok #n).
(** add.cc:12 *)
Definition ti_add : batchfn := SIMPLE2 (fun x y => x .+ y).
(** sub.cc:12 *)
Definition ti_sub : batchfn := SIMPLE2 (fun x y => x .- y).
(** mul.cc:12 *)
Definition ti_mul : batchfn := SIMPLE2 (fun x y => x .* y).
(** div.cc:12 *)
Definition ti_div : batchfn := SIMPLE2 (fun x y => x ./ y).

(** avgprice.cc:17-33 *)
Definition ti_avgprice : batchfn := fun size inputs options =>
  match inputs, options with
  | [open; high; low; close], [] =>
    let* out := for_ 0 size (fun i out =>
        let* o := rd open i in
        let* h := rd high i in
        let* l := rd low i in
        let* c := rd close i in
        Ok (out ++ [(o .+ h .+ l .+ c) .* lit 25 2])) [] in
    Ok (OKAY, [out])
  | _, _ => Ub BadArgs
  end.

(** medprice.cc:17-32 *)
Definition ti_medprice : batchfn := fun size inputs options =>
  match inputs, options with
  | [high; low], [] =>
    let* out := for_ 0 size (fun i out =>
        let* h := rd high i in
        let* l := rd low i in
        Ok (out ++ [(h .+ l) .* lit 5 1])) [] in
    Ok (OKAY, [out])
  | _, _ => Ub BadArgs
  end.

(** typprice.cc:17-32 *)
Definition ti_typprice : batchfn := fun size inputs options =>
  match inputs, options with
  | [high; low; close], [] =>
    let* out := for_ 0 size (fun i out =>
        let* h := rd high i in
        let* l := rd low i in
        let* c := rd close i in
        Ok (out ++ [(h .+ l .+ c) .* (#1 ./ #3)])) [] in
    Ok (OKAY, [out])
  | _, _ => Ub BadArgs
  end.

(** wcprice.cc:17-32 *)
Definition ti_wcprice : batchfn := fun size inputs options =>
  match inputs, options with
  | [high; low; close], [] =>
    let* out := for_ 0 size (fun i out =>
        let* h := rd high i in
        let* l := rd low i in
        let* c := rd close i in
        Ok (out ++ [(h .+ l .+ c .+ c) .* lit 25 2])) [] in
    Ok (OKAY, [out])
  | _, _ => Ub BadArgs
  end.

(** bop.cc:17-37 *)
Definition ti_bop : batchfn := fun size inputs options =>
  match inputs, options with
  | [open; high; low; close], [] =>
    let* out := for_ 0 size (fun i out =>
        let* h := rd high i in
        let* l := rd low i in
        let hl := h .- l in
        if hl .<= #0 then Ok (out ++ [#0]) else
        let* c := rd close i in
        let* o := rd open i in
        Ok (out ++ [(c .- o) ./ hl])) [] in
    Ok (OKAY, [out])
  | _, _ => Ub BadArgs
  end.

(** marketfi.cc:17-35 *)
Definition ti_marketfi : batchfn := fun size inputs options =>
  match inputs, options with
  | [high; low; volume], [] =>
    let* start := start0 options in
    if size <=? start then Ok (OKAY, [[]]) else
    let* out := for_ 0 size (fun i out =>
        let* v := rd volume i in
        let* h := rd high i in
        let* l := rd low i in
        Ok (out ++ [if truth v then (h .- l) ./ v else #0])) [] in
    let* _ := check Assert (zlen out =? size - start) in
    Ok (OKAY, [out])
  | _, _ => Ub BadArgs
  end.

(** [return (int)options[0]-1;] (sma.cc:14-16, sum.cc:11-13, wma.cc:11-13, wilders.cc:11-13,
    var.cc:13-15, stddev.cc:13-15, stderr.cc:13-15, md.cc:12-14, linreg.cc:12-14,
    linregintercept.cc:12-14, linregslope.cc:19-22, tsf.cc:12-14, qstick.cc:11-13,
    dpo.cc:11-13, vwma.cc:11-13) *)
Definition start_p1 : startfn := fun options =>
  match options with
  | [o0] => let* p := cast o0 in ck (p - 1)
  | _ => Ub BadArgs
  end.

(** [return (int)options[0];] (lag.cc:11-13, mom.cc:11-13, roc.cc:11-13, rocr.cc:11-13,
    fosc.cc:23-25, cmo.cc:14-16, rsi.cc:11-13) *)
Definition start_p : startfn := fun options =>
  match options with
  | [o0] => cast o0
  | _ => Ub BadArgs
  end.

(** sma.cc:19-45 *)
Definition ti_sma : batchfn := fun size inputs options =>
  match inputs, options with
  | [input], [o0] =>
    let* period := cast o0 in
    let scale := #1 ./ #period in
    if period <? 1 then Ok (INVALID_OPTION, [[]]) else
    let* start := start_p1 options in
    if size <=? start then Ok (OKAY, [[]]) else
    let* sum := for_ 0 period (fun i sum =>
        let* x := rd input i in Ok (sum .+ x)) #0 in
    let out := [sum .* scale] in
    let* (sum, out) := for_ period size (fun i '(sum, out) =>
        let* a := rd input i in
        let sum := sum .+ a in
        let* b := rd input (i - period) in
        let sum := sum .- b in
        Ok (sum, out ++ [sum .* scale])) (sum, out) in
    let* _ := check Assert (zlen out =? size - start) in
    Ok (OKAY, [out])
  | _, _ => Ub BadArgs
  end.

(** sum.cc:16-41 *)
Definition ti_sum : batchfn := fun size inputs options =>
  match inputs, options with
  | [input], [o0] =>
    let* period := cast o0 in
    if period <? 1 then Ok (INVALID_OPTION, [[]]) else
    let* start := start_p1 options in
    if size <=? start then Ok (OKAY, [[]]) else
    let* sum := for_ 0 period (fun i sum =>
        let* x := rd input i in Ok (sum .+ x)) #0 in
    let out := [sum] in
    let* (sum, out) := for_ period size (fun i '(sum, out) =>
        let* a := rd input i in
        let sum := sum .+ a in
        let* b := rd input (i - period) in
        let sum := sum .- b in
        Ok (sum, out ++ [sum])) (sum, out) in
    let* _ := check Assert (zlen out =? size - start) in
    Ok (OKAY, [out])
  | _, _ => Ub BadArgs
  end.

(** ema.cc:17-39 *)
Definition ti_ema : batchfn := fun size inputs options =>
  match inputs, options with
  | [input], [o0] =>
    let* period := cast o0 in
    if period <? 1 then Ok (INVALID_OPTION, [[]]) else
    let* start := start0 options in
    if size <=? start then Ok (OKAY, [[]]) else
    let per := #2 ./ (#period .+ #1) in
    let* val := rd input 0 in
    let out := [val] in
    let* (val, out) := for_ 1 size (fun i '(val, out) =>
        let* x := rd input i in
        let val := (x .- val) .* per .+ val in
        Ok (val, out ++ [val])) (val, out) in
    let* _ := check Assert (zlen out =? size - start) in
    Ok (OKAY, [out])
  | _, _ => Ub BadArgs
  end.

(** wma.cc:16-52; [period * (period+1) / 2] is an [int] expression *)
Definition ti_wma : batchfn := fun size inputs options =>
  match inputs, options with
  | [input], [o0] =>
    let* period := cast o0 in
    if period <? 1 then Ok (INVALID_OPTION, [[]]) else
    let* start := start_p1 options in
    if size <=? start then Ok (OKAY, [[]]) else
    let* p1 := ck (period + 1) in
    let* pp := ck (period * p1) in
    let weights := #(Z.quot pp 2) in
    let* (sum, weight_sum) := for_ 0 (period - 1) (fun i '(sum, weight_sum) =>
        let* x := rd input i in
        Ok (sum .+ x, weight_sum .+ x .* #(i + 1))) (#0, #0) in
    let* (sum, weight_sum, out) := for_ (period - 1) size (fun i '(sum, weight_sum, out) =>
        let* x := rd input i in
        let weight_sum := weight_sum .+ x .* #period in
        let sum := sum .+ x in
        let out := out ++ [weight_sum ./ weights] in
        let weight_sum := weight_sum .- sum in
        let* y := rd input (i - period + 1) in
        let sum := sum .- y in
        Ok (sum, weight_sum, out)) (sum, weight_sum, []) in
    let* _ := check Assert (zlen out =? size - start) in
    Ok (OKAY, [out])
  | _, _ => Ub BadArgs
  end.

(** wilders.cc:16-45 *)
Definition ti_wilders : batchfn := fun size inputs options =>
  match inputs, options with
  | [input], [o0] =>
    let* period := cast o0 in
    if period <? 1 then Ok (INVALID_OPTION, [[]]) else
    let* start := start_p1 options in
    if size <=? start then Ok (OKAY, [[]]) else
    let per := #1 ./ #period in
    let* sum := for_ 0 period (fun i sum =>
        let* x := rd input i in Ok (sum .+ x)) #0 in
    let val := sum ./ #period in
    let out := [val] in
    let* (val, out) := for_ period size (fun i '(val, out) =>
        let* x := rd input i in
        let val := (x .- val) .* per .+ val in
        Ok (val, out ++ [val])) (val, out) in
    let* _ := check Assert (zlen out =? size - start) in
    Ok (OKAY, [out])
  | _, _ => Ub BadArgs
  end.

(** var.cc:18-51 *)
Definition ti_var : batchfn := fun size inputs options =>
  match inputs, options with
  | [input], [o0] =>
    let* period := cast o0 in
    let scale := #1 ./ #period in
    if period <? 1 then Ok (INVALID_OPTION, [[]]) else
    let* start := start_p1 options in
    if size <=? start then Ok (OKAY, [[]]) else
    let* (sum, sum2) := for_ 0 period (fun i '(sum, sum2) =>
        let* x := rd input i in
        Ok (sum .+ x, sum2 .+ x .* x)) (#0, #0) in
    let out := [sum2 .* scale .- (sum .* scale) .* (sum .* scale)] in
    let* (sum, sum2, out) := for_ period size (fun i '(sum, sum2, out) =>
        let* x := rd input i in
        let sum := sum .+ x in
        let sum2 := sum2 .+ x .* x in
        let* y := rd input (i - period) in
        let sum := sum .- y in
        let sum2 := sum2 .- y .* y in
        Ok (sum, sum2, out ++ [sum2 .* scale .- (sum .* scale) .* (sum .* scale)]))
        (sum, sum2, out) in
    let* _ := check Assert (zlen out =? size - start) in
    Ok (OKAY, [out])
  | _, _ => Ub BadArgs
  end.

(** stddev.cc:18-56 *)
Definition ti_stddev : batchfn := fun size inputs options =>
  match inputs, options with
  | [input], [o0] =>
    let* period := cast o0 in
    let scale := #1 ./ #period in
    if period <? 1 then Ok (INVALID_OPTION, [[]]) else
    let* start := start_p1 options in
    if size <=? start then Ok (OKAY, [[]]) else
    let* (sum, sum2) := for_ 0 period (fun i '(sum, sum2) =>
        let* x := rd input i in
        Ok (sum .+ x, sum2 .+ x .* x)) (#0, #0) in
    let s2s2 := sum2 .* scale .- (sum .* scale) .* (sum .* scale) in
    let s2s2 := if s2s2 .> #0 then fsqrt s2s2 else s2s2 in
    let out := [s2s2] in
    let* (sum, sum2, out) := for_ period size (fun i '(sum, sum2, out) =>
        let* x := rd input i in
        let sum := sum .+ x in
        let sum2 := sum2 .+ x .* x in
        let* y := rd input (i - period) in
        let sum := sum .- y in
        let sum2 := sum2 .- y .* y in
        let s2s2 := sum2 .* scale .- (sum .* scale) .* (sum .* scale) in
        let s2s2 := if s2s2 .> #0 then fsqrt s2s2 else s2s2 in
        Ok (sum, sum2, out ++ [s2s2])) (sum, sum2, out) in
    let* _ := check Assert (zlen out =? size - start) in
    Ok (OKAY, [out])
  | _, _ => Ub BadArgs
  end.

(** stderr.cc:18-58 *)
Definition ti_stderr : batchfn := fun size inputs options =>
  match inputs, options with
  | [input], [o0] =>
    let* period := cast o0 in
    let scale := #1 ./ #period in
    if period <? 1 then Ok (INVALID_OPTION, [[]]) else
    let* start := start_p1 options in
    if size <=? start then Ok (OKAY, [[]]) else
    let mul := #1 ./ fsqrt #period in
    let* (sum, sum2) := for_ 0 period (fun i '(sum, sum2) =>
        let* x := rd input i in
        Ok (sum .+ x, sum2 .+ x .* x)) (#0, #0) in
    let s2s2 := sum2 .* scale .- (sum .* scale) .* (sum .* scale) in
    let s2s2 := if s2s2 .> #0 then fsqrt s2s2 else s2s2 in
    let out := [mul .* s2s2] in
    let* (sum, sum2, out) := for_ period size (fun i '(sum, sum2, out) =>
        let* x := rd input i in
        let sum := sum .+ x in
        let sum2 := sum2 .+ x .* x in
        let* y := rd input (i - period) in
        let sum := sum .- y in
        let sum2 := sum2 .- y .* y in
        let s2s2 := sum2 .* scale .- (sum .* scale) .* (sum .* scale) in
        let s2s2 := if s2s2 .> #0 then fsqrt s2s2 else s2s2 in
        Ok (sum, sum2, out ++ [mul .* s2s2])) (sum, sum2, out) in
    let* _ := check Assert (zlen out =? size - start) in
    Ok (OKAY, [out])
  | _, _ => Ub BadArgs
  end.

(** md.cc:17-51 *)
Definition ti_md : batchfn := fun size inputs options =>
  match inputs, options with
  | [input], [o0] =>
    let* period := cast o0 in
    let scale := #1 ./ #period in
    if period <? 1 then Ok (INVALID_OPTION, [[]]) else
    let* start := start_p1 options in
    if size <=? start then Ok (OKAY, [[]]) else
    let* (sum, out) := for_ 0 size (fun i '(sum, out) =>
        let* today := rd input i in
        let sum := sum .+ today in
        let* sum := if i >=? period
                    then let* y := rd input (i - period) in Ok (sum .- y)
                    else Ok sum in
        let avg := sum .* scale in
        if i >=? period - 1 then
          let* acc := for_ 0 period (fun j acc =>
              let* x := rd input (i - j) in Ok (acc .+ fabs (avg .- x))) #0 in
          Ok (sum, out ++ [acc .* scale])
        else Ok (sum, out)) (#0, []) in
    let* _ := check Assert (zlen out =? size - start) in
    Ok (OKAY, [out])
  | _, _ => Ub BadArgs
  end.

(** lag.cc:16-31; note that period 0 is accepted *)
Definition ti_lag : batchfn := fun size inputs options =>
  match inputs, options with
  | [input], [o0] =>
    let* period := cast o0 in
    if period <? 0 then Ok (INVALID_OPTION, [[]]) else
    let* start := start_p options in
    if size <=? start then Ok (OKAY, [[]]) else
    let* out := for_ period size (fun i out =>
        let* x := rd input (i - period) in
        Ok (out ++ [x])) [] in
    let* _ := check Assert (zlen out =? size - start) in
    Ok (OKAY, [out])
  | _, _ => Ub BadArgs
  end.

(** mom.cc:16-32 *)
Definition ti_mom : batchfn := fun size inputs options =>
  match inputs, options with
  | [input], [o0] =>
    let* period := cast o0 in
    if period <? 1 then Ok (INVALID_OPTION, [[]]) else
    let* start := start_p options in
    if size <=? start then Ok (OKAY, [[]]) else
    let* out := for_ period size (fun i out =>
        let* x := rd input i in
        let* y := rd input (i - period) in
        Ok (out ++ [x .- y])) [] in
    let* _ := check Assert (zlen out =? size - start) in
    Ok (OKAY, [out])
  | _, _ => Ub BadArgs
  end.

(** roc.cc:16-31 *)
Definition ti_roc : batchfn := fun size inputs options =>
  match inputs, options with
  | [input], [o0] =>
    let* period := cast o0 in
    if period <? 1 then Ok (INVALID_OPTION, [[]]) else
    let* start := start_p options in
    if size <=? start then Ok (OKAY, [[]]) else
    let* out := for_ period size (fun i out =>
        let* y := rd input (i - period) in
        let* x := rd input i in
        Ok (out ++ [if truth y then (x .- y) ./ y else #0])) [] in
    let* _ := check Assert (zlen out =? size - start) in
    Ok (OKAY, [out])
  | _, _ => Ub BadArgs
  end.

(** rocr.cc:16-31 *)
Definition ti_rocr : batchfn := fun size inputs options =>
  match inputs, options with
  | [input], [o0] =>
    let* period := cast o0 in
    if period <? 1 then Ok (INVALID_OPTION, [[]]) else
    let* start := start_p options in
    if size <=? start then Ok (OKAY, [[]]) else
    let* out := for_ period size (fun i out =>
        let* y := rd input (i - period) in
        let* x := rd input i in
        Ok (out ++ [if truth y then x ./ y else #0])) [] in
    let* _ := check Assert (zlen out =? size - start) in
    Ok (OKAY, [out])
  | _, _ => Ub BadArgs
  end.

(** ad.cc:17-37 *)
Definition ti_ad : batchfn := fun size inputs options =>
  match inputs, options with
  | [high; low; close; volume], [] =>
    let* (sum, out) := for_ 0 size (fun i '(sum, out) =>
        let* h := rd high i in
        let* l := rd low i in
        let hl := h .- l in
        let* sum := if hl .!= #0 then
                      let* c := rd close i in
                      let* v := rd volume i in
                      Ok (sum .+ (c .- l .- h .+ c) ./ hl .* v)
                    else Ok sum in
        Ok (sum, out ++ [sum])) (#0, []) in
    Ok (OKAY, [out])
  | _, _ => Ub BadArgs
  end.

(** crossany.cc:17-32; [&&] and [||] have no side effects here *)
Definition ti_crossany : batchfn := fun size inputs options =>
  match inputs, options with
  | [a; b], [] =>
    let* out := for_ 1 size (fun i out =>
        let* ai := rd a i in
        let* bi := rd b i in
        let* ap := rd a (i - 1) in
        let* bp := rd b (i - 1) in
        Ok (out ++ [b2f ((ai .> bi) && (ap .<= bp) || (ai .< bi) && (ap .>= bp))])) [] in
    Ok (OKAY, [out])
  | _, _ => Ub BadArgs
  end.

(** crossover.cc:17-31 *)
Definition ti_crossover : batchfn := fun size inputs options =>
  match inputs, options with
  | [a; b], [] =>
    let* out := for_ 1 size (fun i out =>
        let* ai := rd a i in
        let* bi := rd b i in
        let* ap := rd a (i - 1) in
        let* bp := rd b (i - 1) in
        Ok (out ++ [b2f ((ai .> bi) && (ap .<= bp))])) [] in
    Ok (OKAY, [out])
  | _, _ => Ub BadArgs
  end.

(** decay.cc:17-33; [output[-1]] is the value written last *)
Definition ti_decay : batchfn := fun size inputs options =>
  match inputs, options with
  | [input], [o0] =>
    let* period := cast o0 in
    let scale := #1 ./ #period in
    let* out := for_ 0 (Z.min 1 size) (fun i out =>
        let* x := rd input 0 in Ok (out ++ [x])) [] in
    let* out := for_ (Z.max 0 (Z.min 1 size)) size (fun i out =>
        let* prev := rd out (zlen out - 1) in
        let d := prev .- scale in
        let* x := rd input i in
        Ok (out ++ [if x .> d then x else d])) out in
    Ok (OKAY, [out])
  | _, _ => Ub BadArgs
  end.

(** edecay.cc:17-34 *)
Definition ti_edecay : batchfn := fun size inputs options =>
  match inputs, options with
  | [input], [o0] =>
    let* period := cast o0 in
    let scale := #1 .- #1 ./ #period in
    let* out := for_ 0 (Z.min 1 size) (fun i out =>
        let* x := rd input 0 in Ok (out ++ [x])) [] in
    let* out := for_ (Z.max 0 (Z.min 1 size)) size (fun i out =>
        let* prev := rd out (zlen out - 1) in
        let d := prev .* scale in
        let* x := rd input i in
        Ok (out ++ [if x .> d then x else d])) out in
    Ok (OKAY, [out])
  | _, _ => Ub BadArgs
  end.

(** emv.cc:17-41 *)
Definition ti_emv : batchfn := fun size inputs options =>
  match inputs, options with
  | [high; low; volume], [] =>
    let* start := start1 options in
    if size <=? start then Ok (OKAY, [[]]) else
    let* h0 := rd high 0 in
    let* l0 := rd low 0 in
    let last := (h0 .+ l0) .* lit 5 1 in
    let* (last, out) := for_ 1 size (fun i '(last, out) =>
        let* h := rd high i in
        let* l := rd low i in
        let* v := rd volume i in
        let hl := (h .+ l) .* lit 5 1 in
        let br := v ./ #10000 ./ (h .- l) in
        Ok (hl, out ++ [if truth (hl .- last) then (hl .- last) ./ br else #0])) (last, []) in
    let* _ := check Assert (zlen out =? size - start) in
    Ok (OKAY, [out])
  | _, _ => Ub BadArgs
  end.

(** nvi.cc:17-41 *)
Definition ti_nvi : batchfn := fun size inputs options =>
  match inputs, options with
  | [close; volume], [] =>
    let* start := start0 options in
    if size <=? start then Ok (OKAY, [[]]) else
    let nvi := #1000 in
    let out := [nvi] in
    let* (nvi, out) := for_ 1 size (fun i '(nvi, out) =>
        let* v := rd volume i in
        let* v1 := rd volume (i - 1) in
        let* nvi := if v .< v1 then
                      let* c := rd close i in
                      let* c1 := rd close (i - 1) in
                      Ok (nvi .+ ((c .- c1) ./ c1) .* nvi)
                    else Ok nvi in
        Ok (nvi, out ++ [nvi])) (nvi, out) in
    let* _ := check Assert (zlen out =? size - start) in
    Ok (OKAY, [out])
  | _, _ => Ub BadArgs
  end.

(** pvi.cc:18-42 *)
Definition ti_pvi : batchfn := fun size inputs options =>
  match inputs, options with
  | [close; volume], [] =>
    let* start := start0 options in
    if size <=? start then Ok (OKAY, [[]]) else
    let pvi := #1000 in
    let out := [pvi] in
    let* (pvi, out) := for_ 1 size (fun i '(pvi, out) =>
        let* v := rd volume i in
        let* v1 := rd volume (i - 1) in
        let* pvi := if (v .> v1) && (v1 .> #0) then
                      let* c := rd close i in
                      let* c1 := rd close (i - 1) in
                      Ok (pvi .+ ((c .- c1) ./ c1) .* pvi)
                    else Ok pvi in
        Ok (pvi, out ++ [pvi])) (pvi, out) in
    let* _ := check Assert (zlen out =? size - start) in
    Ok (OKAY, [out])
  | _, _ => Ub BadArgs
  end.

(** obv.cc:17-47; [prev] is uninitialised until the first bar *)
Definition ti_obv : batchfn := fun size inputs options =>
  match inputs, options with
  | [close; volume], [] =>
    let* (prev, sum, out) := for_ 0 (Z.min 1 size) (fun i '(prev, sum, out) =>
        let* c := rd close i in
        Ok (Some c, sum, out ++ [sum])) (None, #0, []) in
    let* (prev, sum, out) := for_ (Z.max 0 (Z.min 1 size)) size (fun i '(prev, sum, out) =>
        let* c := rd close i in
        let* p := get prev in
        let* sum := if c .> p then let* v := rd volume i in Ok (sum .+ v)
                    else if c .< p then let* v := rd volume i in Ok (sum .- v)
                    else Ok sum in
        Ok (Some c, sum, out ++ [sum])) (prev, sum, out) in
    Ok (OKAY, [out])
  | _, _ => Ub BadArgs
  end.

(** wad.cc:18-51 *)
Definition ti_wad : batchfn := fun size inputs options =>
  match inputs, options with
  | [high; low; close], [] =>
    let* start := start1 options in
    if size <=? start then Ok (OKAY, [[]]) else
    let* yc := rd close 0 in
    let* (sum, yc, out) := for_ 1 size (fun i '(sum, yc, out) =>
        let* c := rd close i in
        let* sum := if c .> yc then let* l := rd low i in Ok (sum .+ (c .- MINf yc l))
                    else if c .< yc then let* h := rd high i in Ok (sum .+ (c .- MAXf yc h))
                    else Ok sum in
        Ok (sum, c, out ++ [sum])) (#0, yc, []) in
    let* _ := check Assert (zlen out =? size - start) in
    Ok (OKAY, [out])
  | _, _ => Ub BadArgs
  end.

(** truerange.h:9-19, macro CALC_TRUERANGE at bar [i] *)
Definition CALC_TRUERANGE (high low close : list T) (i : Z) : res T :=
  let* l := rd low i in
  let* h := rd high i in
  let* c := rd close (i - 1) in
  let ych := fabs (h .- c) in
  let ycl := fabs (l .- c) in
  let v := h .- l in
  let v := if ych .> v then ych else v in
  let v := if ycl .> v then ycl else v in
  Ok v.

(** tr.cc:21-43 *)
Definition ti_tr : batchfn := fun size inputs options =>
  match inputs, options with
  | [high; low; close], [] =>
    let* out := for_ 0 (Z.min 1 size) (fun i out =>
        let* h := rd high i in
        let* l := rd low i in
        Ok (out ++ [h .- l])) [] in
    let* out := for_ (Z.max 0 (Z.min 1 size)) size (fun i out =>
        let* v := CALC_TRUERANGE high low close i in
        Ok (out ++ [v])) out in
    Ok (OKAY, [out])
  | _, _ => Ub BadArgs
  end.

(** trend.h:31-64, macro LINEAR_REGRESSION.  [final] is the FINAL macro: it receives the
    bar index, the sums x and y, the slope b and the FINAL-local state and returns the new
    state and outputs. *)
Definition LINEAR_REGRESSION {S : Type} (size : Z) (input : list T) (period : Z)
    (final : Z -> T -> T -> T -> S * list T -> res (S * list T)) (s0 : S)
  : res (list T) :=
  let* (x, x2, y, xy) := for_ 0 (period - 1) (fun i '(x, x2, y, xy) =>
      let x := x .+ #(i + 1) in
      let* i2 := ck ((i + 1) * (i + 1)) in
      let x2 := x2 .+ #i2 in
      let* v := rd input i in
      let xy := xy .+ v .* #(i + 1) in
      let y := y .+ v in
      Ok (x, x2, y, xy)) (#0, #0, #0, #0) in
  let x := x .+ #period in
  let* p2 := ck (period * period) in
  let x2 := x2 .+ #p2 in
  let bd := #1 ./ (#period .* x2 .- x .* x) in
  let* (y, xy, s) := for_ (period - 1) size (fun i '(y, xy, s) =>
      let* v := rd input i in
      let xy := xy .+ v .* #period in
      let y := y .+ v in
      let b := (#period .* xy .- x .* y) .* bd in
      let* s := final i x y b s in
      let xy := xy .- y in
      let* w := rd input (i - period + 1) in
      let y := y .- w in
      Ok (y, xy, s)) (y, xy, (s0, [])) in
  let (_, out) := s in
  Ok out.

(** trend.h:18-23, the default INIT/FINAL: write the regression value at [forecast] *)
Definition FINAL_line (period forecast : Z) (i : Z) (x y b : T) (s : unit * list T)
  : res (unit * list T) :=
  let p := #1 ./ #period in
  let a := (y .- b .* x) .* p in
  let (u, out) := s in
  Ok (u, out ++ [a .+ b .* #forecast]).

(** linreg.cc:17-29 *)
Definition ti_linreg : batchfn := fun size inputs options =>
  match inputs, options with
  | [input], [o0] =>
    let* period := cast o0 in
    if period <? 1 then Ok (INVALID_OPTION, [[]]) else
    let* start := start_p1 options in
    if size <=? start then Ok (OKAY, [[]]) else
    let* out := LINEAR_REGRESSION size input period (FINAL_line period period) tt in
    let* _ := check Assert (zlen out =? size - start) in
    Ok (OKAY, [out])
  | _, _ => Ub BadArgs
  end.

(** linregintercept.cc:17-29 *)
Definition ti_linregintercept : batchfn := fun size inputs options =>
  match inputs, options with
  | [input], [o0] =>
    let* period := cast o0 in
    if period <? 1 then Ok (INVALID_OPTION, [[]]) else
    let* start := start_p1 options in
    if size <=? start then Ok (OKAY, [[]]) else
    let* out := LINEAR_REGRESSION size input period (FINAL_line period 1) tt in
    let* _ := check Assert (zlen out =? size - start) in
    Ok (OKAY, [out])
  | _, _ => Ub BadArgs
  end.

(** tsf.cc:17-30 *)
Definition ti_tsf : batchfn := fun size inputs options =>
  match inputs, options with
  | [input], [o0] =>
    let* period := cast o0 in
    if period <? 1 then Ok (INVALID_OPTION, [[]]) else
    let* start := start_p1 options in
    if size <=? start then Ok (OKAY, [[]]) else
    let* fc := ck (period + 1) in
    let* out := LINEAR_REGRESSION size input period (FINAL_line period fc) tt in
    let* _ := check Assert (zlen out =? size - start) in
    Ok (OKAY, [out])
  | _, _ => Ub BadArgs
  end.

(** linregslope.cc:10-37 (FINAL writes b) *)
Definition ti_linregslope : batchfn := fun size inputs options =>
  match inputs, options with
  | [input], [o0] =>
    let* period := cast o0 in
    if period <? 1 then Ok (INVALID_OPTION, [[]]) else
    let* start := start_p1 options in
    if size <=? start then Ok (OKAY, [[]]) else
    let* out := LINEAR_REGRESSION size input period
        (fun i x y b '(u, out) => Ok (u, out ++ [b])) tt in
    let* _ := check Assert (zlen out =? size - start) in
    Ok (OKAY, [out])
  | _, _ => Ub BadArgs
  end.

(** fosc.cc:11-40 (INIT and FINAL of fosc.cc:11-17) *)
Definition ti_fosc : batchfn := fun size inputs options =>
  match inputs, options with
  | [input], [o0] =>
    let* period := cast o0 in
    if period <? 1 then Ok (INVALID_OPTION, [[]]) else
    let* start := start_p options in
    if size <=? start then Ok (OKAY, [[]]) else
    let* fc := ck (period + 1) in
    let p := #1 ./ #period in
    let* out := LINEAR_REGRESSION size input period
        (fun i x y b '(tsf, out) =>
          let a := (y .- b .* x) .* p in
          let* out := if i >=? period then
                        let* v := rd input i in
                        Ok (out ++ [if truth (v .- tsf) then #100 .* (v .- tsf) ./ v else #0])
                      else Ok out in
          let tsf := a .+ b .* #fc in
          Ok (tsf, out)) #0 in
    let* _ := check Assert (zlen out =? size - start) in
    Ok (OKAY, [out])
  | _, _ => Ub BadArgs
  end.

(** qstick.cc:16-43 *)
Definition ti_qstick : batchfn := fun size inputs options =>
  match inputs, options with
  | [open; close], [o0] =>
    let* period := cast o0 in
    let scale := #1 ./ #period in
    if period <? 1 then Ok (INVALID_OPTION, [[]]) else
    let* start := start_p1 options in
    if size <=? start then Ok (OKAY, [[]]) else
    let* sum := for_ 0 period (fun i sum =>
        let* c := rd close i in
        let* o := rd open i in
        Ok (sum .+ (c .- o))) #0 in
    let out := [sum .* scale] in
    let* (sum, out) := for_ period size (fun i '(sum, out) =>
        let* c := rd close i in
        let* o := rd open i in
        let sum := sum .+ (c .- o) in
        let* c' := rd close (i - period) in
        let* o' := rd open (i - period) in
        let sum := sum .- (c' .- o') in
        Ok (sum, out ++ [sum .* scale])) (sum, out) in
    let* _ := check Assert (zlen out =? size - start) in
    Ok (OKAY, [out])
  | _, _ => Ub BadArgs
  end.

(** zlema.cc:11-13; C division truncates *)
Definition ti_zlema_start : startfn := fun options =>
  match options with
  | [o0] => let* p := cast o0 in let* q := ck (p - 1) in ck (Z.quot q 2 - 1)
  | _ => Ub BadArgs
  end.

(** zlema.cc:16-44 *)
Definition ti_zlema : batchfn := fun size inputs options =>
  match inputs, options with
  | [input], [o0] =>
    let* period := cast o0 in
    let* q := ck (period - 1) in
    let lag := Z.quot q 2 in
    if period <? 1 then Ok (INVALID_OPTION, [[]]) else
    let* start := ti_zlema_start options in
    if size <=? start then Ok (OKAY, [[]]) else
    let per := #2 ./ (#period .+ #1) in
    let* val := rd input (lag - 1) in
    let out := [val] in
    let* (val, out) := for_ lag size (fun i '(val, out) =>
        let* c := rd input i in
        let* l := rd input (i - lag) in
        let val := ((c .+ (c .- l)) .- val) .* per .+ val in
        Ok (val, out ++ [val])) (val, out) in
    let* _ := check Assert (zlen out =? size - start) in
    Ok (OKAY, [out])
  | _, _ => Ub BadArgs
  end.

(** dpo.cc:16-45 *)
Definition ti_dpo : batchfn := fun size inputs options =>
  match inputs, options with
  | [input], [o0] =>
    let* period := cast o0 in
    let back := Z.quot period 2 + 1 in
    let scale := #1 ./ #period in
    if period <? 1 then Ok (INVALID_OPTION, [[]]) else
    let* start := start_p1 options in
    if size <=? start then Ok (OKAY, [[]]) else
    let* sum := for_ 0 period (fun i sum =>
        let* x := rd input i in Ok (sum .+ x)) #0 in
    let* v := rd input (period - 1 - back) in
    let out := [v .- (sum .* scale)] in
    let* (sum, out) := for_ period size (fun i '(sum, out) =>
        let* a := rd input i in
        let sum := sum .+ a in
        let* b := rd input (i - period) in
        let sum := sum .- b in
        let* v := rd input (i - back) in
        Ok (sum, out ++ [v .- (sum .* scale)])) (sum, out) in
    let* _ := check Assert (zlen out =? size - start) in
    Ok (OKAY, [out])
  | _, _ => Ub BadArgs
  end.

(** rmta.cc:10-12; two options, only the first matters *)
Definition ti_rmta_start : startfn := fun options =>
  match options with
  | [o0; _] => let* p := cast o0 in ck (p - 1)
  | _ => Ub BadArgs
  end.

(** rmta.cc:19-47 *)
Definition ti_rmta : batchfn := fun size inputs options =>
  match inputs, options with
  | [input], [o0; beta] =>
    let* period := cast o0 in
    if period <? 1 then Ok (INVALID_OPTION, [[]]) else
    let* start := ti_rmta_start options in
    if size <=? start then Ok (OKAY, [[]]) else
    let alpha := #1 .- beta in
    let* x0 := rd input 0 in
    let b := (#1 .- alpha) .* x0 .+ x0 in
    let rmta := (#1 .- alpha) .* x0 .+ alpha .* (x0 .+ b) in
    let* (b, rmta) := for_ 1 (period - 1) (fun i '(b, rmta) =>
        let* x := rd input i in
        let next_b := (#1 .- alpha) .* b .+ x in
        let rmta := (#1 .- alpha) .* rmta .+ alpha .* (x .+ next_b .- b) in
        Ok (next_b, rmta)) (b, rmta) in
    let* (b, rmta, out) := for_ (period - 1) size (fun i '(b, rmta, out) =>
        let* x := rd input i in
        let next_b := (#1 .- alpha) .* b .+ x in
        let rmta := (#1 .- alpha) .* rmta .+ alpha .* (x .+ next_b .- b) in
        Ok (next_b, rmta, out ++ [rmta])) (b, rmta, []) in
    let* _ := check Assert (zlen out =? size - start) in
    Ok (OKAY, [out])
  | _, _ => Ub BadArgs
  end.

(** apo.cc:17-48 *)
Definition ti_apo : batchfn := fun size inputs options =>
  match inputs, options with
  | [input], [o0; o1] =>
    let* short_period := cast o0 in
    let* long_period := cast o1 in
    if short_period <? 1 then Ok (INVALID_OPTION, [[]]) else
    if long_period <? 2 then Ok (INVALID_OPTION, [[]]) else
    if long_period <? short_period then Ok (INVALID_OPTION, [[]]) else
    let* start := start1 options in
    if size <=? start then Ok (OKAY, [[]]) else
    let short_per := #2 ./ (#short_period .+ #1) in
    let long_per := #2 ./ (#long_period .+ #1) in
    let* x0 := rd input 0 in
    let* (short_ema, long_ema, out) := for_ 1 size (fun i '(short_ema, long_ema, out) =>
        let* x := rd input i in
        let short_ema := (x .- short_ema) .* short_per .+ short_ema in
        let long_ema := (x .- long_ema) .* long_per .+ long_ema in
        Ok (short_ema, long_ema, out ++ [short_ema .- long_ema])) (x0, x0, []) in
    let* _ := check Assert (zlen out =? size - start) in
    Ok (OKAY, [out])
  | _, _ => Ub BadArgs
  end.

(** ppo.cc:17-48 *)
Definition ti_ppo : batchfn := fun size inputs options =>
  match inputs, options with
  | [input], [o0; o1] =>
    let* short_period := cast o0 in
    let* long_period := cast o1 in
    if short_period <? 1 then Ok (INVALID_OPTION, [[]]) else
    if long_period <? 2 then Ok (INVALID_OPTION, [[]]) else
    if long_period <? short_period then Ok (INVALID_OPTION, [[]]) else
    let* start := start1 options in
    if size <=? start then Ok (OKAY, [[]]) else
    let short_per := #2 ./ (#short_period .+ #1) in
    let long_per := #2 ./ (#long_period .+ #1) in
    let* x0 := rd input 0 in
    let* (short_ema, long_ema, out) := for_ 1 size (fun i '(short_ema, long_ema, out) =>
        let* x := rd input i in
        let short_ema := (x .- short_ema) .* short_per .+ short_ema in
        let long_ema := (x .- long_ema) .* long_per .+ long_ema in
        let v := if truth (short_ema .- long_ema)
                 then #100 .* (short_ema .- long_ema) ./ long_ema else #0 in
        Ok (short_ema, long_ema, out ++ [v])) (x0, x0, []) in
    let* _ := check Assert (zlen out =? size - start) in
    Ok (OKAY, [out])
  | _, _ => Ub BadArgs
  end.

(** cmo.cc:10-11, macros UPWARD and DOWNWARD *)
Definition UPWARD (input : list T) (i : Z) : res T :=
  let* a := rd input i in
  let* b := rd input (i - 1) in
  Ok (if a .> b then a .- b else #0).
Definition DOWNWARD (input : list T) (i : Z) : res T :=
  let* a := rd input i in
  let* b := rd input (i - 1) in
  Ok (if a .< b then b .- a else #0).

(** cmo.cc:19-48 *)
Definition ti_cmo : batchfn := fun size inputs options =>
  match inputs, options with
  | [input], [o0] =>
    let* period := cast o0 in
    if period <? 1 then Ok (INVALID_OPTION, [[]]) else
    let* start := start_p options in
    if size <=? start then Ok (OKAY, [[]]) else
    let* (up_sum, down_sum) := for_ 1 (Z.min period size) (fun i '(up_sum, down_sum) =>
        let* u := UPWARD input i in
        let* d := DOWNWARD input i in
        Ok (up_sum .+ u, down_sum .+ d)) (#0, #0) in
    let* (up_sum, down_sum, out) := for_ (Z.max 1 (Z.min period size)) size
        (fun i '(up_sum, down_sum, out) =>
        let* u := UPWARD input i in
        let* d := DOWNWARD input i in
        let up_sum := up_sum .+ u in
        let down_sum := down_sum .+ d in
        let v := if truth (up_sum .+ down_sum)
                 then #100 .* (up_sum .- down_sum) ./ (up_sum .+ down_sum) else #0 in
        let out := out ++ [v] in
        let* u := UPWARD input (i - period + 1) in
        let* d := DOWNWARD input (i - period + 1) in
        Ok (up_sum .- u, down_sum .- d, out)) (up_sum, down_sum, []) in
    let* _ := check Assert (zlen out =? size - start) in
    Ok (OKAY, [out])
  | _, _ => Ub BadArgs
  end.

(** vwma.cc:16-49 *)
Definition ti_vwma : batchfn := fun size inputs options =>
  match inputs, options with
  | [input; volume], [o0] =>
    let* period := cast o0 in
    if period <? 1 then Ok (INVALID_OPTION, [[]]) else
    let* start := start_p1 options in
    if size <=? start then Ok (OKAY, [[]]) else
    let* (sum, vsum) := for_ 0 period (fun i '(sum, vsum) =>
        let* x := rd input i in
        let* v := rd volume i in
        Ok (sum .+ x .* v, vsum .+ v)) (#0, #0) in
    let out := [if truth sum then sum ./ vsum else #0] in
    let* (sum, vsum, out) := for_ period size (fun i '(sum, vsum, out) =>
        let* x := rd input i in
        let* v := rd volume i in
        let sum := sum .+ x .* v in
        let* x' := rd input (i - period) in
        let* v' := rd volume (i - period) in
        let sum := sum .- x' .* v' in
        let vsum := vsum .+ v in
        let vsum := vsum .- v' in
        Ok (sum, vsum, out ++ [if truth sum then sum ./ vsum else #0])) (sum, vsum, out) in
    let* _ := check Assert (zlen out =? size - start) in
    Ok (OKAY, [out])
  | _, _ => Ub BadArgs
  end.

(** dema.cc:11-14 *)
Definition ti_dema_start : startfn := fun options =>
  match options with
  | [o0] => let* p := cast o0 in let* q := ck (p - 1) in ck (q * 2)
  | _ => Ub BadArgs
  end.

(** dema.cc:17-51 *)
Definition ti_dema : batchfn := fun size inputs options =>
  match inputs, options with
  | [input], [o0] =>
    let* period := cast o0 in
    if period <? 1 then Ok (INVALID_OPTION, [[]]) else
    let* start := ti_dema_start options in
    if size <=? start then Ok (OKAY, [[]]) else
    let per := #2 ./ (#period .+ #1) in
    let per1 := #1 .- per in
    let* ema := rd input 0 in
    let ema2 := ema in
    let* (ema, ema2, out) := for_ 0 size (fun i '(ema, ema2, out) =>
        let* x := rd input i in
        let ema := ema .* per1 .+ x .* per in
        let ema2 := if i =? period - 1 then ema else ema2 in
        if i >=? period - 1 then
          let ema2 := ema2 .* per1 .+ ema .* per in
          if i >=? (period - 1) * 2
          then Ok (ema, ema2, out ++ [ema .* #2 .- ema2])
          else Ok (ema, ema2, out)
        else Ok (ema, ema2, out)) (ema, ema2, []) in
    let* _ := check Assert (zlen out =? size - start) in
    Ok (OKAY, [out])
  | _, _ => Ub BadArgs
  end.

(** rsi.cc:16-51 *)
Definition ti_rsi : batchfn := fun size inputs options =>
  match inputs, options with
  | [input], [o0] =>
    let* period := cast o0 in
    let per := #1 ./ #period in
    if period <? 1 then Ok (INVALID_OPTION, [[]]) else
    let* start := start_p options in
    if size <=? start then Ok (OKAY, [[]]) else
    let* (smooth_up, smooth_down) := for_ 1 (period + 1) (fun i '(smooth_up, smooth_down) =>
        let* x := rd input i in
        let* y := rd input (i - 1) in
        let upward := if x .> y then x .- y else #0 in
        let downward := if x .< y then y .- x else #0 in
        Ok (smooth_up .+ upward, smooth_down .+ downward)) (#0, #0) in
    let smooth_up := smooth_up ./ #period in
    let smooth_down := smooth_down ./ #period in
    let out := [if truth smooth_up
                then #100 .* (smooth_up ./ (smooth_up .+ smooth_down)) else #0] in
    let* (smooth_up, smooth_down, out) := for_ (period + 1) size
        (fun i '(smooth_up, smooth_down, out) =>
        let* x := rd input i in
        let* y := rd input (i - 1) in
        let upward := if x .> y then x .- y else #0 in
        let downward := if x .< y then y .- x else #0 in
        let smooth_up := (upward .- smooth_up) .* per .+ smooth_up in
        let smooth_down := (downward .- smooth_down) .* per .+ smooth_down in
        let v := if truth smooth_up
                 then #100 .* (smooth_up ./ (smooth_up .+ smooth_down)) else #0 in
        Ok (smooth_up, smooth_down, out ++ [v])) (smooth_up, smooth_down, out) in
    let* _ := check Assert (zlen out =? size - start) in
    Ok (OKAY, [out])
  | _, _ => Ub BadArgs
  end.

End M.

(** Models: the reference implementations not modelled beside their indicators.

    Return codes of the functions they call are ignored by the sources, as here.  A vector or
    malloc'ed array filled by such a call is the list of values written; a shorter array than
    the call writes to is reported as [OobRead], a negative length as [BadSize]. *)
From Verif Require Export M_basic M_osc M_stream1 M_stream2 M_stream3 M_stream7.
Section M.
Context {A : Arith}.

(** f(size, &x, &o, &out): the first output *)
Definition call1 (f : batchfn) (size : Z) (x : list T) (o : T) : res (list T) :=
  let* (_, outs) := f size [x] [o] in rd outs 0.

(** lma.cc:56-78; the vectors have the integer part of size-period+1 elements (63, 64) *)
Definition ti_lma_ref : batchfn := fun size inputs options =>
  match inputs, options with
  | [series], [period] =>
    if period .< #1 then Ok (INVALID_OPTION, [[]]) else
    let* len := cast (#size .- period .+ #1) in
    let* _ := check BadSize (0 <=? len) in
    let* wma_price := call1 ti_wma size series period in
    let* _ := check OobRead (zlen wma_price <=? len) in
    let* sma_price := call1 ti_sma size series period in
    let* _ := check OobRead (zlen sma_price <=? len) in
    let* b := ceilto (#size .- period .+ #1) in
    let* lma := for_ 0 b (fun i out =>
      let* w := rd wma_price i in
      let* s := rd sma_price i in
      Ok (out ++ [#2 .* w .- s])) [] in
    Ok (OKAY, [lma])
  | _, _ => Ub BadArgs
  end.

(** dwma.cc:77-92 *)
Definition ti_dwma_ref : batchfn := fun size inputs options =>
  match inputs, options with
  | [series], [period] =>
    if period .< #1 then Ok (INVALID_OPTION, [[]]) else
    let* len := cast (#size .- period .+ #1) in
    let* _ := check BadSize (0 <=? len) in
    let* smooth1 := call1 ti_wma size series period in
    let* _ := check OobRead (zlen smooth1 <=? len) in
    let* out := call1 ti_wma len smooth1 period in
    Ok (OKAY, [out])
  | _, _ => Ub BadArgs
  end.

(** copp.cc:76-115 *)
Definition ti_copp_ref : batchfn := fun size inputs options =>
  match inputs, options with
  | [series], [short; long; wma] =>
    if (short .< #1) || (long .< #1) || (wma .< #1) then Ok (INVALID_OPTION, [[]]) else
    if long .< short then Ok (INVALID_OPTION, [[]]) else
    let* start := ti_copp_start options in
    if size <? start then Ok (OKAY, [[]]) else
    let* s1 := cast short in
    let roc_short_len := size - s1 in
    let* s2 := cast long in
    let roc_long_len := size - s2 in
    let* _ := check BadSize ((0 <=? roc_short_len) && (0 <=? roc_long_len)) in
    let* roc_short := call1 ti_roc size series short in
    let* roc_long := call1 ti_roc size series long in
    let* interm := for_ 0 roc_long_len (fun i out =>
      let* a := rd roc_long i in
      let* b := rd roc_short (i + (roc_short_len - roc_long_len)) in
      Ok (out ++ [(a .+ b) .* #100 ./ #2])) [] in
    let* out := call1 ti_wma roc_long_len interm wma in
    Ok (OKAY, [out])
  | _, _ => Ub BadArgs
  end.

(** pfe.cc:80-101, with the macro SIGN of pfe.cc:34 inside [pfe_numer]; ti_ema works in place on
    the output, and the size it is given is converted from the double size-period *)
Definition ti_pfe_ref : batchfn := fun size inputs options =>
  match inputs, options with
  | [series], [period; ema_period] =>
    if period .< #1 then Ok (INVALID_OPTION, [[]]) else
    let* start := ti_pfe_start options in
    if size <=? start then Ok (OKAY, [[]]) else
    let* n := cast period in
    let* pfe := for_ n size (fun i out =>
      let* j0 := cast (#i .- period .+ #1) in
      let* div := for_ j0 (i + 1) (fun j div =>
        let* y := rd series j in
        let* y1 := rd series (j - 1) in
        Ok (div .+ pfe_denom y y1)) #0 in
      let* x := rd series i in
      let* xp := rd series (i - n) in
      Ok (out ++ [pfe_numer x xp ./ div])) [] in
    let* len := cast (#size .- period) in
    let* (rc, o) := ti_ema len [pfe] [ema_period] in
    let* o := rd o 0 in
    let out := match rc with OKAY => o ++ skipn (length o) pfe | _ => pfe end in
    let* _ := check Assert (zlen pfe =? size - start) in
    Ok (OKAY, [out])
  | _, _ => Ub BadArgs
  end.

(** The loops of pbands.cc:88-99 and posc.cc:107-118; [b1] is the bound of [j < period] *)
Definition ref_max (high : list T) (b1 i : Z) (b : T) : res T :=
  let* h := rd high i in
  for_ 1 b1 (fun j m =>
    let* x := rd high (i - j) in
    Ok (if m .< x .+ #j .* b then x .+ #j .* b else m)) h.
Definition ref_min (low : list T) (b1 i : Z) (b : T) : res T :=
  let* l := rd low i in
  for_ 1 b1 (fun j m =>
    let* x := rd low (i - j) in
    Ok (if m .> x .+ #j .* b then x .+ #j .* b else m)) l.

(** pbands.cc:74-108; no option test of its own *)
Definition ti_pbands_ref : batchfn := fun size inputs options =>
  match inputs, options with
  | [high; low; close], [period] =>
    let* start := start_p1 [period] in
    let* _ := check BadSize (0 <=? size - start) in
    let* b := call1 ti_linregslope size close period in
    let* b1 := ceilto period in
    let* (ls, us) := for_ start size (fun i '(ls, us) =>
      let* s := rd b (i - start) in
      let* u := ref_max high b1 i s in
      let* l := ref_min low b1 i s in
      Ok (ls ++ [l], us ++ [u])) ([], []) in
    Ok (OKAY, [ls; us])
  | _, _ => Ub BadArgs
  end.

(** posc.cc:93-127; ti_ema works in place on the output *)
Definition ti_posc_ref : batchfn := fun size inputs options =>
  match inputs, options with
  | [high; low; close], [period; ema_period] =>
    let* start := start_p1 [period] in
    let* _ := check BadSize (0 <=? size - start) in
    let* b := call1 ti_linregslope size close period in
    let* b1 := ceilto period in
    let* posc := for_ start size (fun i out =>
      let* s := rd b (i - start) in
      let* u := ref_max high b1 i s in
      let* l := ref_min low b1 i s in
      let* c := rd close i in
      Ok (out ++ [(c .- l) ./ (u .- l) .* #100])) [] in
    let* (rc, o) := ti_ema (size - start) [posc] [ema_period] in
    let* o := rd o 0 in
    Ok (OKAY, [match rc with OKAY => o | _ => posc end])
  | _, _ => Ub BadArgs
  end.

(** vi.cc:56-102: the three differences as arrays, whose element 0 is not read; the running sums
    are kept in arrays, of which only the last element is read *)
Definition ti_vi_ref : batchfn := fun size inputs options =>
  match inputs, options with
  | [high; low; close], [o0] =>
    let* period := cast o0 in
    if (period <? 1) || (period >=? size) then Ok (INVALID_OPTION, [[]; []]) else
    let* (vm_p, vm_m, TR) := for_ 1 size (fun i '(vm_p, vm_m, TR) =>
      let* (a, b, c) := vi_terms high low close i in
      Ok (vm_p ++ [a], vm_m ++ [b], TR ++ [c])) ([#0], [#0], [#0]) in
    let* (vp, vm, tr) := for_ 1 (period + 1) (fun k '(vp, vm, tr) =>
      let* a := rd vm_p k in
      let* b := rd vm_m k in
      let* c := rd TR k in
      Ok (vp .+ a, vm .+ b, tr .+ c)) (#0, #0, #0) in
    let* (_, vi_p, vi_m) := for_ (period + 1) size (fun i '(s, vi_p, vi_m) =>
      let '(vp, vm, tr) := s in
      let* a0 := rd vm_p (i - period) in
      let* b0 := rd vm_m (i - period) in
      let* c0 := rd TR (i - period) in
      let* a := rd vm_p i in
      let* b := rd vm_m i in
      let* c := rd TR i in
      let vp := vp .- a0 .+ a in
      let vm := vm .- b0 .+ b in
      let tr := tr .- c0 .+ c in
      Ok ((vp, vm, tr), vi_p ++ [vp ./ tr], vi_m ++ [vm ./ tr])) ((vp, vm, tr), [vp ./ tr], [vm ./ tr]) in
    Ok (OKAY, [vi_p; vi_m])
  | _, _ => Ub BadArgs
  end.

(** A vector of [size] zeros that ti_ema was to fill: still zeros when ti_ema rejects *)
Definition ema_vec (size : Z) (x : list T) (o : T) : res (list T) :=
  let* (rc, outs) := ti_ema size [x] [o] in
  let* v := rd outs 0 in
  Ok (match rc with OKAY => v | _ => repeat #0 (Z.to_nat size) end).

(** ehma.cc:56-86 *)
Definition ti_ehma_ref : batchfn := fun size inputs options =>
  match inputs, options with
  | [series], [o0] =>
    let* period := cast o0 in
    if period <? 1 then Ok (INVALID_OPTION, [[]]) else
    let n2 := #period ./ #2 in
    let n := #period in
    let n05 := fsqrt #period in
    let* ema_n2 := ema_vec size series n2 in
    let* ema_n := ema_vec size series n in
    let* subtr := for_ 0 size (fun i out =>
      let* a := rd ema_n2 i in
      let* b := rd ema_n i in
      Ok (out ++ [#2 .* a .- b])) [] in
    let* out := call1 ti_ema size subtr n05 in
    Ok (OKAY, [out])
  | _, _ => Ub BadArgs
  end.

(** idwma.cc:50-74; [idwma[i-(int)period+1]] is the next element when i starts there *)
Definition ti_idwma_ref : batchfn := fun size inputs options =>
  match inputs, options with
  | [series], [period; exponent] =>
    if period .< #1 then Ok (INVALID_OPTION, [[]]) else
    if exponent .< #1 then Ok (INVALID_OPTION, [[]]) else
    if exponent .> #2 then Ok (INVALID_OPTION, [[]]) else
    let* b := ceilto period in
    let* denom := for_ 0 b (fun i denom =>
      let* i1 := ck (i + 1) in
      Ok (denom .+ #1 ./ fpow #i1 exponent)) #0 in
    let* i0 := cast (period .- #1) in
    let* n := cast period in
    let* _ := check OobRead (i0 - n + 1 =? 0) in
    let* out := for_ i0 size (fun i out =>
      let* numer := for_ 0 b (fun j numer =>
        let* x := rd series (i - j) in
        let* j1 := ck (j + 1) in
        Ok (numer .+ x .* #1 ./ fpow #j1 exponent)) #0 in
      Ok (out ++ [numer ./ denom])) [] in
    Ok (OKAY, [out])
  | _, _ => Ub BadArgs
  end.

(** tsi.cc:61-91; the ti_ema calls work in place *)
Definition ti_tsi_ref : batchfn := fun size inputs options =>
  match inputs, options with
  | [series], [y_period; z_period] =>
    if y_period .< #1 then Ok (INVALID_OPTION, [[]]) else
    if z_period .< #1 then Ok (INVALID_OPTION, [[]]) else
    let outsize := size - 1 in
    let* _ := check BadSize (0 <=? outsize) in
    let* momentum := call1 ti_mom size series #1 in
    let* (_, o) := ti_abs outsize [momentum] [] in
    let* absmomentum := rd o 0 in
    let* momentum := call1 ti_ema outsize momentum y_period in
    let* momentum := call1 ti_ema outsize momentum z_period in
    let* absmomentum := call1 ti_ema outsize absmomentum y_period in
    let* absmomentum := call1 ti_ema outsize absmomentum z_period in
    let* tsi := for_ 0 outsize (fun i out =>
      let* a := rd momentum i in
      let* b := rd absmomentum i in
      Ok (out ++ [#100 .* a ./ b])) [] in
    Ok (OKAY, [tsi])
  | _, _ => Ub BadArgs
  end.

(** pwma.cc:46-69 *)
Definition ti_pwma_ref : batchfn := fun size inputs options =>
  match inputs, options with
  | [series], [o0; power] =>
    let* period := cast o0 in
    if period <? 1 then Ok (INVALID_OPTION, [[]]) else
    let* denom := for_ 0 (Z.min period size) (fun i denom => Ok (denom .+ fpow #(i + 1) power)) #0 in
    let* out := for_ (period - 1) size (fun i out =>
      let* numer := for_ 0 period (fun j numer =>
        let* x := rd series (i - j) in
        Ok (numer .+ x .* fpow #(period - j) power)) #0 in
      Ok (out ++ [numer ./ denom])) [] in
    Ok (OKAY, [out])
  | _, _ => Ub BadArgs
  end.
End M.

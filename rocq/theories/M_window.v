(** Models: indicators that maintain the highest / lowest value of a sliding window. *)
From Verif Require Export M_basic Ring.
Section M.
Context {A : Arith}.

(** "Maintain highest" (cmp bar max = [bar >= max]) / "maintain lowest" ([bar <= min]), the
    block repeated in max.cc:28-44, min.cc:28-44, aroon.cc:35-70, aroonosc.cc:34-69,
    willr.cc:35-70, stoch.cc:51-86, vhf.cc:52-86 and fisher.cc:39-74.  [get j] is the series
    access ([high[j]], [HL(j)], ...); the state is the index and the value of the extreme. *)
Definition maintain (cmp : T -> T -> bool) (get : Z -> res T) (trail i : Z) (s : Z * T)
  : res (Z * T) :=
  let (mi, m) := s in
  let* bar := get i in
  if mi <? trail then
    let* m := get trail in
    for_ (trail + 1) (i + 1) (fun j '(mi, m) =>
        let* bar := get j in
        Ok (if cmp bar m then (j, bar) else (mi, m))) (trail, m)
  else Ok (if cmp bar m then (i, bar) else (mi, m)).
Definition highest := maintain (fun bar m => bar .>= m).
Definition lowest := maintain (fun bar m => bar .<= m).

(** max.cc:16-52; [trail] = i - (period-1) *)
Definition ti_max : batchfn := fun size inputs options =>
  match inputs, options with
  | [input], [o0] =>
    let* period := cast o0 in
    if period <? 1 then Ok (INVALID_OPTION, [[]]) else
    let* start := start_p1 options in
    if size <=? start then Ok (OKAY, [[]]) else
    let* m0 := rd input 0 in
    let* (_, _, out) := for_ (period - 1) size (fun i '(trail, s, out) =>
        let* s := highest (rd input) trail i s in
        Ok (trail + 1, s, out ++ [snd s])) (0, (-1, m0), []) in
    let* _ := check Assert (zlen out =? size - start) in
    Ok (OKAY, [out])
  | _, _ => Ub BadArgs
  end.

(** min.cc:16-51 *)
Definition ti_min : batchfn := fun size inputs options =>
  match inputs, options with
  | [input], [o0] =>
    let* period := cast o0 in
    if period <? 1 then Ok (INVALID_OPTION, [[]]) else
    let* start := start_p1 options in
    if size <=? start then Ok (OKAY, [[]]) else
    let* m0 := rd input 0 in
    let* (_, _, out) := for_ (period - 1) size (fun i '(trail, s, out) =>
        let* s := lowest (rd input) trail i s in
        Ok (trail + 1, s, out ++ [snd s])) (0, (-1, m0), []) in
    let* _ := check Assert (zlen out =? size - start) in
    Ok (OKAY, [out])
  | _, _ => Ub BadArgs
  end.

(** max.cc:55-74 *)
Definition ti_max_ref : batchfn := fun size inputs options =>
  match inputs, options with
  | [input], [o0] =>
    let* period := cast o0 in
    if period <? 1 then Ok (INVALID_OPTION, [[]]) else
    let* start := start_p1 options in
    if size <=? start then Ok (OKAY, [[]]) else
    let* out := for_ (period - 1) size (fun i out =>
        let* m := rd input (i - period + 1) in
        let* m := for_ (i - period + 2) (i + 1) (fun j m =>
            let* v := rd input j in Ok (MAXf m v)) m in
        Ok (out ++ [m])) [] in
    Ok (OKAY, [out])
  | _, _ => Ub BadArgs
  end.

(** min.cc:53-73 *)
Definition ti_min_ref : batchfn := fun size inputs options =>
  match inputs, options with
  | [input], [o0] =>
    let* period := cast o0 in
    if period <? 1 then Ok (INVALID_OPTION, [[]]) else
    let* start := start_p1 options in
    if size <=? start then Ok (OKAY, [[]]) else
    let* out := for_ (period - 1) size (fun i out =>
        let* m := rd input (i - period + 1) in
        let* m := for_ (i - period + 2) (i + 1) (fun j m =>
            let* v := rd input j in Ok (MINf m v)) m in
        Ok (out ++ [m])) [] in
    let* _ := check Assert (zlen out =? size - start) in
    Ok (OKAY, [out])
  | _, _ => Ub BadArgs
  end.

(** aroon.cc:16-82; outputs: down, up *)
Definition ti_aroon : batchfn := fun size inputs options =>
  match inputs, options with
  | [high; low], [o0] =>
    let* period := cast o0 in
    if period <? 1 then Ok (INVALID_OPTION, [[]; []]) else
    let* start := start_p options in
    if size <=? start then Ok (OKAY, [[]; []]) else
    let scale := #100 ./ #period in
    let* max0 := rd high 0 in
    let* min0 := rd low 0 in
    let* (_, _, _, down, up) := for_ period size (fun i '(trail, smax, smin, down, up) =>
        let* smax := highest (rd high) trail i smax in
        let* smin := lowest (rd low) trail i smin in
        let down := down ++ [(#period .- #(i - fst smin)) .* scale] in
        let up := up ++ [(#period .- #(i - fst smax)) .* scale] in
        Ok (trail + 1, smax, smin, down, up)) (0, (-1, max0), (-1, min0), [], []) in
    let* _ := check Assert (zlen down =? size - start) in
    let* _ := check Assert (zlen up =? size - start) in
    Ok (OKAY, [down; up])
  | _, _ => Ub BadArgs
  end.

(** aroonosc.cc:16-87 *)
Definition ti_aroonosc : batchfn := fun size inputs options =>
  match inputs, options with
  | [high; low], [o0] =>
    let* period := cast o0 in
    if period <? 1 then Ok (INVALID_OPTION, [[]]) else
    let* start := start_p options in
    if size <=? start then Ok (OKAY, [[]]) else
    let scale := #100 ./ #period in
    let* max0 := rd high 0 in
    let* min0 := rd low 0 in
    let* (_, _, _, out) := for_ period size (fun i '(trail, smax, smin, out) =>
        let* smax := highest (rd high) trail i smax in
        let* smin := lowest (rd low) trail i smin in
        Ok (trail + 1, smax, smin, out ++ [#(fst smax - fst smin) .* scale]))
      (0, (-1, max0), (-1, min0), []) in
    let* _ := check Assert (zlen out =? size - start) in
    Ok (OKAY, [out])
  | _, _ => Ub BadArgs
  end.

(** willr.cc:16-83 *)
Definition ti_willr : batchfn := fun size inputs options =>
  match inputs, options with
  | [high; low; close], [o0] =>
    let* period := cast o0 in
    if period <? 1 then Ok (INVALID_OPTION, [[]]) else
    let* start := start_p1 options in
    if size <=? start then Ok (OKAY, [[]]) else
    let* max0 := rd high 0 in
    let* min0 := rd low 0 in
    let* (_, _, _, out) := for_ (period - 1) size (fun i '(trail, smax, smin, out) =>
        let* smax := highest (rd high) trail i smax in
        let* smin := lowest (rd low) trail i smin in
        let highlow := snd smax .- snd smin in
        let* r := if highlow .== #0 then Ok #0 else
                  let* c := rd close i in
                  Ok (#(-100) .* ((snd smax .- c) ./ highlow)) in
        Ok (trail + 1, smax, smin, out ++ [r]))
      (0, (-1, max0), (-1, min0), []) in
    let* _ := check Assert (zlen out =? size - start) in
    Ok (OKAY, [out])
  | _, _ => Ub BadArgs
  end.

(** stoch.cc:12-17 *)
Definition ti_stoch_start : startfn := fun options =>
  match options with
  | [o0; o1; o2] =>
    let* kperiod := cast o0 in
    let* kslow := cast o1 in
    let* dperiod := cast o2 in
    let* a := ck (kperiod + kslow) in
    let* b := ck (a + dperiod) in
    ck (b - 3)
  | _ => Ub BadArgs
  end.

(** stoch.cc:20-113 *)
Definition ti_stoch : batchfn := fun size inputs options =>
  match inputs, options with
  | [high; low; close], [o0; o1; o2] =>
    let* kperiod := cast o0 in
    let* kslow := cast o1 in
    let* dperiod := cast o2 in
    let kper := #1 ./ #kslow in
    let dper := #1 ./ #dperiod in
    if kperiod <? 1 then Ok (INVALID_OPTION, [[]; []]) else
    if kslow <? 1 then Ok (INVALID_OPTION, [[]; []]) else
    if dperiod <? 1 then Ok (INVALID_OPTION, [[]; []]) else
    let* start := ti_stoch_start options in
    if size <=? start then Ok (OKAY, [[]; []]) else
    let* max0 := rd high 0 in
    let* min0 := rd low 0 in
    let* k_sum := buffer_new kslow in
    let* d_sum := buffer_new dperiod in
    let* (_, _, _, _, _, out, ma) :=
      for_ 0 size (fun i '(trail, smax, smin, k_sum, d_sum, out, ma) =>
        let trail := if i >=? kperiod then trail + 1 else trail in
        let* smax := highest (rd high) trail i smax in
        let* smin := lowest (rd low) trail i smin in
        let kdiff := snd smax .- snd smin in
        let* kfast := if kdiff .== #0 then Ok #0 else
                      let* c := rd close i in
                      Ok (#100 .* ((c .- snd smin) ./ kdiff)) in
        let* k_sum := buffer_push k_sum kfast in
        if i >=? kperiod - 1 + kslow - 1 then
          let k := bsum k_sum .* kper in
          let* d_sum := buffer_push d_sum k in
          if i >=? kperiod - 1 + kslow - 1 + dperiod - 1 then
            Ok (trail, smax, smin, k_sum, d_sum, out ++ [k], ma ++ [bsum d_sum .* dper])
          else Ok (trail, smax, smin, k_sum, d_sum, out, ma)
        else Ok (trail, smax, smin, k_sum, d_sum, out, ma))
      (0, (-1, max0), (-1, min0), k_sum, d_sum, [], []) in
    let* _ := check Assert (zlen out =? size - start) in
    let* _ := check Assert (zlen ma =? size - start) in
    Ok (OKAY, [out; ma])
  | _, _ => Ub BadArgs
  end.

(** fisher.cc:17, macro HL *)
Definition HL (high low : list T) (i : Z) : res T :=
  let* h := rd high i in
  let* l := rd low i in
  Ok (lit 5 1 .* (h .+ l)).

(** fisher.cc:19-91; outputs: fisher, signal *)
Definition ti_fisher : batchfn := fun size inputs options =>
  match inputs, options with
  | [high; low], [o0] =>
    let* period := cast o0 in
    if period <? 1 then Ok (INVALID_OPTION, [[]; []]) else
    let* start := start_p1 options in
    if size <=? start then Ok (OKAY, [[]; []]) else
    let* max0 := HL high low 0 in
    let* min0 := HL high low 0 in
    let* (_, _, _, _, _, fisher, signal) :=
      for_ (period - 1) size (fun i '(trail, smax, smin, val1, fish, fisher, signal) =>
        let* smax := highest (HL high low) trail i smax in
        let* smin := lowest (HL high low) trail i smin in
        let mm := snd smax .- snd smin in
        let mm := if mm .== #0 then lit 1 3 else mm in
        let* hl := HL high low i in
        let val1 := lit 33 2 .* #2 .* ((hl .- snd smin) ./ mm .- lit 5 1) .+ lit 67 2 .* val1 in
        let val1 := if val1 .> lit 99 2 then lit 999 3 else val1 in
        let val1 := if val1 .< .- lit 99 2 then .- lit 999 3 else val1 in
        let signal := signal ++ [fish] in
        let fish := lit 5 1 .* libm Llog ((#1 .+ val1) ./ (#1 .- val1)) .+ lit 5 1 .* fish in
        Ok (trail + 1, smax, smin, val1, fish, fisher ++ [fish], signal))
      (0, (-1, max0), (-1, min0), #0, #0, [], []) in
    let* _ := check Assert (zlen fisher =? size - start) in
    let* _ := check Assert (zlen signal =? size - start) in
    Ok (OKAY, [fisher; signal])
  | _, _ => Ub BadArgs
  end.

(** vhf.cc:18-94 *)
Definition ti_vhf : batchfn := fun size inputs options =>
  match inputs, options with
  | [input], [o0] =>
    let* period := cast o0 in
    if period <? 1 then Ok (INVALID_OPTION, [[]]) else
    let* start := start_p options in
    if size <=? start then Ok (OKAY, [[]]) else
    let* m0 := rd input 0 in
    let* (sum, yc) := for_ 1 period (fun i '(sum, yc) =>
        let* c := rd input i in
        Ok (sum .+ fabs (c .- yc), c)) (#0, m0) in
    let* (_, _, _, _, _, out) :=
      for_ period size (fun i '(trail, smax, smin, sum, yc, out) =>
        let* c := rd input i in
        let sum := sum .+ fabs (c .- yc) in
        let yc := c in
        let* sum := if i >? period then
                      let* a := rd input (i - period) in
                      let* b := rd input (i - period - 1) in
                      Ok (sum .- fabs (a .- b))
                    else Ok sum in
        let* smax := highest (rd input) trail i smax in
        let* smin := lowest (rd input) trail i smin in
        let d := fabs (snd smax .- snd smin) in
        Ok (trail + 1, smax, smin, sum, yc, out ++ [if truth d then d ./ sum else #0]))
      (1, (-1, m0), (-1, m0), sum, yc, []) in
    let* _ := check Assert (zlen out =? size - start) in
    Ok (OKAY, [out])
  | _, _ => Ub BadArgs
  end.
End M.

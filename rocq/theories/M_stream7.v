(** Models: streaming indicators, seventh group: Ehlers' filters (mama, arsi, mesastoch). *)
From Verif Require Export M_basic M_window M_stream1 M_stream2 M_stream3 M_stream6.
Section M.
Context {A : Arith}.

(** ** The homodyne discriminator shared by mama and arsi *)
(** mama.cc:29-38, arsi.cc:30-39; in the streams mama.cc:203-212, arsi.cc:146-155 *)
Record disc := { d_Smooth : ring; d_Detrender : ring; d_I1 : ring; d_Q1 : ring;
  d_I2 : ring2; d_Q2 : ring2; d_Re : ring2; d_Im : ring2; d_Period : ring2; d_SmoothPeriod : ring2 }.
Definition disc_init : res disc :=
  let* a := ring_new 7 in let* b := ring_new 7 in let* c := ring_new 7 in let* d := ring_new 7 in
  Ok {| d_Smooth := a; d_Detrender := b; d_I1 := c; d_Q1 := d; d_I2 := ring2_new; d_Q2 := ring2_new;
        d_Re := ring2_new; d_Im := ring2_new; d_Period := ring2_new; d_SmoothPeriod := ring2_new |}.
(** step(...) of all of them: mama.cc:43, 273, 276, arsi.cc:41, 209 *)
Definition disc_step (s : disc) : disc :=
  {| d_Smooth := ring_step (d_Smooth s); d_Detrender := ring_step (d_Detrender s); d_I1 := ring_step (d_I1 s);
     d_Q1 := ring_step (d_Q1 s); d_I2 := ring2_step (d_I2 s); d_Q2 := ring2_step (d_Q2 s); d_Re := ring2_step (d_Re s);
     d_Im := ring2_step (d_Im s); d_Period := ring2_step (d_Period s); d_SmoothPeriod := ring2_step (d_SmoothPeriod s) |}.

(** The new period from the old one: [cur] is what the slot holds (its value two bars ago unless
    assigned at mama.cc:65), then mama.cc:66-70, 295-299, arsi.cc:62-66, 232-236 *)
Definition disc_clamp (cur last : T) : T :=
  let p := if cur .> lit 15 1 .* last then lit 15 1 .* last else cur in
  let p := if p .< lit 67 2 .* last then lit 67 2 .* last else p in
  let p := if p .< #6 then #6 else p in
  let p := if p .> #50 then #50 else p in
  lit 2 1 .* p .+ lit 8 1 .* last.

(** One bar, before step(): [smooth] is the value given to Smooth, [circle] is 360. (mama.cc:65) or
    2*PI (arsi.cc:61); mama.cc:44-71, 279-300, arsi.cc:42-67, 212-237.  Where the sources assign
    I2, Q2, Re and Im twice in a row the two assignments are written as one. *)
Definition disc_set (circle smooth : T) (s : disc) : res disc :=
  let* Smooth := ring_set (d_Smooth s) smooth in
  let* Period1 := ring2_get (d_Period s) 1 in
  let* v := hd_hilbert Smooth Period1 in
  let* Detrender := ring_set (d_Detrender s) v in
  let* v := hd_hilbert Detrender Period1 in
  let* Q1 := ring_set (d_Q1 s) v in
  let* v := ring_get Detrender 3 in
  let* I1 := ring_set (d_I1 s) v in
  let* jI := hd_hilbert I1 Period1 in
  let* jQ := hd_hilbert Q1 Period1 in
  let* i1 := ring_cur I1 in let* q1 := ring_cur Q1 in
  let* I2_1 := ring2_get (d_I2 s) 1 in let* Q2_1 := ring2_get (d_Q2 s) 1 in
  let I2 := ring2_set (d_I2 s) (lit 2 1 .* (i1 .- jQ) .+ lit 8 1 .* I2_1) in
  let Q2 := ring2_set (d_Q2 s) (lit 2 1 .* (q1 .+ jI) .+ lit 8 1 .* Q2_1) in
  let* Re_1 := ring2_get (d_Re s) 1 in let* Im_1 := ring2_get (d_Im s) 1 in
  let Re := ring2_set (d_Re s) (lit 2 1 .* (ring2_cur I2 .* I2_1 .+ ring2_cur Q2 .* Q2_1) .+ lit 8 1 .* Re_1) in
  let Im := ring2_set (d_Im s) (lit 2 1 .* (ring2_cur I2 .* Q2_1 .- ring2_cur Q2 .* I2_1) .+ lit 8 1 .* Im_1) in
  let cur := if (ring2_cur Im .!= #0) && (ring2_cur Re .!= #0)
             then circle ./ libm Latan (ring2_cur Im ./ ring2_cur Re) else ring2_cur (d_Period s) in
  let Period := ring2_set (d_Period s) (disc_clamp cur Period1) in
  let* sp1 := ring2_get (d_SmoothPeriod s) 1 in
  let SmoothPeriod := ring2_set (d_SmoothPeriod s) (lit 33 2 .* ring2_cur Period .+ lit 67 2 .* sp1) in
  Ok {| d_Smooth := Smooth; d_Detrender := Detrender; d_I1 := I1; d_Q1 := Q1; d_I2 := I2; d_Q2 := Q2; d_Re := Re; d_Im := Im;
        d_Period := Period; d_SmoothPeriod := SmoothPeriod |}.

(** mama.cc:44, 279, arsi.cc:42, 212 *)
Definition disc_smooth (p0 p1 p2 p3 : T) : T := (#4 .* p0 .+ #3 .* p1 .+ #2 .* p2 .+ p3) ./ #10.

(** ** mama *)
(** mama.cc:14-16 *)
Definition ti_mama_start : startfn := fun options =>
  match options with [_; _] => Ok 6 | _ => Ub BadArgs end.

(** !(0 <= x && x <= 1); mama.cc:26-27, 227-228 *)
Definition bad_limit (x : T) : bool := negb ((#0 .<= x) && (x .<= #1)).

(** Phase, alpha and the two averages after the discriminator; mama.cc:73-83, 302-312.
    State (phase, mama, fama), all stepped at the end. *)
Definition mama_out (fastlimit slowlimit price : T) (d : disc) (q : ring2 * ring2 * ring2) : res (ring2 * ring2 * ring2 * list (list T)) :=
  let '(phase, mama, fama) := q in
  let* i1 := ring_cur (d_I1 d) in let* q1 := ring_cur (d_Q1 d) in
  let phase := ring2_set phase (if i1 .!= #0 then libm Latan (q1 ./ i1) else #0) in
  let* phase1 := ring2_get phase 1 in
  let deltaphase := stdmax #1 (phase1 .- ring2_cur phase) in
  let alpha := stdmax slowlimit (fastlimit ./ deltaphase) in
  let* mama1 := ring2_get mama 1 in
  let mama := ring2_set mama (alpha .* price .+ (#1 .- alpha) .* mama1) in
  let* fama1 := ring2_get fama 1 in
  let fama := ring2_set fama (lit 5 1 .* alpha .* ring2_cur mama .+ (#1 .- lit 5 1 .* alpha) .* fama1) in
  Ok ((ring2_step phase, ring2_step mama, ring2_step fama), [[ring2_cur mama]; [ring2_cur fama]]).

(** mama.cc:18-89; the loop starts at 6 *)
Definition ti_mama : batchfn := fun size inputs options =>
  match inputs, options with
  | [series], [fastlimit; slowlimit] =>
    if bad_limit fastlimit then Ok (INVALID_OPTION, [[]; []]) else
    if bad_limit slowlimit then Ok (INVALID_OPTION, [[]; []]) else
    let* s := disc_init in
    batch_loops 2 size
    {| bounded := [(6, skip 2)];
       final := fun i '(d, q) =>
         let* p0 := rd series i in let* p1 := rd series (i - 1) in
         let* p2 := rd series (i - 2) in let* p3 := rd series (i - 3) in
         let* d := disc_set #360 (disc_smooth p0 p1 p2 p3) d in
         let* (q, out) := mama_out fastlimit slowlimit p0 d q in
         Ok ((disc_step d, q), out) |} (s, (ring2_new, ring2_new, ring2_new))
  | _, _ => Ub BadArgs
  end.

(** mama.cc:223-241; constants (fastlimit, slowlimit), state (discriminator, (phase, mama, fama), price) *)
Definition ti_mama_stream_new : newfn (stream ((T * T) * (disc * (ring2 * ring2 * ring2) * ring))) := fun options =>
  match options with
  | [fastlimit; slowlimit] =>
    if bad_limit fastlimit then Ok (INVALID_OPTION, None) else
    if bad_limit slowlimit then Ok (INVALID_OPTION, None) else
    let* start := ti_mama_start options in
    let* s := disc_init in
    let* price := ring_new 4 in
    Ok (OKAY, Some {| progress := - start; core := ((fastlimit, slowlimit), (s, (ring2_new, ring2_new, ring2_new), price)) |})
  | _ => Ub BadArgs
  end.

(** mama.cc:247-318; the first loop steps all buffers (273) though it sets only price *)
Definition mama_loops (k : T * T) (p : Z) (inputs : list (list T)) : loops (disc * (ring2 * ring2 * ring2) * ring) :=
  match inputs with
  | [series] =>
    let '(fastlimit, slowlimit) := k in
    {| bounded := [(0 - p, fun i '(d, q, price) =>
         let* x := rd series i in
         let* price := ring_set price x in
         let '(phase, mama, fama) := q in
         Ok ((disc_step d, (ring2_step phase, ring2_step mama, ring2_step fama), ring_step price), [[]; []]))];
       final := fun i '(d, q, price) =>
         let* x := rd series i in
         let* price := ring_set price x in
         let* p0 := ring_cur price in let* p1 := ring_get price 1 in let* p2 := ring_get price 2 in let* p3 := ring_get price 3 in
         let* d := disc_set #360 (disc_smooth p0 p1 p2 p3) d in
         let* (q, out) := mama_out fastlimit slowlimit p0 d q in
         Ok ((disc_step d, q, ring_step price), out) |}
  | _ => bad_loops
  end.
Definition ti_mama_stream_run := mkrun 2 mama_loops.

(** ** arsi *)
(** arsi.cc:15-19 *)
Definition ti_arsi_start : startfn := fun options =>
  match options with [_] => Ok 5 | _ => Ub BadArgs end.

(** arsi.cc:69-75, 239-245: [n] is (int)(cycpart * SmoothPeriod), [before] the number of earlier
    bars, [at_ k] the price k bars ago.  The conversion is evaluated before every turn with the
    same value, at least once. *)
Definition arsi_out (cycpart : T) (SmoothPeriod : T) (before : Z) (at_ : Z -> res T) : res T :=
  let* n := cast (cycpart .* SmoothPeriod) in
  let* (CU, CD) := for_ 0 (Z.min n before) (fun count '(CU, CD) =>
    let* a := at_ count in
    let* b := at_ (count + 1) in
    Ok (CU .+ stdmax #0 (a .- b), CD .+ (.- stdmin #0 (a .- b)))) (#0, #0) in
  Ok (if CU .+ CD .!= #0 then #100 .* CU ./ (CU .+ CD) else #0).

(** arsi.cc:23-79; the loop starts at 5 *)
Definition ti_arsi : batchfn := fun size inputs options =>
  match inputs, options with
  | [series], [cycpart] =>
    if cycpart .<= #0 then Ok (INVALID_OPTION, [[]]) else
    let* s := disc_init in
    batch_loops 1 size
    {| bounded := [(5, skip 1)];
       final := fun i d =>
         let* p0 := rd series i in let* p1 := rd series (i - 1) in
         let* p2 := rd series (i - 2) in let* p3 := rd series (i - 3) in
         let* d := disc_set (#2 .* PI) (disc_smooth p0 p1 p2 p3) d in
         let* y := arsi_out cycpart (ring2_cur (d_SmoothPeriod d)) i (fun k => rd series (i - k)) in
         Ok (disc_step d, [[y]]) |} s
  | _, _ => Ub BadArgs
  end.

(** arsi.cc:81-137: the same text as ti_arsi *)
Definition ti_arsi_ref : batchfn := ti_arsi.

(** arsi.cc:164-181; resize takes an int (ringbuf.hh:131), constant cycpart, state (discriminator, Price) *)
Definition ti_arsi_stream_new : newfn (stream (T * (disc * ring))) := fun options =>
  match options with
  | [cycpart] =>
    if cycpart .<= #0 then Ok (INVALID_OPTION, None) else
    let* start := ti_arsi_start options in
    let* n := cast (cycpart .* #50 .+ #1) in
    let* Price := ring_new n in
    let* s := disc_init in
    Ok (OKAY, Some {| progress := - start; core := (cycpart, (s, Price)) |})
  | _ => Ub BadArgs
  end.

(** arsi.cc:187-251 *)
Definition arsi_loops (cycpart : T) (p : Z) (inputs : list (list T)) : loops (disc * ring) :=
  match inputs with
  | [series] =>
    {| bounded := [(0 - p, fun i '(d, Price) =>
         let* x := rd series i in
         let* Price := ring_set Price x in
         Ok ((d, ring_step Price), [[]]))];
       final := fun i '(d, Price) =>
         let* x := rd series i in
         let* Price := ring_set Price x in
         let* p0 := ring_cur Price in let* p1 := ring_get Price 1 in let* p2 := ring_get Price 2 in let* p3 := ring_get Price 3 in
         let* d := disc_set (#2 .* PI) (disc_smooth p0 p1 p2 p3) d in
         let* y := arsi_out cycpart (ring2_cur (d_SmoothPeriod d)) (p + i + 5) (ring_get Price) in
         Ok ((disc_step d, ring_step Price), [[y]]) |}
  | _ => bad_loops
  end.
Definition ti_arsi_stream_run := mkrun 1 arsi_loops.

(** ** mesastoch *)
(** mesastoch.cc:16-21; both options are converted *)
Definition ti_mesastoch_start : startfn := fun options =>
  match options with
  | [o0; o1] => let* period := cast o0 in let* _ := cast o1 in ck (period + 2)
  | _ => Ub BadArgs
  end.

(** DEG2RAD, mesastoch.cc:27 *)
Definition deg2rad (x : T) : T := x .* lit 3141592 6 ./ #180.
(** alpha1, c1, c2, c3; mesastoch.cc:48-53 and 220-225 *)
Definition mesa_consts (mcc : Z) : T * T * T * T :=
  let d := deg2rad (lit 707 3 .* #360 ./ #mcc) in
  let alpha1 := (libm Lcos d .+ libm Lsin d .- #1) ./ libm Lcos d in
  let a1 := libm Lexp ((.- lit 1414 3) .* lit 3141459 6 ./ #10) in
  let b1 := #2 .* a1 .* libm Lcos (deg2rad (lit 1414 3 .* #180 ./ #10)) in
  let c2 := b1 in
  let c3 := (.- a1) .* a1 in
  let c1 := #1 .- c2 .- c3 in
  (alpha1, c1, c2, c3).

(** The high-pass filter from the last three prices and its last two values; mesastoch.cc:57-58,
    72-73, 273-274, 290-291 *)
Definition mesa_hp (k : T * T * T * T) (p0 p1 p2 hp1 hp2 : T) : T :=
  let '(alpha1, c1, c2, c3) := k in
  (#1 .- alpha1 ./ #2) .* (#1 .- alpha1 ./ #2) .* (p0 .- #2 .* p1 .+ p2)
  .+ #2 .* (#1 .- alpha1) .* hp1 .- (#1 .- alpha1) .* (#1 .- alpha1) .* hp2.
(** c1 * (x + x[1]) / 2. + c2 * y[1] + c3 * y[2]; mesastoch.cc:59, 74, 94, 276, 294, 314 *)
Definition mesa_super (k : T * T * T * T) (x x1 y1 y2 : T) : T :=
  let '(alpha1, c1, c2, c3) := k in
  c1 .* (x .+ x1) ./ #2 .+ c2 .* y1 .+ c3 .* y2.

(** Both filters on their ring buffers, not yet stepped; mesastoch.cc:57-59, 72-74, 273-276, 290-294 *)
Definition mesa_filter (k : T * T * T * T) (p0 p1 p2 : T) (HP filt : ring) : res (ring * ring) :=
  let* hp1 := ring_get HP 1 in let* hp2 := ring_get HP 2 in
  let* HP := ring_set HP (mesa_hp k p0 p1 p2 hp1 hp2) in
  let* hp := ring_cur HP in let* hp1 := ring_get HP 1 in
  let* f1 := ring_get filt 1 in let* f2 := ring_get filt 2 in
  let* filt := ring_set filt (mesa_super k hp hp1 f1 f2) in
  Ok (HP, filt).

(** highestC and its bar: taken when [highestC <= filt], else looked up again when its bar is
    [period] bars back; mesastoch.cc:76-91, 296-311 *)
Definition mesa_next (dom : T -> T -> bool) (rescan : res trk) (x : T) (now period : Z) (s : trk) : res trk :=
  if dom (fst s) x then Ok (x, now) else if snd s =? now - period then rescan else Ok s.

(** stoc and result; mesastoch.cc:93-96, 313-316 *)
Definition mesa_out (k : T * T * T * T) (f hi lo : T) (stoc : ring2) (result : ring) : res (ring2 * ring) :=
  let stoc := ring2_set stoc (if truth (f .- lo) then (f .- lo) ./ (hi .- lo) else #0) in
  let* s1 := ring2_get stoc 1 in
  let* r1 := ring_get result 1 in let* r2 := ring_get result 2 in
  let* result := ring_set result (mesa_super k (ring2_cur stoc) s1 r1 r2) in
  Ok (stoc, result).

(** An extreme whose bar is not initialised until it is first taken; mesastoch.cc:38-41, 61-68 *)
Definition mesa_push (dom : T -> T -> bool) (x : T) (now : Z) (s : T * option Z) : T * option Z :=
  if dom (fst s) x then (x, Some now) else s.
(** The bar is read only when the comparison fails; mesastoch.cc:76-91 *)
Definition mesa_next_opt (dom : T -> T -> bool) (rescan : res trk) (x : T) (now period : Z) (s : T * option Z) : res (T * option Z) :=
  if dom (fst s) x then Ok (x, Some now) else
  let* k := val (snd s) in
  let* r := (if k =? now - period then rescan else Ok (fst s, k)) in
  Ok (fst r, Some (snd r)).

(** mesastoch.cc:29-102; state (highestC, lowestC, filt, HP, stoc, result).  The loops start at 2. *)
Definition ti_mesastoch : batchfn := fun size inputs options =>
  match inputs, options with
  | [series], [o0; o1] =>
    let* period := cast o0 in
    let* mcc := cast o1 in
    if period <? 1 then Ok (INVALID_OPTION, [[]]) else
    if mcc <? 1 then Ok (INVALID_OPTION, [[]]) else
    let* filt := ring_new period in
    let* HP := ring_new 3 in
    let* result := ring_new 3 in
    let k := mesa_consts mcc in
    let* start := ti_mesastoch_start options in
    batch_loops 1 size
    {| bounded := [(2, skip 1);
         (start, fun i '(hi, lo, filt, HP, stoc, result) =>
         let* p0 := rd series i in let* p1 := rd series (i - 1) in let* p2 := rd series (i - 2) in
         let* (HP, filt) := mesa_filter k p0 p1 p2 HP filt in
         let* f := ring_cur filt in
         Ok ((mesa_push le_f f i hi, mesa_push ge_f f i lo, ring_step filt, ring_step HP, stoc, result), [[]]))];
       final := fun i '(hi, lo, filt, HP, stoc, result) =>
         let* p0 := rd series i in let* p1 := rd series (i - 1) in let* p2 := rd series (i - 2) in
         let* (HP, filt) := mesa_filter k p0 p1 p2 HP filt in
         let* f := ring_cur filt in
         let* hi := mesa_next_opt le_f (rescan_phys lessf filt i) f i period hi in
         let* lo := mesa_next_opt ge_f (rescan_phys moref filt i) f i period lo in
         let* (stoc, result) := mesa_out k f (fst hi) (fst lo) stoc result in
         let* y := ring_cur result in
         Ok ((hi, lo, ring_step filt, ring_step HP, ring2_step stoc, ring_step result), [[y]]) |}
      ((.- finf, None), (finf, None), filt, HP, ring2_new, result)
  | _, _ => Ub BadArgs
  end.

(** mesastoch.cc:203-235; constants (period, (alpha1, c1, c2, c3)), state (highestC, lowestC, filt, HP,
    stoc, result, price).  The two bar numbers are doubles inside a run and ints between runs
    (181-182, 257-258, 322-323); they hold integers, kept here as such. *)
Definition mesa_state : Type := trk * trk * ring * ring * ring2 * ring * ring.
Definition ti_mesastoch_stream_new : newfn (stream ((Z * (T * T * T * T)) * mesa_state)) := fun options =>
  match options with
  | [o0; o1] =>
    let* period := cast o0 in
    let* mcc := cast o1 in
    if period <? 1 then Ok (INVALID_OPTION, None) else
    if mcc <? 1 then Ok (INVALID_OPTION, None) else
    let* start := ti_mesastoch_start options in
    let* filt := ring_new period in
    let* HP := ring_new 3 in
    let* result := ring_new 3 in
    let* price := ring_new 3 in
    Ok (OKAY, Some {| progress := - start;
      core := ((period, mesa_consts mcc), ((.- finf, 0), (finf, 0), filt, HP, ring2_new, result, price)) |})
  | _ => Ub BadArgs
  end.

(** mesastoch.cc:241-326 *)
Definition mesastoch_loops (k : Z * (T * T * T * T)) (p : Z) (inputs : list (list T)) : loops mesa_state :=
  match inputs with
  | [series] =>
    let '(period, k) := k in
    {| bounded := [(- period - p, fun i '(hi, lo, filt, HP, stoc, result, price) =>
         let* x := rd series i in
         let* price := ring_set price x in
         Ok ((hi, lo, filt, HP, stoc, result, ring_step price), [[]]));
         (0 - p, fun i '(hi, lo, filt, HP, stoc, result, price) =>
         let* x := rd series i in
         let* price := ring_set price x in
         let* p1 := ring_get price 1 in let* p2 := ring_get price 2 in
         let* (HP, filt) := mesa_filter k x p1 p2 HP filt in
         let* f := ring_cur filt in
         Ok ((trk_push le_f f (p + i) hi, trk_push ge_f f (p + i) lo, ring_step filt, ring_step HP, stoc, result, ring_step price), [[]]))];
       final := fun i '(hi, lo, filt, HP, stoc, result, price) =>
         let* x := rd series i in
         let* price := ring_set price x in
         let* p1 := ring_get price 1 in let* p2 := ring_get price 2 in
         let* (HP, filt) := mesa_filter k x p1 p2 HP filt in
         let* f := ring_cur filt in
         let* hi := mesa_next le_f (rescan_ring lessf filt period (p + i)) f (p + i) period hi in
         let* lo := mesa_next ge_f (rescan_ring moref filt period (p + i)) f (p + i) period lo in
         let* (stoc, result) := mesa_out k f (fst hi) (fst lo) stoc result in
         let* y := ring_cur result in
         Ok ((hi, lo, ring_step filt, ring_step HP, ring2_step stoc, ring_step result, ring_step price), [[y]]) |}
  | _ => bad_loops
  end.
Definition ti_mesastoch_stream_run := mkrun 1 mesastoch_loops.
End M.

(** Models: the reference implementations of hd, mama and mesastoch. *)
From Verif Require Export M_stream2 M_stream5 M_stream7.
Section M.
Context {A : Arith}.

(** ** hd *)
(** hd.cc:102-131: the text of hd.cc:43-73 with jI and jQ held in ringbuf<1> *)
Definition hd_ref_main (series : list T) : body (hd_state * ring * ring) := fun i '(s, jI, jQ) =>
  let* x := rd series i in
  let* Price := ring_set (hd_Price s) x in
  let* p0 := ring_cur Price in let* p1 := ring_get Price 1 in let* p2 := ring_get Price 2 in let* p3 := ring_get Price 3 in
  let* Smooth := ring_set (hd_Smooth s) ((#4 .* p0 .+ #3 .* p1 .+ #2 .* p2 .+ p3) ./ #10) in
  let* Period1 := ring2_get (hd_Period s) 1 in
  let* v := hd_hilbert Smooth Period1 in
  let* Detrender := ring_set (hd_Detrender s) v in
  let* v := hd_hilbert Detrender Period1 in
  let* Q1 := ring_set (hd_Q1 s) v in
  let* v := ring_get Detrender 3 in
  let* I1 := ring_set (hd_I1 s) v in
  let* v := hd_hilbert I1 Period1 in
  let* jI := ring_set jI v in
  let* v := hd_hilbert Q1 Period1 in
  let* jQ := ring_set jQ v in
  let* i1 := ring_cur I1 in let* jq := ring_cur jQ in
  let I2 := ring2_set (hd_I2 s) (i1 .- jq) in
  let* q1 := ring_cur Q1 in let* ji := ring_cur jI in
  let Q2 := ring2_set (hd_Q2 s) (q1 .+ ji) in
  let* I2_1 := ring2_get I2 1 in let* Q2_1 := ring2_get Q2 1 in
  let I2 := ring2_set I2 (lit 2 1 .* ring2_cur I2 .+ lit 8 1 .* I2_1) in
  let Q2 := ring2_set Q2 (lit 2 1 .* ring2_cur Q2 .+ lit 8 1 .* Q2_1) in
  let Re := ring2_set (hd_Re s) (ring2_cur I2 .* I2_1 .+ ring2_cur Q2 .* Q2_1) in
  let Im := ring2_set (hd_Im s) (ring2_cur I2 .* Q2_1 .- ring2_cur Q2 .* I2_1) in
  let* Re_1 := ring2_get Re 1 in let* Im_1 := ring2_get Im 1 in
  let Re := ring2_set Re (lit 2 1 .* ring2_cur Re .+ lit 8 1 .* Re_1) in
  let Im := ring2_set Im (lit 2 1 .* ring2_cur Im .+ lit 8 1 .* Im_1) in
  let Period := hd_Period s in
  let Period := if (ring2_cur Im .!= #0) && (ring2_cur Re .!= #0)
                then ring2_set Period (#2 .* PI ./ libm Latan (ring2_cur Im ./ ring2_cur Re)) else Period in
  let Period := ring2_set Period (stdmin (ring2_cur Period) (lit 15 1 .* Period1)) in
  let Period := ring2_set Period (stdmax (ring2_cur Period) (lit 67 2 .* Period1)) in
  let Period := ring2_set Period (stdmax (ring2_cur Period) #6) in
  let Period := ring2_set Period (stdmin (ring2_cur Period) #50) in
  let Period := ring2_set Period (lit 2 1 .* ring2_cur Period .+ lit 8 1 .* Period1) in
  let* sp1 := ring2_get (hd_SmoothPeriod s) 1 in
  let SmoothPeriod := ring2_set (hd_SmoothPeriod s) (lit 33 2 .* ring2_cur Period .+ lit 67 2 .* sp1) in
  Ok (({| hd_Smooth := ring_step Smooth; hd_Detrender := ring_step Detrender; hd_I1 := ring_step I1; hd_Q1 := ring_step Q1;
         hd_I2 := ring2_step I2; hd_Q2 := ring2_step Q2; hd_Re := ring2_step Re; hd_Im := ring2_step Im;
         hd_Period := ring2_step Period; hd_SmoothPeriod := ring2_step SmoothPeriod; hd_Price := ring_step Price |}, ring_step jI, ring_step jQ),
      [[ring2_cur SmoothPeriod]]).
(** hd.cc:98-100 *)
Definition hd_ref_warm (series : list T) : body (hd_state * ring * ring) := fun i '(s, jI, jQ) =>
  let* (s, out) := hd_warm series i s in Ok ((s, jI, jQ), out).
(** hd.cc:79-136 *)
Definition ti_hd_ref : batchfn := fun size inputs options =>
  match inputs, options with
  | [series], [] =>
    let* s := hd_init in let* jI := ring_new 1 in let* jQ := ring_new 1 in
    batch_loops 1 size {| bounded := [(5, hd_ref_warm series)]; final := hd_ref_main series |} (s, jI, jQ)
  | _, _ => Ub BadArgs
  end.

(** ** mama *)
(** The calloc'ed arrays of mama.cc:108-122 that are read again: each as the list of its first [i]
    elements, to which bar [i] appends.  jI, jQ, deltaphase and alpha are read only in the bar that
    writes them; elements above [i] are never read. *)
Record mama_arrays := { m_smooth : list T; m_detrender : list T; m_I1 : list T; m_Q1 : list T; m_I2 : list T; m_Q2 : list T;
  m_Re : list T; m_Im : list T; m_period : list T; m_smoothperiod : list T; m_phase : list T }.
(** (.0962*X[i] + .5769*X[i-2] - .5769*X[i-4] - .0962*X[i-6]) * (.075*period[i-1] + .54), mama.cc:126-132 *)
Definition mama_hilbert (X : list T) (i : Z) (period1 : T) : res T :=
  let* a := rd X i in let* b := rd X (i - 2) in let* c := rd X (i - 4) in let* d := rd X (i - 6) in
  Ok ((lit 962 4 .* a .+ lit 5769 4 .* b .- lit 5769 4 .* c .- lit 962 4 .* d) .* (lit 75 3 .* period1 .+ lit 54 2)).
(** mama.cc:91-192; the outputs hold [i - 6] elements at bar [i].  period[i] is 0, as calloc left it,
    where the test at 146 fails. *)
Definition mama_ref_step (fastlimit slowlimit : T) (price : list T) (i : Z) (st : mama_arrays * list T * list T) : res (mama_arrays * list T * list T) :=
  let '(s, mama, fama) := st in
  let* p0 := rd price i in let* p1 := rd price (i - 1) in let* p2 := rd price (i - 2) in let* p3 := rd price (i - 3) in
  let smooth := m_smooth s ++ [(#4 .* p0 .+ #3 .* p1 .+ #2 .* p2 .+ p3) ./ #10] in
  let* period1 := rd (m_period s) (i - 1) in
  let* v := mama_hilbert smooth i period1 in
  let detrender := m_detrender s ++ [v] in
  let* v := mama_hilbert detrender i period1 in
  let Q1 := m_Q1 s ++ [v] in
  let* v := rd detrender (i - 3) in
  let I1 := m_I1 s ++ [v] in
  let* jI := mama_hilbert I1 i period1 in
  let* jQ := mama_hilbert Q1 i period1 in
  let* i1 := rd I1 i in
  let* q1 := rd Q1 i in
  let* I2_1 := rd (m_I2 s) (i - 1) in let* Q2_1 := rd (m_Q2 s) (i - 1) in
  let i2 := lit 2 1 .* (i1 .- jQ) .+ lit 8 1 .* I2_1 in
  let q2 := lit 2 1 .* (q1 .+ jI) .+ lit 8 1 .* Q2_1 in
  let* Re_1 := rd (m_Re s) (i - 1) in let* Im_1 := rd (m_Im s) (i - 1) in
  let re := lit 2 1 .* (i2 .* I2_1 .+ q2 .* Q2_1) .+ lit 8 1 .* Re_1 in
  let im := lit 2 1 .* (i2 .* Q2_1 .- q2 .* I2_1) .+ lit 8 1 .* Im_1 in
  let p := if (im .!= #0) && (re .!= #0) then #360 ./ libm Latan (im ./ re) else #0 in
  let p := if p .> lit 15 1 .* period1 then lit 15 1 .* period1 else p in
  let p := if p .< lit 67 2 .* period1 then lit 67 2 .* period1 else p in
  let p := if p .< #6 then #6 else p in
  let p := if p .> #50 then #50 else p in
  let p := lit 2 1 .* p .+ lit 8 1 .* period1 in
  let* sp1 := rd (m_smoothperiod s) (i - 1) in
  let sp := lit 33 2 .* p .+ lit 67 2 .* sp1 in
  let ph := if i1 .!= #0 then libm Latan (q1 ./ i1) else #0 in
  let* ph1 := rd (m_phase s) (i - 1) in
  let deltaphase := ph1 .- ph in
  let deltaphase := if deltaphase .< #1 then #1 else deltaphase in
  let alpha := fastlimit ./ deltaphase in
  let alpha := if alpha .< slowlimit then slowlimit else alpha in
  let* mama1 := (if 6 <? i then rd mama (i - 7) else Ok #0) in
  let m := alpha .* p0 .+ (#1 .- alpha) .* mama1 in
  let* fama1 := (if 6 <? i then rd fama (i - 7) else Ok #0) in
  let f := lit 5 1 .* alpha .* m .+ (#1 .- lit 5 1 .* alpha) .* fama1 in
  Ok ({| m_smooth := smooth; m_detrender := detrender; m_I1 := I1; m_Q1 := Q1; m_I2 := m_I2 s ++ [i2]; m_Q2 := m_Q2 s ++ [q2];
         m_Re := m_Re s ++ [re]; m_Im := m_Im s ++ [im]; m_period := m_period s ++ [p]; m_smoothperiod := m_smoothperiod s ++ [sp];
         m_phase := m_phase s ++ [ph] |}, mama ++ [m], fama ++ [f]).
Definition ti_mama_ref : batchfn := fun size inputs options =>
  match inputs, options with
  | [series], [fastlimit; slowlimit] =>
    if (fastlimit .< #0) || (fastlimit .> #1) then Ok (INVALID_OPTION, [[]; []]) else
    if (slowlimit .< #0) || (slowlimit .> #1) then Ok (INVALID_OPTION, [[]; []]) else
    let z := repeat #0 6 in
    let* r := for_ 6 size (mama_ref_step fastlimit slowlimit series)
      ({| m_smooth := z; m_detrender := z; m_I1 := z; m_Q1 := z; m_I2 := z; m_Q2 := z; m_Re := z; m_Im := z; m_period := z;
          m_smoothperiod := z; m_phase := z |}, [], []) in
    let '(_, mama, fama) := r in
    Ok (OKAY, [mama; fama])
  | _, _ => Ub BadArgs
  end.

(** ** mesastoch *)
(** A deque is a list with its front first.  pop_back(), push_front(0): mesastoch.cc:129-132, 147-150 *)
Definition deque_shift (d : list T) : list T := #0 :: removelast d.
(** HP[0] and filt[0]: mesastoch.cc:134-142, 152-160.  The constants are computed again for each bar
    by the same expressions. *)
Definition mesa_ref_filter (k : T * T * T * T) (series : list T) (i : Z) (filt HP : list T) : res (list T * list T) :=
  let filt := deque_shift filt in
  let HP := deque_shift HP in
  let* p0 := rd series i in let* p1 := rd series (i - 1) in let* p2 := rd series (i - 2) in
  let* hp1 := rd HP 1 in let* hp2 := rd HP 2 in
  let* HP := upd HP 0 (mesa_hp k p0 p1 p2 hp1 hp2) in
  let* hp := rd HP 0 in let* hp1 := rd HP 1 in
  let* f1 := rd filt 1 in let* f2 := rd filt 2 in
  let* filt := upd filt 0 (mesa_super k hp hp1 f1 f2) in
  Ok (filt, HP).
(** mesastoch.cc:104-171.  The first loop (128) does not stop at [size]. *)
Definition ti_mesastoch_ref : batchfn := fun size inputs options =>
  match inputs, options with
  | [series], [o0; o1] =>
    let* period := cast o0 in
    let* mcc := cast o1 in
    if period <? 1 then Ok (INVALID_OPTION, [[]]) else
    if mcc <? 1 then Ok (INVALID_OPTION, [[]]) else
    let k := mesa_consts mcc in
    let* start := ti_mesastoch_start options in
    let* r := for_ 2 start (fun i '(filt, HP, stoc, result) =>
      let* (filt, HP) := mesa_ref_filter k series i filt HP in
      Ok (filt, HP, deque_shift stoc, deque_shift result))
      (repeat #0 (Z.to_nat period), repeat #0 3, repeat #0 2, repeat #0 3) in
    let* r := for_ (Z.max 2 start) size (fun i '(filt, HP, stoc, result, out) =>
      let stoc := deque_shift stoc in
      let result := deque_shift result in
      let* (filt, HP) := mesa_ref_filter k series i filt HP in
      let* a := max_elem lessf filt 0 (zlen filt) in
      let* highestC := rd filt a in
      let* b := max_elem moref filt 0 (zlen filt) in
      let* lowestC := rd filt b in
      let* f := rd filt 0 in
      let* stoc := upd stoc 0 ((f .- lowestC) ./ (highestC .- lowestC)) in
      let* s0 := rd stoc 0 in let* s1 := rd stoc 1 in
      let* r1 := rd result 1 in let* r2 := rd result 2 in
      let y := mesa_super k s0 s1 r1 r2 in
      let* result := upd result 0 y in
      Ok (filt, HP, stoc, result, out ++ [y])) (r, []) in
    let '(_, out) := r in
    Ok (OKAY, [out])
  | _, _ => Ub BadArgs
  end.
End M.

(** Models: filters with a stream (recursive filters without warm-up windows).

    Members of a stream object that the constructor leaves alone are zero: every
    stream_new uses [new(std::nothrow) X()], which zero-initialises.  Allocation
    failure (TI_OUT_OF_MEMORY) is not modelled. *)
From Verif Require Export Ring Stream.
Section M.
Context {A : Arith}.

(** A local that may be read before it was assigned. *)
Definition val {X} (o : option X) : res X := match o with Some x => Ok x | None => Ub Uninit end.

(** A batch function made of consecutive loops. *)
Definition batch_loops {S} (nout : nat) (size : Z) (l : loops S) (s : S) : res (code * list (list T)) :=
  let* (_, o) := run_loops nout size l s in Ok (OKAY, o).

(** Table entries with six decimals. *)
Definition micro (l : list Z) : list T := map (fun m => lit m 6) l.

(** ** ssmooth *)
(** ssmooth.cc:14-16 *)
Definition ti_ssmooth_start : startfn := fun options =>
  match options with [] => Ok 0 | _ => Ub BadArgs end.

(** ssmooth.cc:26-30 and 59-63: (c1, c2, c3) *)
Definition ssmooth_constants : T * T * T :=
  let a1 := libm Lexp (.- (lit 1414 3) .* lit 314159 5 ./ #10) in
  let b1 := #2 .* a1 .* libm Lcos (lit 1414 3 .* lit 314159 5 ./ #10) in
  let c2 := b1 in
  let c3 := .- a1 .* a1 in
  let c1 := #1 .- c2 .- c3 in
  (c1, c2, c3).

(** ssmooth.cc:18-44 *)
Definition ti_ssmooth : batchfn := fun size inputs options =>
  match inputs, options with
  | [series], [] =>
    let '(c1, c2, c3) := ssmooth_constants in
    batch_loops 1 size {| bounded := []; final := fun i '(price1, filt1, filt2) =>
      let* price := rd series i in
      let filt := c1 .* (price .+ price1) ./ #2 .+ c2 .* filt1 .+ c3 .* filt2 in
      Ok ((price, filt, filt1), [[filt]]) |} (#0, #0, #0)
  | _, _ => Ub BadArgs
  end.

(** ssmooth.cc:46-76 *)
Definition ti_ssmooth_stream_new : newfn (stream ((T * T * T) * (T * T * T))) := fun options =>
  match options with
  | [] => let* start := ti_ssmooth_start options in
          Ok (OKAY, Some {| progress := - start; core := (ssmooth_constants, (#0, #0, #0)) |})
  | _ => Ub BadArgs
  end.

(** ssmooth.cc:82-115 *)
Definition ssmooth_loops (k : T * T * T) (p : Z) (inputs : list (list T)) : loops (T * T * T) :=
  match inputs with
  | [series] =>
    let '(c1, c2, c3) := k in
    {| bounded := []; final := fun i '(price1, filt1, filt2) =>
      let* price := rd series i in
      let filt := c1 .* (price .+ price1) ./ #2 .+ c2 .* filt1 .+ c3 .* filt2 in
      Ok ((price, filt, filt1), [[filt]]) |}
  | _ => bad_loops
  end.
Definition ti_ssmooth_stream_run := mkrun 1 ssmooth_loops.

(** ** roof *)
(** roof.cc:13-15 *)
Definition ti_roof_start : startfn := fun options =>
  match options with [] => Ok 0 | _ => Ub BadArgs end.

(** roof.cc:29-34 and 67-72: (alpha1, c1, c2, c3) *)
Definition roof_constants : T * T * T * T :=
  let w := lit 707 3 .* #2 .* lit 314159 5 ./ #48 in
  let alpha1 := (libm Lcos w .+ libm Lsin w .- #1) ./ libm Lcos w in
  let a1 := libm Lexp (.- (lit 1414 3) .* lit 314159 5 ./ #10) in
  let b1 := #2 .* a1 .* libm Lcos (lit 1414 3 .* lit 314159 5 ./ #10) in
  let c2 := b1 in
  let c3 := .- a1 .* a1 in
  let c1 := #1 .- c2 .- c3 in
  (alpha1, c1, c2, c3).

(** roof.cc:17-49 *)
Definition ti_roof : batchfn := fun size inputs options =>
  match inputs, options with
  | [series], [] =>
    let '(alpha1, c1, c2, c3) := roof_constants in
    batch_loops 1 size {| bounded := []; final := fun i '(price1, price2, HP1, HP2, filt1, filt2) =>
      let* price := rd series i in
      let HP := (#1 .- alpha1 ./ #2) .* (#1 .- alpha1 ./ #2) .* (price .- #2 .* price1 .+ price2)
                .+ #2 .* (#1 .- alpha1) .* HP1 .- (#1 .- alpha1) .* (#1 .- alpha1) .* HP2 in
      let filt := c1 .* (HP .+ HP1) ./ #2 .+ c2 .* filt1 .+ c3 .* filt2 in
      Ok ((price, price1, HP, HP1, filt, filt1), [[filt]]) |} (#0, #0, #0, #0, #0, #0)
  | _, _ => Ub BadArgs
  end.

(** roof.cc:51-85 *)
Definition ti_roof_stream_new : newfn (stream ((T * T * T * T) * (T * T * T * T * T * T))) := fun options =>
  match options with
  | [] => let* start := ti_roof_start options in
          Ok (OKAY, Some {| progress := - start; core := (roof_constants, (#0, #0, #0, #0, #0, #0)) |})
  | _ => Ub BadArgs
  end.

(** roof.cc:91-133 *)
Definition roof_loops (k : T * T * T * T) (p : Z) (inputs : list (list T)) : loops (T * T * T * T * T * T) :=
  match inputs with
  | [series] =>
    let '(alpha1, c1, c2, c3) := k in
    {| bounded := []; final := fun i '(price1, price2, HP1, HP2, filt1, filt2) =>
      let* price := rd series i in
      let HP := (#1 .- alpha1 ./ #2) .* (#1 .- alpha1 ./ #2) .* (price .- #2 .* price1 .+ price2)
                .+ #2 .* (#1 .- alpha1) .* HP1 .- (#1 .- alpha1) .* (#1 .- alpha1) .* HP2 in
      let filt := c1 .* (HP .+ HP1) ./ #2 .+ c2 .* filt1 .+ c3 .* filt2 in
      Ok ((price, price1, HP, HP1, filt, filt1), [[filt]]) |}
  | _ => bad_loops
  end.
Definition ti_roof_stream_run := mkrun 1 roof_loops.

(** ** lf *)
(** lf.cc:13-17 *)
Definition ti_lf_start : startfn := fun options =>
  match options with [_] => Ok 0 | _ => Ub BadArgs end.

(** lf.cc:19-47 *)
Definition ti_lf : batchfn := fun size inputs options =>
  match inputs, options with
  | [series], [gamma] =>
    if gamma .< #0 then Ok (INVALID_OPTION, [[]]) else
    batch_loops 1 size {| bounded := []; final := fun i '(L0, L1, L2, L3) =>
      let* x := rd series i in
      let L0_new := (#1 .- gamma) .* x .+ gamma .* L0 in
      let L1_new := .- gamma .* L0_new .+ L0 .+ gamma .* L1 in
      let L2_new := .- gamma .* L1_new .+ L1 .+ gamma .* L2 in
      let L3_new := .- gamma .* L2_new .+ L2 .+ gamma .* L3 in
      Ok ((L0_new, L1_new, L2_new, L3_new),
          [[(L0_new .+ #2 .* L1_new .+ #2 .* L2_new .+ L3_new) ./ #6]]) |} (#0, #0, #0, #0)
  | _, _ => Ub BadArgs
  end.

(** lf.cc:49-82 *)
Definition ti_lf_stream_new : newfn (stream (T * (T * T * T * T))) := fun options =>
  match options with
  | [gamma] =>
    if gamma .< #0 then Ok (INVALID_OPTION, None) else
    let* start := ti_lf_start options in
    Ok (OKAY, Some {| progress := - start; core := (gamma, (#0, #0, #0, #0)) |})
  | _ => Ub BadArgs
  end.

(** lf.cc:88-122 *)
Definition lf_loops (gamma : T) (p : Z) (inputs : list (list T)) : loops (T * T * T * T) :=
  match inputs with
  | [series] =>
    {| bounded := []; final := fun i '(L0, L1, L2, L3) =>
      let* x := rd series i in
      let L0_new := (#1 .- gamma) .* x .+ gamma .* L0 in
      let L1_new := .- gamma .* L0_new .+ L0 .+ gamma .* L1 in
      let L2_new := .- gamma .* L1_new .+ L1 .+ gamma .* L2 in
      let L3_new := .- gamma .* L2_new .+ L2 .+ gamma .* L3 in
      Ok ((L0_new, L1_new, L2_new, L3_new),
          [[(L0_new .+ #2 .* L1_new .+ #2 .* L2_new .+ L3_new) ./ #6]]) |}
  | _ => bad_loops
  end.
Definition ti_lf_stream_run := mkrun 1 lf_loops.

(** ** mgdyn *)
(** mgdyn.cc:14-16 *)
Definition ti_mgdyn_start : startfn := fun options =>
  match options with [_] => Ok 0 | _ => Ub BadArgs end.

(** mgdyn.cc:18-37; [filt] is uninitialised before the first loop *)
Definition ti_mgdyn : batchfn := fun size inputs options =>
  match inputs, options with
  | [series], [N] =>
    batch_loops 1 size
    {| bounded := [(1, fun i filt =>
         let* x := rd series i in
         Ok (Some x, [[x]]))];
       final := fun i filt =>
         let* x := rd series i in
         let* filt := val filt in
         let filt := filt .+ (x .- filt) ./ (N .* fpow (x ./ filt) #4) in
         Ok (Some filt, [[filt]]) |} None
  | _, _ => Ub BadArgs
  end.

(** mgdyn.cc:39-58 *)
Definition ti_mgdyn_ref : batchfn := fun size inputs options =>
  match inputs, options with
  | [series], [N] =>
    batch_loops 1 size
    {| bounded := [(1, fun i filt =>
         let* x := rd series i in
         Ok (Some x, [[x]]))];
       final := fun i filt =>
         let* x := rd series i in
         let* filt := val filt in
         let filt := filt .+ (x .- filt) ./ (N .* fpow (x ./ filt) #4) in
         Ok (Some filt, [[filt]]) |} None
  | _, _ => Ub BadArgs
  end.

(** mgdyn.cc:60-90 *)
Definition ti_mgdyn_stream_new : newfn (stream (T * T)) := fun options =>
  match options with
  | [N] =>
    let* start := ti_mgdyn_start options in
    Ok (OKAY, Some {| progress := - start; core := (N, #0) |})
  | _ => Ub BadArgs
  end.

(** mgdyn.cc:96-118 *)
Definition mgdyn_loops (N : T) (p : Z) (inputs : list (list T)) : loops T :=
  match inputs with
  | [series] =>
    {| bounded := [(1 - p, fun i filt =>
         let* x := rd series i in
         Ok (x, [[x]]))];
       final := fun i filt =>
         let* x := rd series i in
         let filt := filt .+ (x .- filt) ./ (N .* fpow (x ./ filt) #4) in
         Ok (filt, [[filt]]) |}
  | _ => bad_loops
  end.
Definition ti_mgdyn_stream_run := mkrun 1 mgdyn_loops.

(** ** rema *)
(** rema.cc:14-19 *)
Definition ti_rema_start : startfn := fun options =>
  match options with [_; _] => Ok 0 | _ => Ub BadArgs end.

(** rema.cc:21-52; [i == 0] and [i == 1] as bounds 1 and 2 *)
Definition ti_rema : batchfn := fun size inputs options =>
  match inputs, options with
  | [series], [period; lambda] =>
    if period .< #1 then Ok (INVALID_OPTION, [[]]) else
    if lambda .< #0 then Ok (INVALID_OPTION, [[]]) else
    let alpha := #2 ./ (#1 .+ period) in
    batch_loops 1 size
    {| bounded := [
         (1, fun i '(rema_val, rema_val1) =>
           let* x := rd series i in
           Ok ((Some x, rema_val1), [[x]]));
         (2, fun i '(rema_val, rema_val1) =>
           let* x := rd series i in
           let* v := val rema_val in
           let r := (x .- v) .* alpha .+ v in
           Ok ((Some r, Some v), [[r]]))];
       final := fun i '(rema_val, rema_val1) =>
         let* x := rd series i in
         let* v := val rema_val in
         let* v1 := val rema_val1 in
         let r := (v .* (#1 .+ #2 .* lambda) .+ alpha .* (x .- v) .- lambda .* v1) ./ (#1 .+ lambda) in
         Ok ((Some r, Some v), [[r]]) |} (None, None)
  | _, _ => Ub BadArgs
  end.

(** rema.cc:54-91: constants (lambda, alpha) *)
Definition ti_rema_stream_new : newfn (stream ((T * T) * (T * T))) := fun options =>
  match options with
  | [period; lambda] =>
    if period .< #1 then Ok (INVALID_OPTION, None) else
    if lambda .< #0 then Ok (INVALID_OPTION, None) else
    let* start := ti_rema_start options in
    Ok (OKAY, Some {| progress := - start; core := ((lambda, #2 ./ (#1 .+ period)), (#0, #0)) |})
  | _ => Ub BadArgs
  end.

(** rema.cc:97-131; the loops run while progress == 0, then while progress == 1 *)
Definition rema_loops (k : T * T) (p : Z) (inputs : list (list T)) : loops (T * T) :=
  match inputs with
  | [series] =>
    let '(lambda, alpha) := k in
    {| bounded := [
         (1 - p, fun i '(v, v1) =>
           let* x := rd series i in
           Ok ((x, v1), [[x]]));
         (2 - p, fun i '(v, v1) =>
           let* x := rd series i in
           let r := (x .- v) .* alpha .+ v in
           Ok ((r, v), [[r]]))];
       final := fun i '(v, v1) =>
         let* x := rd series i in
         let r := (v .* (#1 .+ #2 .* lambda) .+ alpha .* (x .- v) .- lambda .* v1) ./ (#1 .+ lambda) in
         Ok ((r, v), [[r]]) |}
  | _ => bad_loops
  end.
Definition ti_rema_stream_run := mkrun 1 rema_loops.

(** ** bf2 *)
(** bf2.cc:20 *)
Definition bf2_B0 : list T := micro [285784; 203973; 130825; 88501; 63284; 47322; 36654; 29198; 23793; 19754; 16658; 14235; 12303; 10739; 9454; 8386; 7490; 6729; 6079; 5518].
(** bf2.cc:21 *)
Definition bf2_B1 : list T := micro [571568; 407946; 261650; 177002; 126567; 94643; 73308; 58397; 47586; 39507; 33317; 28470; 24607; 21477; 18908; 16773; 14980; 13459; 12158; 11037].
(** bf2.cc:22 *)
Definition bf2_B2 : list T := micro [285784; 203973; 130825; 88501; 63284; 47322; 36654; 29198; 23793; 19754; 16658; 14235; 12303; 10739; 9454; 8386; 7490; 6729; 6079; 5518].
(** bf2.cc:23 *)
Definition bf2_A1 : list T := micro [-131366; 292597; 704171; 975372; 1158161; 1287652; 1383531; 1457120; 1515266; 1562309; 1601119; 1633667; 1661342; 1685157; 1705862; 1724025; 1740086; 1754388; 1767204; 1778753].
(** bf2.cc:24 *)
Definition bf2_A2 : list T := micro [-11770; -108489; -227470; -329377; -411296; -476938; -530147; -573914; -610438; -641324; -667753; -690607; -710555; -728112; -743678; -757571; -770045; -781305; -791520; -800827].

(** bf2.cc:13-17; the double returned by ceil is converted to int *)
Definition ti_bf2_start : startfn := fun options =>
  match options with
  | [period] => cast (libm Lceil (#2 .* period ./ (lit 31415 4 .* lit 31415 4)))
  | _ => Ub BadArgs
  end.

(** Option checks of bf2.cc:32-34, 92-94, bf3.cc:34-36, 102-104: None when rejected. *)
Definition bf_period (period : T) : res (option Z) :=
  if period .< #1 then Ok None else
  let* n := cast period in
  if negb (Z.rem n 2 =? 0) then Ok None else
  if n >? 40 then Ok None else Ok (Some n).

(** bf2.cc:36-40, 105-109 *)
Definition bf2_constants (n : Z) : res (T * T * T * T * T) :=
  let idx := Z.quot n 2 - 1 in
  let* B0 := rd bf2_B0 idx in let* B1 := rd bf2_B1 idx in let* B2 := rd bf2_B2 idx in
  let* A1 := rd bf2_A1 idx in let* A2 := rd bf2_A2 idx in
  Ok (B0, B1, B2, A1, A2).

(** bf2.cc:27-65 *)
Definition ti_bf2 : batchfn := fun size inputs options =>
  match inputs, options with
  | [series], [period] =>
    let* o := bf_period period in
    match o with None => Ok (INVALID_OPTION, [[]]) | Some n =>
    let* (B0, B1, B2, A1, A2) := bf2_constants n in
    let* start := ti_bf2_start options in
    let progress := - start in
    batch_loops 1 size
    {| bounded := [(0 - progress, fun i '(f1, f2, g1, g2) =>
         let* x := rd series i in
         let f := A1 .* f1 .+ A2 .* f2 .+ B0 .* x .+ B1 .* g1 .+ B2 .* g2 in
         Ok ((f, f1, x, g1), [[]]))];
       final := fun i '(f1, f2, g1, g2) =>
         let* x := rd series i in
         let f := A1 .* f1 .+ A2 .* f2 .+ B0 .* x .+ B1 .* g1 .+ B2 .* g2 in
         Ok ((f, f1, x, g1), [[f]]) |} (#0, #0, #0, #0)
    end
  | _, _ => Ub BadArgs
  end.

(** bf2.cc:67-112 *)
Definition ti_bf2_stream_new : newfn (stream ((T * T * T * T * T) * (T * T * T * T))) := fun options =>
  match options with
  | [period] =>
    let* o := bf_period period in
    match o with None => Ok (INVALID_OPTION, None) | Some n =>
    let* start := ti_bf2_start options in
    let* k := bf2_constants n in
    Ok (OKAY, Some {| progress := - start; core := (k, (#0, #0, #0, #0)) |})
    end
  | _ => Ub BadArgs
  end.

(** bf2.cc:118-158 *)
Definition bf2_loops (k : T * T * T * T * T) (p : Z) (inputs : list (list T)) : loops (T * T * T * T) :=
  match inputs with
  | [series] =>
    let '(B0, B1, B2, A1, A2) := k in
    {| bounded := [(0 - p, fun i '(f1, f2, g1, g2) =>
         let* x := rd series i in
         let f := A1 .* f1 .+ A2 .* f2 .+ B0 .* x .+ B1 .* g1 .+ B2 .* g2 in
         Ok ((f, f1, x, g1), [[]]))];
       final := fun i '(f1, f2, g1, g2) =>
         let* x := rd series i in
         let f := A1 .* f1 .+ A2 .* f2 .+ B0 .* x .+ B1 .* g1 .+ B2 .* g2 in
         Ok ((f, f1, x, g1), [[f]]) |}
  | _ => bad_loops
  end.
Definition ti_bf2_stream_run := mkrun 1 bf2_loops.

(** ** bf3 *)
(** bf3.cc:20 *)
Definition bf3_B0 : list T := micro [170149; 100733; 50373; 27610; 16541; 10629; 7213; 5111; 3750; 2831; 2188; 1726; 1385; 1128; 931; 778; 656; 558; 479; 414].
(** bf3.cc:21 *)
Definition bf3_B1 : list T := micro [510448; 302200; 151118; 82830; 49622; 31887; 21640; 15334; 11250; 8492; 6565; 5179; 4156; 3385; 2794; 2333; 1967; 1674; 1437; 1242].
(** bf3.cc:22 *)
Definition bf3_B2 : list T := micro [510448; 302200; 151118; 82830; 49622; 31887; 21640; 15334; 11250; 8492; 6565; 5179; 4156; 3385; 2794; 2333; 1967; 1674; 1437; 1242].
(** bf3.cc:23 *)
Definition bf3_B3 : list T := micro [170149; 100733; 50373; 27610; 16541; 10629; 7213; 5111; 3750; 2831; 2188; 1726; 1385; 1128; 931; 778; 656; 558; 479; 414].
(** bf3.cc:24 *)
Definition bf3_A1 : list T := micro [-336246; 398405; 1080990; 1505892; 1783327; 1976163; 2117205; 2224560; 2308883; 2376806; 2432658; 2479376; 2519020; 2553078; 2582648; 2608560; 2631451; 2651819; 2670059; 2686486].
(** bf3.cc:25 *)
Definition bf3_A2 : list T := micro [-26816; -247486; -607116; -934652; -1200263; -1412114; -1582459; -1721388; -1836396; -1932941; -2015013; -2085571; -2146834; -2200500; -2247883; -2290012; -2327708; -2361631; -2392315; -2420202].
(** bf3.cc:26 *)
Definition bf3_A3 : list T := micro [1867; 43214; 123145; 207880; 284610; 350920; 407548; 455938; 497514; 533488; 564848; 592385; 616731; 638395; 657784; 675232; 691011; 705347; 718425; 730403].

(** bf3.cc:13-17 *)
Definition ti_bf3_start : startfn := fun options =>
  match options with
  | [period] => cast (libm Lceil (#3 .* period ./ (lit 31415 4 .* lit 31415 4)))
  | _ => Ub BadArgs
  end.

(** bf3.cc:38-44, 115-121 *)
Definition bf3_constants (n : Z) : res (T * T * T * T * T * T * T) :=
  let idx := Z.quot n 2 - 1 in
  let* B0 := rd bf3_B0 idx in let* B1 := rd bf3_B1 idx in let* B2 := rd bf3_B2 idx in let* B3 := rd bf3_B3 idx in
  let* A1 := rd bf3_A1 idx in let* A2 := rd bf3_A2 idx in let* A3 := rd bf3_A3 idx in
  Ok (B0, B1, B2, B3, A1, A2, A3).

(** bf3.cc:29-71; state (f1, f2, f3, g1, g2, g3) *)
Definition ti_bf3 : batchfn := fun size inputs options =>
  match inputs, options with
  | [series], [period] =>
    let* o := bf_period period in
    match o with None => Ok (INVALID_OPTION, [[]]) | Some n =>
    let* (B0, B1, B2, B3, A1, A2, A3) := bf3_constants n in
    let* start := ti_bf3_start options in
    let progress := - start in
    batch_loops 1 size
    {| bounded := [(0 - progress, fun i '(f1, f2, f3, g1, g2, g3) =>
         let* x := rd series i in
         let f := A1 .* f1 .+ A2 .* f2 .+ A3 .* f3 .+ B0 .* x .+ B1 .* g1 .+ B2 .* g2 .+ B3 .* g3 in
         Ok ((f, f1, f2, x, g1, g2), [[]]))];
       final := fun i '(f1, f2, f3, g1, g2, g3) =>
         let* x := rd series i in
         let f := A1 .* f1 .+ A2 .* f2 .+ A3 .* f3 .+ B0 .* x .+ B1 .* g1 .+ B2 .* g2 .+ B3 .* g3 in
         Ok ((f, f1, f2, x, g1, g2), [[f]]) |} (#0, #0, #0, #0, #0, #0)
    end
  | _, _ => Ub BadArgs
  end.

(** bf3.cc:73-124 *)
Definition ti_bf3_stream_new : newfn (stream ((T * T * T * T * T * T * T) * (T * T * T * T * T * T))) := fun options =>
  match options with
  | [period] =>
    let* o := bf_period period in
    match o with None => Ok (INVALID_OPTION, None) | Some n =>
    let* start := ti_bf3_start options in
    let* k := bf3_constants n in
    Ok (OKAY, Some {| progress := - start; core := (k, (#0, #0, #0, #0, #0, #0)) |})
    end
  | _ => Ub BadArgs
  end.

(** bf3.cc:130-176 *)
Definition bf3_loops (k : T * T * T * T * T * T * T) (p : Z) (inputs : list (list T)) : loops (T * T * T * T * T * T) :=
  match inputs with
  | [series] =>
    let '(B0, B1, B2, B3, A1, A2, A3) := k in
    {| bounded := [(0 - p, fun i '(f1, f2, f3, g1, g2, g3) =>
         let* x := rd series i in
         let f := A1 .* f1 .+ A2 .* f2 .+ A3 .* f3 .+ B0 .* x .+ B1 .* g1 .+ B2 .* g2 .+ B3 .* g3 in
         Ok ((f, f1, f2, x, g1, g2), [[]]))];
       final := fun i '(f1, f2, f3, g1, g2, g3) =>
         let* x := rd series i in
         let f := A1 .* f1 .+ A2 .* f2 .+ A3 .* f3 .+ B0 .* x .+ B1 .* g1 .+ B2 .* g2 .+ B3 .* g3 in
         Ok ((f, f1, f2, x, g1, g2), [[f]]) |}
  | _ => bad_loops
  end.
Definition ti_bf3_stream_run := mkrun 1 bf3_loops.

(** ** gf1 *)
(** gf1.cc:14 *)
Definition gf1_B0 : list T := micro [828427; 732051; 618034; 526602; 455887; 400720; 356896; 321416; 292186; 267730; 246990; 229192; 213760; 200256; 188343; 177759; 168294; 159780; 152082; 145089].
(** gf1.cc:15 *)
Definition gf1_A1 : list T := micro [171573; 267949; 381966; 473398; 544113; 599280; 643104; 678584; 707814; 732270; 753010; 770808; 786240; 799744; 811657; 822241; 831706; 840220; 847918; 854911].

(** gf1.cc:18-22, gf2.cc:20-24, gf3.cc:21-25, gf4.cc:22-26 *)
Definition gf_start : startfn := fun options =>
  match options with [o0] => let* period := cast o0 in Ok 0 | _ => Ub BadArgs end.
Definition ti_gf1_start := gf_start.
Definition ti_gf2_start := gf_start.
Definition ti_gf3_start := gf_start.
Definition ti_gf4_start := gf_start.

(** gf1.cc:29-31 and the same three lines in the other gf functions: rejected? *)
Definition gf_reject (period : Z) : bool :=
  (period <? 1) || negb (Z.rem period 2 =? 0) || (period >? 40).

(** gf1.cc:24-45 *)
Definition ti_gf1 : batchfn := fun size inputs options =>
  match inputs, options with
  | [series], [o0] =>
    let* period := cast o0 in
    if gf_reject period then Ok (INVALID_OPTION, [[]]) else
    let* B0 := rd gf1_B0 (Z.quot period 2 - 1) in
    let* A1 := rd gf1_A1 (Z.quot period 2 - 1) in
    batch_loops 1 size
    {| bounded := [];
       final := fun i f =>
         let* x := rd series i in
         let f := (B0 .* x .+ A1 .* f) ./ (B0 .+ A1) in
         Ok (f, [[f]]) |} #0
  | _, _ => Ub BadArgs
  end.

(** gf1.cc:47-68 *)
Definition ti_gf1_ref : batchfn := fun size inputs options =>
  match inputs, options with
  | [series], [o0] =>
    let* period := cast o0 in
    if gf_reject period then Ok (INVALID_OPTION, [[]]) else
    let* B0 := rd gf1_B0 (Z.quot period 2 - 1) in
    let* A1 := rd gf1_A1 (Z.quot period 2 - 1) in
    batch_loops 1 size
    {| bounded := [];
       final := fun i f =>
         let* x := rd series i in
         let f := (B0 .* x .+ A1 .* f) ./ (B0 .+ A1) in
         Ok (f, [[f]]) |} #0
  | _, _ => Ub BadArgs
  end.

(** gf1.cc:70-108: constants (period, csum_recipr) *)
Definition ti_gf1_stream_new : newfn (stream ((Z * T) * T)) := fun options =>
  match options with
  | [o0] =>
    let* period := cast o0 in
    if gf_reject period then Ok (INVALID_OPTION, None) else
    let* start := ti_gf1_start options in
    let* B0 := rd gf1_B0 (Z.quot period 2 - 1) in
    let* A1 := rd gf1_A1 (Z.quot period 2 - 1) in
    Ok (OKAY, Some {| progress := - start; core := ((period, #1 ./ (B0 .+ A1)), #0) |})
  | _ => Ub BadArgs
  end.

(** gf1.cc:114-136 *)
Definition gf1_loops (k : Z * T) (p : Z) (inputs : list (list T)) : loops T :=
  match inputs with
  | [series] =>
    let '(period, csum_recipr) := k in
    {| bounded := [];
       final := fun i f =>
         let* x := rd series i in
         let* B0 := rd gf1_B0 (Z.quot period 2 - 1) in
         let* A1 := rd gf1_A1 (Z.quot period 2 - 1) in
         let f := (B0 .* x .+ A1 .* f) .* csum_recipr in
         Ok (f, [[f]]) |}
  | _ => bad_loops
  end.
Definition ti_gf1_stream_run := mkrun 1 gf1_loops.

(** ** gf2 *)
(** gf2.cc:15 *)
Definition gf2_B0 : list T := micro [834615; 722959; 578300; 457577; 365017; 295336; 242632; 202250; 170835; 146017; 126125; 109966; 96680; 85633; 76357; 68496; 61779; 55996; 50984; 46612].
(** gf2.cc:16 *)
Definition gf2_A1 : list T := micro [172854; 299460; 479080; 647112; 791668; 913103; 1014847; 1100556; 1173357; 1235757; 1289719; 1336777; 1378133; 1414738; 1447346; 1476567; 1502894; 1526729; 1548408; 1568205].
(** gf2.cc:17 *)
Definition gf2_A2 : list T := micro [-7470; -22419; -57379; -104688; -156684; -208439; -257479; -302806; -344192; -381774; -415844; -446743; -474813; -500371; -523703; -545063; -564672; -582726; -599392; -614817].

(** gf2.cc:37-43, 116-120: (B0, A1, A2, csum_recipr) *)
Definition gf2_constants (period : Z) : res (T * T * T * T) :=
  let idx := Z.quot period 2 - 1 in
  let* B0 := rd gf2_B0 idx in let* A1 := rd gf2_A1 idx in let* A2 := rd gf2_A2 idx in
  Ok (B0, A1, A2, #1 ./ (B0 .+ A1 .+ A2)).

(** gf2.cc:26-52 *)
Definition ti_gf2 : batchfn := fun size inputs options =>
  match inputs, options with
  | [series], [o0] =>
    let* period := cast o0 in
    if gf_reject period then Ok (INVALID_OPTION, [[]]) else
    let* f := ring_new 3 in
    let* (B0, A1, A2, csum_recipr) := gf2_constants period in
    batch_loops 1 size
    {| bounded := [];
       final := fun i f =>
         let* x := rd series i in
         let* f1 := ring_get f 1 in
         let* f2 := ring_get f 2 in
         let* f := ring_set f ((B0 .* x .+ A1 .* f1 .+ A2 .* f2) .* csum_recipr) in
         let* o := ring_cur f in
         Ok (ring_step f, [[o]]) |} f
  | _, _ => Ub BadArgs
  end.

(** gf2.cc:54-80 *)
Definition ti_gf2_ref : batchfn := fun size inputs options =>
  match inputs, options with
  | [series], [o0] =>
    let* period := cast o0 in
    if gf_reject period then Ok (INVALID_OPTION, [[]]) else
    let* f := ring_new 3 in
    let* (B0, A1, A2, csum_recipr) := gf2_constants period in
    batch_loops 1 size
    {| bounded := [];
       final := fun i f =>
         let* x := rd series i in
         let* f1 := ring_get f 1 in
         let* f2 := ring_get f 2 in
         let* f := ring_set f ((B0 .* x .+ A1 .* f1 .+ A2 .* f2) .* csum_recipr) in
         let* o := ring_cur f in
         Ok (ring_step f, [[o]]) |} f
  | _, _ => Ub BadArgs
  end.

(** gf2.cc:82-123 *)
Definition ti_gf2_stream_new : newfn (stream ((T * T * T * T) * ring)) := fun options =>
  match options with
  | [o0] =>
    let* period := cast o0 in
    if gf_reject period then Ok (INVALID_OPTION, None) else
    let* f := ring_new 3 in
    let* start := ti_gf2_start options in
    let* k := gf2_constants period in
    Ok (OKAY, Some {| progress := - start; core := (k, f) |})
  | _ => Ub BadArgs
  end.

(** gf2.cc:129-151 *)
Definition gf2_loops (k : T * T * T * T) (p : Z) (inputs : list (list T)) : loops ring :=
  match inputs with
  | [series] =>
    let '(B0, A1, A2, csum_recipr) := k in
    {| bounded := [];
       final := fun i f =>
         let* x := rd series i in
         let* f1 := ring_get f 1 in
         let* f2 := ring_get f 2 in
         let* f := ring_set f ((B0 .* x .+ A1 .* f1 .+ A2 .* f2) .* csum_recipr) in
         let* o := ring_cur f in
         Ok (ring_step f, [[o]]) |}
  | _ => bad_loops
  end.
Definition ti_gf2_stream_run := mkrun 1 gf2_loops.

(** ** gf3 *)
(** gf3.cc:15 *)
Definition gf3_B0 : list T := micro [836701; 718670; 558792; 422292; 318295; 242068; 186612; 146016; 115940; 93340; 76111; 62791; 52354; 44075; 37432; 32045; 27635; 23991; 20956; 18409].
(** gf3.cc:16 *)
Definition gf3_A1 : list T := micro [173094; 312814; 529009; 749259; 951680; 1130321; 1285644; 1420251; 1537154; 1639147; 1728632; 1807607; 1877714; 1940297; 1996460; 2047111; 2093000; 2134754; 2172895; 2207865].
(** gf3.cc:17 *)
Definition gf3_A2 : list T := micro [-9987; -32617; -93283; -187130; -301899; -425875; -550960; -672371; -787614; -895601; -996056; -1089148; -1175270; -1254918; -1328618; -1396887; -1460217; -1519058; -1573824; -1624889].
(** gf3.cc:18 *)
Definition gf3_A3 : list T := micro [192; 1134; 5483; 15579; 31923; 53486; 78704; 106104; 134520; 163114; 191313; 218750; 245202; 270546; 294726; 317731; 339582; 360313; 379973; 398615].

(** gf3.cc:38-44, 118-123: every coefficient is read from the table B0 *)
Definition gf3_constants (period : Z) : res (T * T * T * T * T) :=
  let idx := Z.quot period 2 - 1 in
  let* B0 := rd gf3_B0 idx in let* A1 := rd gf3_B0 idx in let* A2 := rd gf3_B0 idx in let* A3 := rd gf3_B0 idx in
  Ok (B0, A1, A2, A3, #1 ./ (B0 .+ A1 .+ A2 .+ A3)).

(** gf3.cc:27-53 *)
Definition ti_gf3 : batchfn := fun size inputs options =>
  match inputs, options with
  | [series], [o0] =>
    let* period := cast o0 in
    if gf_reject period then Ok (INVALID_OPTION, [[]]) else
    let* f := ring_new 4 in
    let* (B0, A1, A2, A3, csum_recipr) := gf3_constants period in
    batch_loops 1 size
    {| bounded := [];
       final := fun i f =>
         let* x := rd series i in
         let* f1 := ring_get f 1 in
         let* f2 := ring_get f 2 in
         let* f3 := ring_get f 3 in
         let* f := ring_set f ((B0 .* x .+ A1 .* f1 .+ A2 .* f2 .+ A3 .* f3) .* csum_recipr) in
         let* o := ring_cur f in
         Ok (ring_step f, [[o]]) |} f
  | _, _ => Ub BadArgs
  end.

(** gf3.cc:55-81 *)
Definition ti_gf3_ref : batchfn := fun size inputs options =>
  match inputs, options with
  | [series], [o0] =>
    let* period := cast o0 in
    if gf_reject period then Ok (INVALID_OPTION, [[]]) else
    let* f := ring_new 4 in
    let* (B0, A1, A2, A3, csum_recipr) := gf3_constants period in
    batch_loops 1 size
    {| bounded := [];
       final := fun i f =>
         let* x := rd series i in
         let* f1 := ring_get f 1 in
         let* f2 := ring_get f 2 in
         let* f3 := ring_get f 3 in
         let* f := ring_set f ((B0 .* x .+ A1 .* f1 .+ A2 .* f2 .+ A3 .* f3) .* csum_recipr) in
         let* o := ring_cur f in
         Ok (ring_step f, [[o]]) |} f
  | _, _ => Ub BadArgs
  end.

(** gf3.cc:83-126 *)
Definition ti_gf3_stream_new : newfn (stream ((T * T * T * T * T) * ring)) := fun options =>
  match options with
  | [o0] =>
    let* period := cast o0 in
    if gf_reject period then Ok (INVALID_OPTION, None) else
    let* f := ring_new 4 in
    let* start := ti_gf3_start options in
    let* k := gf3_constants period in
    Ok (OKAY, Some {| progress := - start; core := (k, f) |})
  | _ => Ub BadArgs
  end.

(** gf3.cc:132-156 *)
Definition gf3_loops (k : T * T * T * T * T) (p : Z) (inputs : list (list T)) : loops ring :=
  match inputs with
  | [series] =>
    let '(B0, A1, A2, A3, csum_recipr) := k in
    {| bounded := [];
       final := fun i f =>
         let* x := rd series i in
         let* f1 := ring_get f 1 in
         let* f2 := ring_get f 2 in
         let* f3 := ring_get f 3 in
         let* f := ring_set f ((B0 .* x .+ A1 .* f1 .+ A2 .* f2 .+ A3 .* f3) .* csum_recipr) in
         let* o := ring_cur f in
         Ok (ring_step f, [[o]]) |}
  | _ => bad_loops
  end.
Definition ti_gf3_stream_run := mkrun 1 gf3_loops.

(** ** gf4 *)
(** gf4.cc:15 *)
Definition gf4_B0 : list T := micro [837747; 716200; 547128; 400596; 289459; 209659; 153408; 113779; 85632; 65397; 50648; 39744; 31571; 25363; 20589; 16875; 13953; 11632; 9770; 8263].
(** gf4.cc:16 *)
Definition gf4_A1 : list T := micro [173178; 320247; 559812; 817734; 1066023; 1293310; 1496649; 1676861; 1836187; 1977213; 2102418; 2214012; 2313903; 2403709; 2484797; 2558316; 2625237; 2686378; 2742435; 2794000].
(** gf4.cc:17 *)
Definition gf4_A2 : list T := micro [-11247; -38459; -117521; -250758; -426152; -627244; -839984; -1054449; -1264344; -1466015; -1657560; -1838193; -2007804; -2166681; -2315331; -2454368; -2584450; -2706235; -2820356; -2927413].
(** gf4.cc:18 *)
Definition gf4_A3 : list T := micro [325; 2053; 10965; 34176; 75715; 135204; 209527; 294694; 386929; 483104; 580814; 678297; 774311; 868012; 958854; 1046508; 1130799; 1211662; 1289107; 1363199].
(** gf4.cc:19 *)
Definition gf4_A4 : list T := micro [4; 41; 384; 1747; 5045; 10929; 19599; 30885; 44405; 59700; 76320; 93860; 111980; 130403; 148910; 167331; 185538; 203436; 220956; 238049].

(** gf4.cc:44-51, 134-146 *)
Definition gf4_constants (period : Z) : res (T * T * T * T * T * T) :=
  let idx := Z.quot period 2 - 1 in
  let* B0 := rd gf4_B0 idx in let* A1 := rd gf4_A1 idx in let* A2 := rd gf4_A2 idx in
  let* A3 := rd gf4_A3 idx in let* A4 := rd gf4_A4 idx in
  Ok (B0, A1, A2, A3, A4, #1 ./ (B0 .+ A1 .+ A2 .+ A3 .+ A4)).

(** gf4.cc:33-64; the first loop runs to 5 without looking at [size] *)
Definition ti_gf4 : batchfn := fun size inputs options =>
  match inputs, options with
  | [series], [o0] =>
    let* period := cast o0 in
    if gf_reject period then Ok (INVALID_OPTION, [[]]) else
    let* f := ring_new 5 in
    let* (B0, A1, A2, A3, A4, csum_reciproc) := gf4_constants period in
    let* fo := emits 0 5 (fun i f =>
      let* x := rd series i in
      let* f := ring_set f x in
      let* o := ring_cur f in
      Ok (ring_step f, [[o]])) (f, [[]]) in
    let* (_, o) := emits 5 size (fun i f =>
      let* x := rd series i in
      let* f1 := ring_get f 1 in
      let* f2 := ring_get f 2 in
      let* f3 := ring_get f 3 in
      let* f4 := ring_get f 4 in
      let* f := ring_set f ((B0 .* x .+ A1 .* f1 .+ A2 .* f2 .+ A3 .* f3 .+ A4 .* f4) .* csum_reciproc) in
      let* o := ring_cur f in
      Ok (ring_step f, [[o]])) fo in
    Ok (OKAY, o)
  | _, _ => Ub BadArgs
  end.

(** gf4.cc:66-96 *)
Definition ti_gf4_ref : batchfn := fun size inputs options =>
  match inputs, options with
  | [series], [o0] =>
    let* period := cast o0 in
    if gf_reject period then Ok (INVALID_OPTION, [[]]) else
    let* f := ring_new 5 in
    let* (B0, A1, A2, A3, A4, csum_reciproc) := gf4_constants period in
    let* fo := emits 0 5 (fun i f =>
      let* x := rd series i in
      let* f := ring_set f x in
      let* o := ring_cur f in
      Ok (ring_step f, [[o]])) (f, [[]]) in
    let* (_, o) := emits 5 size (fun i f =>
      let* x := rd series i in
      let* f1 := ring_get f 1 in
      let* f2 := ring_get f 2 in
      let* f3 := ring_get f 3 in
      let* f4 := ring_get f 4 in
      let* f := ring_set f ((B0 .* x .+ A1 .* f1 .+ A2 .* f2 .+ A3 .* f3 .+ A4 .* f4) .* csum_reciproc) in
      let* o := ring_cur f in
      Ok (ring_step f, [[o]])) fo in
    Ok (OKAY, o)
  | _, _ => Ub BadArgs
  end.

(** gf4.cc:98-149 *)
Definition ti_gf4_stream_new : newfn (stream ((T * T * T * T * T * T) * ring)) := fun options =>
  match options with
  | [o0] =>
    let* period := cast o0 in
    if gf_reject period then Ok (INVALID_OPTION, None) else
    let* f := ring_new 5 in
    let* start := ti_gf4_start options in
    let* k := gf4_constants period in
    Ok (OKAY, Some {| progress := - start; core := (k, f) |})
  | _ => Ub BadArgs
  end.

(** gf4.cc:155-184 *)
Definition gf4_loops (k : T * T * T * T * T * T) (p : Z) (inputs : list (list T)) : loops ring :=
  match inputs with
  | [series] =>
    let '(B0, A1, A2, A3, A4, csum_reciproc) := k in
    {| bounded := [(5 - p, fun i f =>
         let* x := rd series i in
         let* f := ring_set f x in
         let* o := ring_cur f in
         Ok (ring_step f, [[o]]))];
       final := fun i f =>
         let* x := rd series i in
         let* f1 := ring_get f 1 in
         let* f2 := ring_get f 2 in
         let* f3 := ring_get f 3 in
         let* f4 := ring_get f 4 in
         let* f := ring_set f ((B0 .* x .+ A1 .* f1 .+ A2 .* f2 .+ A3 .* f3 .+ A4 .* f4) .* csum_reciproc) in
         let* o := ring_cur f in
         Ok (ring_step f, [[o]]) |}
  | _ => bad_loops
  end.
Definition ti_gf4_stream_run := mkrun 1 gf4_loops.

End M.

(** The indicator classes which bindings/lean/generate-bindings.py writes for QuantConnect's LEAN: one class over the
    streaming functions and one over the batch function of each indicator.

    Simplifications.  A [decimal] is taken to be the [double] it is made from (its narrower range and precision are not
    modelled).  Memory from AllocHGlobal which the library did not write is [None].  Of LEAN itself the following is used:
    a WindowIndicator keeps the last [Period] bars, enumerates them newest first and calls ComputeNextValue on every bar,
    and a window of size below 1 cannot be made.  [tmp] in the streaming class is written and read at the same index and
    left out. *)
From Coq Require Import Ascii String.
From Verif Require Import IndexData M_python.
From Verif Require Export Tactics Spec.
Open Scope Z_scope.

(** the characters [0-9a-zA-Z], generate-bindings.py:49 and 104 *)
Definition alnum (c : ascii) : bool := idchar c && negb (N_of_ascii c =? 95)%N.
(** re.sub('[^0-9a-zA-Z]', '', full_name), generate-bindings.py:49 and 104 *)
Fixpoint lean_name (s : string) : string := match s with EmptyString => EmptyString | String c s => if alnum c then String c (lean_name s) else lean_name s end.
(** ' ' becomes '_' and '%' is dropped in every name, impl.py:73-75 *)
Fixpoint clean (s : string) : string :=
  match s with
  | EmptyString => EmptyString
  | String c s => if (N_of_ascii c =? 32)%N then String "_" (clean s) else if (N_of_ascii c =? 37)%N then clean s else String c (clean s)
  end.
(** The indicators with a class: not those of several series, generate-bindings.py:53-56 and 108-111. *)
Definition has_class (d : ind) : bool := negb (existsb (String.eqb "series") (i_inputs d) && (1 <? zlen (i_inputs d))).

(** What ComputeNextValue does on a bar: nothing yet (it returns 0), pass a value for each output to Update, or throw (generate-bindings.py:20-27, 74-86 and 130-144). *)
Inductive lean {V : Type} := NotReady | Values (vs : list (option V)) | Throw.
Arguments lean : clear implicits.

Section M.
Context {A : Arith}.

(** *** Streaming, generate-bindings.py:62-96 *)
(** ComputeNextValue, generate-bindings.py:74-86; DispatchError 20-27 *)
Definition lean_step {St} (run : runfn St) (nout : nat) (state : St) (bar : list T) : res (St * lean T) :=
  let* (ret, state', o) := run state 1 (map (fun x => [x]) bar) in
  match ret with
  | OKAY => Ok (state', Values (map (fun i => nth_error (nth i o []) 0) (seq 0 nout)))
  | _ => Ok (state', Throw)
  end.
(** LEAN calls ComputeNextValue for one bar after the other, generate-bindings.py:74-86 *)
Fixpoint lean_stream {St} (run : runfn St) (nout : nat) (state : St) (bars : list (list T)) : res (St * list (lean T)) :=
  match bars with
  | [] => Ok (state, [])
  | b :: bars => let* (state, v) := lean_step run nout state b in
                 let* (state, vs) := lean_stream run nout state bars in Ok (state, v :: vs)
  end.
(** IsReady, generate-bindings.py:87-89 *)
Definition lean_ready (progress : Z) : bool := progress >? 0.

(** *** Default, generate-bindings.py:115-151 *)
(** the block which fills [tmp] for one input, generate-bindings.py:135; [win] is the window, newest bar first *)
Definition lean_fill (count : Z) (tmp win : list T) : res (list T) :=
  for_ 0 count (fun i tmp => let* v := rd win i in upd tmp (count - i - 1) v) tmp.
(** the blocks of all inputs come one after the other and fill the same array, generate-bindings.py:133-136 *)
Fixpoint lean_fills (count : Z) (tmp : list T) (wins : list (list T)) : res (list T) :=
  match wins with
  | [] => Ok tmp
  | w :: wins => let* tmp := lean_fill count tmp w in lean_fills count tmp wins
  end.
(** Construction with [windowsize] (generate-bindings.py:121-127) and ComputeNextValue when [n] bars of the series have come (130-144). *)
Definition lean_default (start : startfn) (f : batchfn) (nout : nat) (windowsize : Z) (options : list T) (inputs : list (list T)) (n : Z) : res (lean T) :=
  let* s := start options in
  let* s1 := ck (s + 1) in
  let period := Z.max windowsize s1 in
  if period <? 1 then Ok Throw else
  let count := Z.min n period in
  if negb (count >? s) then Ok NotReady else
  let wins := map (fun x => rev (window (n - count) count x)) inputs in
  let* tmp := lean_fills count (repeat #0 (Z.to_nat count)) wins in
  (* Marshal.Copy(tmp, 0, inputs[i], window.Count) for every input, generate-bindings.py:136 *)
  let* (ret, outs) := f count (map (fun _ => tmp) inputs) options in
  match ret with
  | OKAY => Ok (Values (map (fun i => nth_error (nth i outs []) (Z.to_nat (count - s - 1))) (seq 0 nout)))
  | _ => Ok Throw
  end.
End M.

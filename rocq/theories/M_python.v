(** Models: the Python binding, bindings/python/tindicators/impl.py (class _Indicator).

    Simplifications: arguments are sequences of doubles or single doubles (what ctypes converts
    to double); the functions of the shared library are the start and batch functions of the
    models; the type name given to namedtuple, which only labels the result (impl.py:119,
    141-142), is taken to be accepted; a single output is returned as a list of one element
    (impl.py:139).  ctypes arrays are zero-initialised and kept alive by the pointers stored. *)
From Coq Require Import String Ascii.
From Verif Require Export M_index Spec.
Local Open Scope string_scope.
Local Open Scope list_scope.
Local Open Scope Z_scope.

Inductive exc := KeyError | ValueError | TypeError | IndexError | InvalidOption | OutOfMemory | NoSuchIndicator.
(** Outcome of a Python call; [Crash]: undefined behaviour of the C library. *)
Inductive py (A : Type) := Return (a : A) | Raise (e : exc) | Crash (u : ubkind).
Arguments Return {A} a. Arguments Raise {A} e. Arguments Crash {A} u.
Definition pbind {A B} (m : py A) (k : A -> py B) : py B :=
  match m with Return a => k a | Raise e => Raise e | Crash u => Crash u end.
Notation "'do' p <- m ; k" := (pbind m (fun p => k)) (at level 200, p pattern, m at level 100, k at level 200, right associativity).

(** s.replace(' ', '_').replace('%', ''), impl.py:73-75 *)
Fixpoint clean (s : string) : string :=
  match s with
  | EmptyString => EmptyString
  | String c s => if (c =? " ")%char then String "_" (clean s) else if (c =? "%")%char then clean s else String c (clean s)
  end.

(** namedtuple's test of the field names (collections.namedtuple): identifiers, no keywords, no
    leading underscore, no duplicates; impl.py:131 *)
Definition letter (c : ascii) : bool :=
  let n := N_of_ascii c in ((65 <=? n) && (n <=? 90) || (97 <=? n) && (n <=? 122))%N%bool.
Definition idchar (c : ascii) : bool := let n := N_of_ascii c in letter c || (n =? 95)%N || ((48 <=? n) && (n <=? 57))%N%bool.
Fixpoint all_idchar (s : string) : bool := match s with EmptyString => true | String c s => idchar c && all_idchar s end.
Definition keywords : list string :=
  ["False"; "None"; "True"; "and"; "as"; "assert"; "async"; "await"; "break"; "class"; "continue"; "def"; "del"; "elif"; "else";
   "except"; "finally"; "for"; "from"; "global"; "if"; "import"; "in"; "is"; "lambda"; "nonlocal"; "not"; "or"; "pass"; "raise";
   "return"; "try"; "while"; "with"; "yield"].
Definition field_ok (s : string) : bool :=
  match s with
  | EmptyString => false
  | String c _ => letter c && all_idchar s && negb (existsb (String.eqb s) keywords)
  end.
Fixpoint fields_ok (l : list string) : bool :=
  match l with
  | [] => true
  | s :: l => field_ok s && negb (existsb (String.eqb s) l) && fields_ok l
  end.

Section M.
Context {A : Arith}.
Inductive arg := Seq (l : list T) | Num (x : T).

(** kwargs[name] *)
Fixpoint kwarg (kwargs : list (string * arg)) (name : string) : py arg :=
  match kwargs with
  | [] => Raise KeyError
  | (n, v) :: kwargs => if (n =? name)%string then Return v else kwarg kwargs name
  end.
Fixpoint kwargs_of (kwargs : list (string * arg)) (names : list string) : py (list arg) :=
  match names with
  | [] => Return []
  | n :: names => do v <- kwarg kwargs n; do l <- kwargs_of kwargs names; Return (v :: l)
  end.
(** __parse, impl.py:144-149: args[offset:offset+size], then keyword arguments for the names left *)
Definition parse (args : list arg) (kwargs : list (string * arg)) (offset : nat) (names : list string) : py (list arg) :=
  let result := firstn (length names) (skipn offset args) in
  do rest <- kwargs_of kwargs (skipn (length result) names);
  Return (result ++ rest).

(** options[idx] = option for all options, impl.py:101-103 *)
Fixpoint numbers (l : list arg) : py (list T) :=
  match l with
  | [] => Return []
  | Num x :: l => do r <- numbers l; Return (x :: r)
  | Seq _ :: _ => Raise TypeError
  end.
(** a c_double array of [insize] elements from inputs_lst[idx], impl.py:110-112: too many values are an error, too few
    leave zeros *)
Fixpoint arrays (insize : Z) (l : list arg) : py (list (list T)) :=
  match l with
  | [] => Return []
  | Num _ :: _ => Raise TypeError
  | Seq s :: l =>
    if zlen s >? insize then Raise IndexError else
    do r <- arrays insize l;
    Return ((s ++ repeat #0 (Z.to_nat (insize - zlen s))) :: r)
  end.

(** pad, impl.py:151-152; np.pad raises ValueError for a negative width *)
Definition pad_with (nan : T) (padsize : Z) (out : list T) : py (list T) :=
  if padsize <? 0 then Raise ValueError else Return (repeat nan (Z.to_nat padsize) ++ out).
Fixpoint pad_all (nan : T) (padsize : Z) (outs : list (list T)) : py (list (list T)) :=
  match outs with
  | [] => Return []
  | o :: outs => do o <- pad_with nan padsize o; do r <- pad_all nan padsize outs; Return (o :: r)
  end.

(** __call__, impl.py:97-139, for the indicator described by [d] and implemented by [start] and
    [f]; [nan] is np.nan.  [f] fills the front of each output array of [outsize] zeros; writing
    more is undefined behaviour. *)
Definition py_call (nan : T) (d : ind) (start : startfn) (f : batchfn)
    (args : list arg) (kwargs : list (string * arg)) (pad : bool) : py (list (list T)) :=
  let inputs := map clean (i_inputs d) in
  let optionn := map clean (i_options d) in
  let outputs := map clean (i_outputs d) in
  do inputs_lst <- parse args kwargs 0 inputs;
  do options_lst <- parse args kwargs (length inputs) optionn;
  do options <- numbers options_lst;
  do insize <- match inputs_lst with [] => Raise IndexError | Num _ :: _ => Raise TypeError | Seq s :: _ => Return (zlen s) end;
  match start options with
  | Ub u => Crash u
  | Ok start_amount =>
    let outsize := insize - start_amount in
    do ins <- arrays insize inputs_lst;
    if outsize <? 0 then Raise ValueError else
    match f insize ins options with
    | Ub u => Crash u
    | Ok (INVALID_OPTION, _) => Raise InvalidOption
    | Ok (OUT_OF_MEMORY, _) => Raise OutOfMemory
    | Ok (OKAY, outs) =>
      if negb (forallb (fun o => zlen o <=? outsize) outs) then Crash OobRead else
      if negb (fields_ok outputs) then Raise ValueError else
      let outs := map (fun o => o ++ repeat #0 (Z.to_nat (outsize - zlen o))) outs in
      if pad then pad_all nan start_amount outs else Return outs
    end
  end.
End M.

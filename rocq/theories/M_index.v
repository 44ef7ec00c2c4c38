(** Models: the generated table of indicators, the lookup by name and the generic stream
    functions (codegen.py, which writes indicators.h and indicators_index.c). *)
From Coq Require Import String Ascii.
From Verif Require Export Monad IndexData.
Local Open Scope string_scope.
Local Open Scope list_scope.
Open Scope Z_scope.

(** ** Strings *)
(** Python's order on strings: by code points, a proper prefix first. *)
Fixpoint py_lt (a b : string) : bool :=
  match a, b with
  | _, EmptyString => false
  | EmptyString, String _ _ => true
  | String x a, String y b =>
    if Z.of_N (N_of_ascii x) <? Z.of_N (N_of_ascii y) then true
    else if Z.of_N (N_of_ascii y) <? Z.of_N (N_of_ascii x) then false else py_lt a b
  end.

(** The C library's strcmp on the bytes of two strings, each followed by a zero byte: the
    difference of the first two bytes that differ, 0 when both end.  (The standard fixes only
    the sign, and the library uses only the sign.) *)
Fixpoint strcmp (a b : string) : Z :=
  match a, b with
  | EmptyString, EmptyString => 0
  | EmptyString, String y _ => 0 - Z.of_N (N_of_ascii y)
  | String x _, EmptyString => Z.of_N (N_of_ascii x) - 0
  | String x a, String y b =>
    let d := Z.of_N (N_of_ascii x) - Z.of_N (N_of_ascii y) in
    if d =? 0 then strcmp a b else d
  end.

(** A string a C caller can pass: no zero byte inside. *)
Fixpoint c_string (s : string) : bool :=
  match s with
  | EmptyString => true
  | String x s => negb (N_of_ascii x =? 0)%N && c_string s
  end.

(** str.upper() on ASCII letters (codegen.py:136) *)
Definition up1 (c : ascii) : ascii :=
  let n := N_of_ascii c in
  if ((97 <=? n) && (n <=? 122))%N%bool then ascii_of_N (n - 32) else c.
Fixpoint upper (s : string) : string :=
  match s with
  | EmptyString => EmptyString
  | String x s => String (up1 x) (upper s)
  end.

(** ** The generated table *)
(** sorted(indicators.items()): the names are the keys of a dictionary, hence distinct, and
    decide the order (codegen.py:136, 173) *)
Fixpoint insert (d : ind) (l : list ind) : list ind :=
  match l with
  | [] => [d]
  | e :: l' => if py_lt (i_name d) (i_name e) then d :: l else e :: insert d l'
  end.
Fixpoint sorted (l : list ind) : list ind :=
  match l with
  | [] => []
  | d :: l => insert d (sorted l)
  end.

(** struct ti_indicator_info, codegen.py:112-125.  Function pointers are the names of the C
    functions, [None] the null pointer. *)
Record info := Info { f_name : option string; f_full : option string;
  f_start : option string; f_indicator : option string; f_ref : option string;
  f_type : Z; f_ninputs : Z; f_noptions : Z; f_noutputs : Z;
  f_inputs : list (option string); f_options : list (option string); f_outputs : list (option string);
  f_stream_new : option string; f_stream_run : option string; f_stream_free : option string }.

(** enum, codegen.py:102 *)
Definition type_num (t : itype) : Z :=
  match t with Overlay => 1 | Indicator => 2 | Math => 3 | Simple => 4 | Comparative => 5 end.

(** codegen.py:145-164 *)
Definition index_entry (d : ind) : info :=
  let n := i_name d in
  let names l := map Some l ++ [None] in
  {| f_name := Some n; f_full := Some (i_full d);
     f_start := Some ("ti_" ++ n ++ "_start")%string; f_indicator := Some ("ti_" ++ n)%string;
     f_ref := if i_ref d then Some ("ti_" ++ n ++ "_ref")%string else None;
     f_type := type_num (i_type d);
     f_ninputs := zlen (i_inputs d); f_noptions := zlen (i_options d); f_noutputs := zlen (i_outputs d);
     f_inputs := names (i_inputs d); f_options := names (i_options d); f_outputs := names (i_outputs d);
     f_stream_new := if i_stream d then Some ("ti_" ++ n ++ "_stream_new")%string else None;
     f_stream_run := if i_stream d then Some ("ti_" ++ n ++ "_stream_run")%string else None;
     f_stream_free := if i_stream d then Some ("ti_" ++ n ++ "_stream_free")%string else None |}.

(** The terminating entry, codegen.py:173 *)
Definition null_entry : info :=
  {| f_name := None; f_full := None; f_start := None; f_indicator := None; f_ref := None; f_type := 0;
     f_ninputs := 0; f_noptions := 0; f_noutputs := 0; f_inputs := [None; None]; f_options := [None; None];
     f_outputs := [None; None]; f_stream_new := None; f_stream_run := None; f_stream_free := None |}.

(** ti_indicators, codegen.py:172-174 *)
Definition table (inds : list ind) : list info := map index_entry (sorted inds) ++ [null_entry].
(** TI_INDICATOR_COUNT, codegen.py:127, 170 *)
Definition count (inds : list ind) : Z := zlen inds.

(** The enumeration TI_INDICATOR_..._INDEX, codegen.py:136 *)
Definition macro (name : string) : string := ("TI_INDICATOR_" ++ upper name ++ "_INDEX")%string.
Definition enumeration (inds : list ind) : list string := map (fun d => macro (i_name d)) (sorted inds).
Fixpoint enum_value (l : list string) (m : string) : option Z :=
  match l with
  | [] => None
  | x :: l => if (x =? m)%string then Some 0 else match enum_value l m with Some i => Some (i + 1) | None => None end
  end.

(** ** Lookup by name *)
(** The loop of ti_find_indicator, codegen.py:196-207; [None]: still running after [fuel]
    passes.  The result is the position in the table, or null. *)
Fixpoint find_loop (fuel : nat) (t : list info) (name : string) (imin imax : Z) : option (res (option Z)) :=
  if imax >=? imin then
    match fuel with
    | O => None
    | S fuel =>
      let i := imin + Z.quot (imax - imin) 2 in
      match rd t i with
      | Ub u => Some (Ub u)
      | Ok e =>
        match f_name e with
        | None => Some (Ub NullPtr)
        | Some n =>
          let c := strcmp name n in
          if c =? 0 then Some (Ok (Some i))
          else if c >? 0 then find_loop fuel t name (i + 1) imax
          else find_loop fuel t name imin (i - 1)
        end
      end
    end
  else Some (Ok None).
(** codegen.py:192-210 *)
Definition ti_find_indicator (fuel : nat) (t : list info) (name : string) : option (res (option Z)) :=
  find_loop fuel t name 0 (zlen t - 2).

(** ** Generic stream functions; [index] is the index stored in the stream object *)
(** A call through a member of the table entry [index]: which function is reached *)
Definition call_member (t : list info) (member : info -> option string) (index : Z) : res string :=
  let* e := rd t index in
  match member e with Some f => Ok f | None => Ub NullPtr end.
(** codegen.py:176-178 *)
Definition ti_stream_run t index := call_member t f_stream_run index.
(** codegen.py:188-190 *)
Definition ti_stream_free t index := call_member t f_stream_free index.
(** codegen.py:180-182 *)
Definition ti_stream_get_info (t : list info) (index : Z) : res info := rd t index.

(** The index ti_X_stream_new stores: the value of the constant it names (IndexData.stream_index) *)
Fixpoint assoc (l : list (string * string)) (x : string) : option string :=
  match l with
  | [] => None
  | (a, b) :: l => if (a =? x)%string then Some b else assoc l x
  end.
Definition stream_new_index (inds : list ind) (idx : list (string * string)) (x : string) : option Z :=
  match assoc idx x with Some m => enum_value (enumeration inds) m | None => None end.

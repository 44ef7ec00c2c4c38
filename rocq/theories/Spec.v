(** Vocabulary of the property statements: call shapes, the caller contract of
    README.md ("outputs must hold size - start(options) values"), causality and
    streaming.  Independent of every model. *)
From Verif Require Export Arith.
From Coq Require Import ZifyBool.

Section Spec.
Context {A : Arith}.

(** [int ti_X_start(TI_REAL const *options)], codegen.py:108 *)
Definition startfn := list T -> res Z.

(** [int ti_X(int size, inputs, options, outputs)], codegen.py:109.  The result is the
    return code and, per output, the values written through it in order. *)
Definition batchfn := Z -> list (list T) -> list T -> res (code * list (list T)).

(** A well-formed call: the right number of series, all of length [size]. *)
Definition wf (nin : nat) (size : Z) (inputs : list (list T)) : Prop :=
  length inputs = nin /\ Forall (fun l => zlen l = size) inputs /\ 0 <= size <= INT_MAX.

(** What the documentation promises for an option vector. *)
Inductive verdict :=
| Accept (start : Z)   (** accepted; the first [start] bars produce no output *)
| Reject               (** TI_INVALID_OPTION *)
| Outside.             (** outside the range the theorem speaks about *)

Definition optspec := list T -> verdict -> Prop.

(** Options that the code immediately casts to [int]. *)
Definition int_opts (nopt : nat) (g : list Z -> verdict) : optspec :=
  fun opts v => exists ns, length opts = nopt /\
    Forall2 (fun x n => to_int x = Some n) opts ns /\ v = g ns.

(** The caller contract: for every well-formed call whose options have verdict [v],
    - accepted: start() returns the announced offset, the call is defined (no undefined
      behaviour, no failed assertion), returns TI_OKAY and writes exactly
      max(0, size - start) values to each output;
    - rejected: returns TI_INVALID_OPTION and writes nothing. *)
Definition contract (nin nout : nat) (os : optspec) (start : startfn) (f : batchfn) : Prop :=
  forall size inputs options v,
    wf nin size inputs -> os options v ->
    match v with
    | Accept st =>
        start options = Ok st /\
        exists outs, f size inputs options = Ok (OKAY, outs) /\
          length outs = nout /\ Forall (fun o => zlen o = Z.max 0 (size - st)) outs
    | Reject => f size inputs options = Ok (INVALID_OPTION, repeat [] nout)
    | Outside => True
    end.

(** The same contract for accepted calls whose size satisfies [ok size start] only. *)
Definition contract_if (ok : Z -> Z -> Prop) (nin nout : nat) (os : optspec)
    (start : startfn) (f : batchfn) : Prop :=
  forall size inputs options v,
    wf nin size inputs -> os options v ->
    match v with
    | Accept st =>
        start options = Ok st /\
        (ok size st -> exists outs, f size inputs options = Ok (OKAY, outs) /\
          length outs = nout /\ Forall (fun o => zlen o = Z.max 0 (size - st)) outs)
    | Reject => f size inputs options = Ok (INVALID_OPTION, repeat [] nout)
    | Outside => True
    end.

(** The same contract for calls whose series satisfy [ok] only. *)
Definition contract_on (ok : list (list T) -> Prop) (nin nout : nat) (os : optspec)
    (start : startfn) (f : batchfn) : Prop :=
  forall size inputs options v,
    wf nin size inputs -> os options v -> ok inputs ->
    match v with
    | Accept st =>
        start options = Ok st /\
        exists outs, f size inputs options = Ok (OKAY, outs) /\
          length outs = nout /\ Forall (fun o => zlen o = Z.max 0 (size - st)) outs
    | Reject => f size inputs options = Ok (INVALID_OPTION, repeat [] nout)
    | Outside => True
    end.

(** Options with verdict "accepted". *)
Definition accepted (os : optspec) (options : list T) : Prop := exists st, os options (Accept st).

(** A violation of the memory part of the contract: accepted options and a well-formed
    call, but the execution is undefined or writes more than announced. *)
Definition unsafe_call (nin : nat) (start : startfn) (f : batchfn)
    (size : Z) (inputs : list (list T)) (options : list T) : Prop :=
  wf nin size inputs /\
  match f size inputs options with
  | Ub _ => True
  | Ok (OKAY, outs) => exists st, start options = Ok st /\
       Exists (fun o => zlen o > Z.max 0 (size - st)) outs
  | Ok _ => False
  end.

(** [l] is an initial segment of [m]. *)
Definition prefix_of {B} (l m : list B) : Prop := exists t, m = l ++ t.

(** Causality: cutting the series short cuts the outputs short and changes nothing else. *)
Definition causal (nin : nat) (f : batchfn) : Prop :=
  forall size1 size2 inputs1 inputs2 options outs2,
    wf nin size1 inputs1 -> wf nin size2 inputs2 -> Forall2 prefix_of inputs1 inputs2 ->
    f size2 inputs2 options = Ok (OKAY, outs2) ->
    exists outs1, f size1 inputs1 options = Ok (OKAY, outs1) /\ Forall2 prefix_of outs1 outs2.

(** Causality for options and series of interest. *)
Definition causal_on (nin : nat) (dom : list T -> Prop) (ok : list (list T) -> Prop) (f : batchfn) : Prop :=
  forall size1 size2 inputs1 inputs2 options,
    wf nin size1 inputs1 -> wf nin size2 inputs2 -> Forall2 prefix_of inputs1 inputs2 ->
    dom options -> ok inputs1 -> ok inputs2 ->
    exists outs1 outs2, f size1 inputs1 options = Ok (OKAY, outs1) /\ f size2 inputs2 options = Ok (OKAY, outs2) /\
      Forall2 prefix_of outs1 outs2.

(** ** Streams *)

(** [ti_X_stream_new(options, &stream)]: code and, when TI_OKAY, the stream object. *)
Definition newfn (St : Type) := list T -> res (code * option St).
(** [ti_X_stream_run(stream, size, inputs, outputs)]. *)
Definition runfn (St : Type) := St -> Z -> list (list T) -> res (code * St * list (list T)).

(** The batch function and the stream constructor decide alike on the options. *)
Definition same_options {St} (nin nout : nat) (os : optspec) (ok : list (list T) -> Prop)
    (f : batchfn) (new : newfn St) : Prop :=
  forall size inputs options v, wf nin size inputs -> ok inputs -> os options v ->
    match v with
    | Accept _ => (exists outs, f size inputs options = Ok (OKAY, outs)) /\
                  exists st, new options = Ok (OKAY, Some st)
    | Reject => f size inputs options = Ok (INVALID_OPTION, repeat [] nout) /\
                new options = Ok (INVALID_OPTION, None)
    | Outside => True
    end.

(** Append output blocks series by series. *)
Fixpoint zapp (a b : list (list T)) : list (list T) :=
  match a, b with
  | x :: a', y :: b' => (x ++ y) :: zapp a' b'
  | _, _ => []
  end.

(** Chunk sequence of an [n]-series input glued back together. *)
Fixpoint glue (n : nat) (chunks : list (list (list T))) : list (list T) :=
  match chunks with
  | [] => repeat [] n
  | c :: cs => zapp c (glue n cs)
  end.

(** Size of a chunk: the common length of its series. *)
Definition csize (c : list (list T)) : Z :=
  match c with [] => 0 | x :: _ => zlen x end.

Definition chunk_ok (nin : nat) (c : list (list T)) : Prop :=
  length c = nin /\ Forall (fun l => zlen l = csize c) c.

(** Feed the chunks one after the other; every run must return TI_OKAY. *)
Fixpoint feed {St} (run : runfn St) (nout : nat) (st : St) (chunks : list (list (list T)))
  : res (St * list (list T)) :=
  match chunks with
  | [] => Ok (st, repeat [] nout)
  | c :: cs =>
      let* (cd, st', o) := run st (csize c) c in
      match cd with
      | OKAY => let* (st'', o') := feed run nout st' cs in Ok (st'', zapp o o')
      | _ => Ub BadArgs
      end
  end.

(** Streaming in any chunking writes exactly what the batch call writes. *)
Definition stream_is_batch {St} (nin nout : nat) (dom : list T -> Prop)
    (f : batchfn) (new : newfn St) (run : runfn St) : Prop :=
  forall options chunks,
    dom options ->
    (1 <= nin)%nat ->
    Forall (chunk_ok nin) chunks ->
    csize (glue nin chunks) <= INT_MAX ->
    exists outs st st',
      f (csize (glue nin chunks)) (glue nin chunks) options = Ok (OKAY, outs) /\
      new options = Ok (OKAY, Some st) /\
      feed run nout st chunks = Ok (st', outs).

(** The same, for series satisfying [ok] only. *)
Definition stream_is_batch_if {St} (nin nout : nat) (dom : list T -> Prop) (ok : list (list T) -> Prop)
    (f : batchfn) (new : newfn St) (run : runfn St) : Prop :=
  forall options chunks,
    dom options ->
    (1 <= nin)%nat ->
    Forall (chunk_ok nin) chunks -> ok (glue nin chunks) ->
    csize (glue nin chunks) <= INT_MAX ->
    exists outs st st',
      f (csize (glue nin chunks)) (glue nin chunks) options = Ok (OKAY, outs) /\
      new options = Ok (OKAY, Some st) /\
      feed run nout st chunks = Ok (st', outs).

(** Progress counter: -start after creation, then the number of bars fed minus start;
    the number of values written is determined by it. *)
Definition progress_ok {St} (nin nout : nat) (dom : list T -> Prop) (start : startfn)
    (new : newfn St) (run : runfn St) (prog : St -> Z) : Prop :=
  forall options chunks,
    dom options ->
    (1 <= nin)%nat ->
    Forall (chunk_ok nin) chunks ->
    csize (glue nin chunks) <= INT_MAX ->
    exists st sz st' outs,
      new options = Ok (OKAY, Some st) /\ start options = Ok sz /\ prog st = - sz /\
      feed run nout st chunks = Ok (st', outs) /\
      prog st' = csize (glue nin chunks) - sz /\
      Forall (fun o => zlen o = Z.max 0 (prog st')) outs /\ length outs = nout.

(** The same, for series satisfying [ok] only. *)
Definition progress_ok_if {St} (nin nout : nat) (dom : list T -> Prop) (ok : list (list T) -> Prop) (start : startfn)
    (new : newfn St) (run : runfn St) (prog : St -> Z) : Prop :=
  forall options chunks,
    dom options ->
    (1 <= nin)%nat ->
    Forall (chunk_ok nin) chunks -> ok (glue nin chunks) ->
    csize (glue nin chunks) <= INT_MAX ->
    exists st sz st' outs,
      new options = Ok (OKAY, Some st) /\ start options = Ok sz /\ prog st = - sz /\
      feed run nout st chunks = Ok (st', outs) /\
      prog st' = csize (glue nin chunks) - sz /\
      Forall (fun o => zlen o = Z.max 0 (prog st')) outs /\ length outs = nout.

End Spec.

(** ** Windows *)

(** The [p] values starting at position [k]. *)
Definition window {B} (k p : Z) (l : list B) : list B :=
  firstn (Z.to_nat p) (skipn (Z.to_nat k) l).

(** Values [f lo, ..., f (hi-1)]. *)
Definition tab {B} (lo hi : Z) (f : Z -> B) : list B :=
  map (fun k => f (lo + Z.of_nat k)) (seq 0 (Z.to_nat (hi - lo))).

Lemma tab_nil {B} lo hi (f : Z -> B) : hi <= lo -> tab lo hi f = [].
Proof. intros H. unfold tab. replace (Z.to_nat (hi - lo)) with O by lia. reflexivity. Qed.

Lemma tab_snoc {B} lo hi (f : Z -> B) : lo <= hi -> tab lo (hi + 1) f = tab lo hi f ++ [f hi].
Proof.
  intros H. unfold tab. replace (Z.to_nat (hi + 1 - lo)) with (S (Z.to_nat (hi - lo))) by lia.
  rewrite seq_S, map_app. cbn [map]. do 3 f_equal. lia.
Qed.

Lemma zlen_tab {B} lo hi (f : Z -> B) : zlen (tab lo hi f) = Z.max 0 (hi - lo).
Proof. unfold zlen, tab. rewrite map_length, seq_length. lia. Qed.

Lemma zn_tab {B} (d : B) lo hi f k : 0 <= k < hi - lo -> zn d (tab lo hi f) k = f (lo + k).
Proof.
  intros H. unfold zn, tab.
  rewrite nth_indep with (d' := (fun k => f (lo + Z.of_nat k)) 0%nat)
    by (rewrite map_length, seq_length; lia).
  rewrite (map_nth (fun k => f (lo + Z.of_nat k))).
  rewrite seq_nth by lia. f_equal. lia.
Qed.

Lemma tab_ext {B} lo hi (f g : Z -> B) : (forall i, lo <= i < hi -> f i = g i) -> tab lo hi f = tab lo hi g.
Proof.
  intros H. unfold tab. apply map_ext_in. intros k Hk. apply in_seq in Hk. apply H. lia.
Qed.

Lemma tab_split {B} lo mid hi (f : Z -> B) : lo <= mid <= hi -> tab lo hi f = tab lo mid f ++ tab mid hi f.
Proof.
  intros H. unfold tab.
  replace (Z.to_nat (hi - lo)) with (Z.to_nat (mid - lo) + Z.to_nat (hi - mid))%nat by lia.
  rewrite seq_app, map_app. f_equal.
  induction (Z.to_nat (hi - mid)) as [|n IH]; [reflexivity|].
  rewrite !seq_S, !map_app, IH. cbn [map]. do 3 f_equal. lia.
Qed.

(** ** Recurrences *)

(** State after processing indices lo, lo+1, ..., hi-1 in order, starting from [s]. *)
Fixpoint irec {S} (step : Z -> S -> S) (lo : Z) (n : nat) (s : S) : S :=
  match n with
  | O => s
  | Datatypes.S m => step (lo + Z.of_nat m) (irec step lo m s)
  end.
Definition trec {S} (step : Z -> S -> S) (lo hi : Z) (s : S) : S :=
  irec step lo (Z.to_nat (hi - lo)) s.

Lemma trec_nil {S} (step : Z -> S -> S) lo hi s : hi <= lo -> trec step lo hi s = s.
Proof. intros H. unfold trec. replace (Z.to_nat (hi - lo)) with O by lia. reflexivity. Qed.
Lemma trec_snoc {S} (step : Z -> S -> S) lo hi s :
  lo <= hi -> trec step lo (hi + 1) s = step hi (trec step lo hi s).
Proof.
  intros H. unfold trec. replace (Z.to_nat (hi + 1 - lo)) with (Datatypes.S (Z.to_nat (hi - lo))) by lia.
  cbn [irec]. f_equal. lia.
Qed.
Lemma trec_ext {S} (f g : Z -> S -> S) lo hi s :
  (forall i s, lo <= i < hi -> f i s = g i s) -> trec f lo hi s = trec g lo hi s.
Proof.
  intros H. unfold trec. assert (Hn : (Z.to_nat (hi - lo) <= Z.to_nat (hi - lo))%nat) by lia.
  revert Hn. generalize (Z.to_nat (hi - lo)) at 1 3 4. intros n; induction n as [|n IH]; intros Hn; [reflexivity|].
  cbn [irec]. rewrite IH by lia. apply H. lia.
Qed.

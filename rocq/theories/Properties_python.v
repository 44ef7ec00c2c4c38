(** C38: the Python wrapper.  C39: the table describes the functions. *)
From Coq Require Import String Ascii.
From Verif Require Import Tactics M_basic M_osc M_python Properties_index Properties_contracts Properties_stream F64.
Local Open Scope string_scope.
Local Open Scope list_scope.
Local Open Scope Z_scope.

(** ** C39: the table describes the functions *)
(** The name lists fit the arrays of ten pointers of the table entry, terminator included, and
    the output names can be the fields of a named tuple. *)
Theorem C39_names : forall d, In d indicators ->
  zlen (f_inputs (index_entry d)) <= 10 /\ zlen (f_options (index_entry d)) <= 10 /\ zlen (f_outputs (index_entry d)) <= 10 /\
  (1 <= length (i_inputs d))%nat /\ fields_ok (map clean (i_outputs d)) = true.
Proof.
  assert (G : forallb (fun d => (zlen (f_inputs (index_entry d)) <=? 10) && (zlen (f_options (index_entry d)) <=? 10) &&
    (zlen (f_outputs (index_entry d)) <=? 10) && (1 <=? length (i_inputs d))%nat && fields_ok (map clean (i_outputs d))) indicators = true)
    by (vm_compute; reflexivity).
  intros d Hd. rewrite forallb_forall in G. specialize (G d Hd). rewrite !andb_true_iff in G. destruct G as ((((G1 & G2) & G3) & G4) & G5).
  apply Nat.leb_le in G4. repeat split; first [lia|exact G5].
Qed.
Print Assumptions C39_names.
(** The counts of an entry are the numbers of its names, each list ends with the null pointer and
    has no other. *)
Definition named (n : Z) (names : list (option string)) (given : list string) : Prop :=
  n = zlen given /\ zlen names = n + 1 /\ rd names n = Ok None /\ forall i, 0 <= i < n -> exists s, rd given i = Ok s /\ rd names i = Ok (Some s).
Lemma named_ok given : named (zlen given) (map Some given ++ [None]) given.
Proof.
  unfold named. split; [reflexivity|]. assert (E : zlen (map Some given ++ [None]) = zlen given + 1) by (unfold zlen; rewrite app_length, map_length; cbn [length]; lia).
  split; [exact E|]. split.
  - rewrite (rd_ok None) by (unfold zlen in *; lia). unfold zn. rewrite app_nth2 by (rewrite map_length; unfold zlen; lia).
    rewrite map_length. replace (Z.to_nat (zlen given) - length given)%nat with O by (unfold zlen; lia). reflexivity.
  - intros i Hi. exists (zn ""%string given i). split; [apply rd_ok; lia|]. rewrite (rd_ok None) by (unfold zlen in *; lia). f_equal. unfold zn.
    rewrite app_nth1 by (rewrite map_length; unfold zlen in *; lia). rewrite (nth_indep _ None (Some ""%string)) by (rewrite map_length; unfold zlen in *; lia). apply map_nth.
Qed.
Theorem C39_counts : forall d, named (f_ninputs (index_entry d)) (f_inputs (index_entry d)) (i_inputs d) /\
  named (f_noptions (index_entry d)) (f_options (index_entry d)) (i_options d) /\ named (f_noutputs (index_entry d)) (f_outputs (index_entry d)) (i_outputs d).
Proof. intros d. split; [|split]; apply named_ok. Qed.
Print Assumptions C39_counts.

(** [name] is an indicator of the table with [nin] inputs and [nout] outputs, or the reference
    implementation of one, and its options are as many as the table says. *)
Definition described {A : Arith} (name : string) (nin nout : nat) (os : optspec) : Prop :=
  exists d, In d indicators /\ (name = i_name d \/ i_ref d = true /\ name = (i_name d ++ "_ref")%string) /\
    length (i_inputs d) = nin /\ length (i_outputs d) = nout /\
    forall options v, os options v -> length options = length (i_options d).
Definition describes (name : string) (nin nout : nat) (d : ind) : bool :=
  ((i_name d =? name)%string || i_ref d && (i_name d ++ "_ref" =? name)%string) &&
  (length (i_inputs d) =? nin)%nat && (length (i_outputs d) =? nout)%nat.
Lemma described_ok {A : Arith} name nin nout (os : optspec) d : find (describes name nin nout) indicators = Some d ->
  (forall options v, os options v -> length options = length (i_options d)) -> described name nin nout os.
Proof.
  intros H Ho. apply find_some in H. destruct H as [Hi H]. unfold describes in H. rewrite !andb_true_iff, orb_true_iff in H.
  destruct H as ((H1 & H2) & H3). exists d. split; [exact Hi|]. apply Nat.eqb_eq in H2, H3. split; [|auto].
  destruct H1 as [H1|H1]; [left; apply String.eqb_eq in H1; congruence|].
  apply andb_prop in H1. right. split; [apply H1|]. destruct H1 as [_ H1]. apply String.eqb_eq in H1. congruence.
Qed.
Lemma int_opts_len {A : Arith} n g options v : int_opts n g options v -> length options = n.
Proof. intros (ns & H & _). exact H. Qed.
Ltac olen := let H := fresh in intros ? ? H; first
  [ exact (int_opts_len _ _ _ _ H)
  | hnf in H; repeat match goal with H : exists _, _ |- _ => destruct H | H : _ /\ _ |- _ => destruct H end; subst; reflexivity ].
Ltac describe := eapply described_ok; [vm_compute; reflexivity|cbn [length i_options]; olen].

Theorem C39_batch : forall {A : Arith}, Forall (fun r => described (r_name r) (r_nin r) (r_nout r) (r_opts r)) batch_table.
Proof. intros A. unfold batch_table. repeat apply Forall_cons; [..|apply Forall_nil]; cbn [r_name r_nin r_nout r_opts]; describe. Qed.
Print Assumptions C39_batch.
Theorem C39_streams : forall {A : Arith}, Forall (fun r => described (s_name r) (s_nin r) (s_nout r) (s_opts r)) stream_table.
Proof. intros A. unfold stream_table. repeat apply Forall_cons; [..|apply Forall_nil]; cbn [s_name s_nin s_nout s_opts]; describe. Qed.
Print Assumptions C39_streams.
Theorem C39_streams_exact : Forall (fun r => described (s_name r) (s_nin r) (s_nout r) (s_opts r)) stream_table_exact.
Proof. unfold stream_table_exact. repeat apply Forall_cons; [..|apply Forall_nil]; cbn [s_name s_nin s_nout s_opts]; describe. Qed.
Print Assumptions C39_streams_exact.

(** ** C38: the Python wrapper pads to the input length *)
Section Call.
Context {A : Arith}.
Implicit Types (nan : T) (d : ind) (start : startfn) (f : batchfn).

Lemma Forall2_len {X Y} (R : X -> Y -> Prop) l m : Forall2 R l m -> length l = length m.
Proof. induction 1; cbn; congruence. Qed.
Lemma app_inj_len {X} (l1 : list X) : forall m1 l2 m2, length l1 = length m1 -> l1 ++ l2 = m1 ++ m2 -> l1 = m1 /\ l2 = m2.
Proof.
  induction l1 as [|x l1 IH]; intros [|y m1] l2 m2; cbn; try discriminate; [auto|].
  intros [= L] [= -> E]. destruct (IH m1 l2 m2 L E) as [-> ->]. auto.
Qed.
Lemma kwargs_of_ok kw names vals : Forall2 (fun n v => kwarg kw n = Return v) names vals -> kwargs_of kw names = Return vals.
Proof. induction 1 as [|n v ns vs H _ IH]; cbn [kwargs_of]; [reflexivity|]. rewrite H. cbn [pbind]. rewrite IH. reflexivity. Qed.
Lemma parse_ok kw args offset names vals : firstn (length names) (skipn offset args) = firstn (length args - offset) vals ->
  length vals = length names ->
  Forall2 (fun n v => kwarg kw n = Return v) (skipn (length args - offset) names) (skipn (length args - offset) vals) ->
  parse args kw offset names = Return vals.
Proof.
  intros E L H. unfold parse. rewrite E. rewrite firstn_length. set (k := (length args - offset)%nat) in *. clearbody k.
  destruct (Nat.le_gt_cases (length vals) k) as [G|G].
  - rewrite Nat.min_r by lia. rewrite L, skipn_all. cbn [kwargs_of pbind]. rewrite firstn_all2 by lia. rewrite app_nil_r. reflexivity.
  - rewrite Nat.min_l by lia. rewrite (kwargs_of_ok _ _ _ H). cbn [pbind]. rewrite firstn_skipn. reflexivity.
Qed.
Lemma numbers_ok options : numbers (map Num options) = Return options.
Proof. induction options as [|x l IH]; cbn [numbers map]; [reflexivity|]. rewrite IH. reflexivity. Qed.
Lemma arrays_ok size inputs : Forall (fun l => zlen l = size) inputs -> arrays size (map Seq inputs) = Return inputs.
Proof.
  induction 1 as [|l ls H _ IH]; cbn [arrays map]; [reflexivity|]. replace (zlen l >? size) with false by lia. rewrite IH. cbn [pbind].
  replace (Z.to_nat (size - zlen l)) with 0%nat by lia. rewrite app_nil_r. reflexivity.
Qed.
Lemma pad_all_ok nan st outs : 0 <= st -> pad_all nan st outs = Return (map (fun o => repeat nan (Z.to_nat st) ++ o) outs).
Proof.
  intros H. induction outs as [|o outs IH]; cbn [pad_all map]; [reflexivity|]. unfold pad_with. replace (st <? 0) with false by lia.
  cbn [pbind]. rewrite IH. reflexivity.
Qed.

(** Positional arguments may be replaced by keyword arguments from any position on. *)
Definition given_by (d : ind) (inputs : list (list T)) (options : list T) (args : list arg) (kwargs : list (string * arg)) : Prop :=
  let vals := map Seq inputs ++ map Num options in
  let names := map clean (i_inputs d) ++ map clean (i_options d) in
  exists k, (k <= length vals)%nat /\ args = firstn k vals /\ Forall2 (fun n v => kwarg kwargs n = Return v) (skipn k names) (skipn k vals).
Lemma given_parse d inputs options args kwargs : length inputs = length (i_inputs d) -> length options = length (i_options d) ->
  given_by d inputs options args kwargs ->
  parse args kwargs 0 (map clean (i_inputs d)) = Return (map Seq inputs) /\
  parse args kwargs (length (map clean (i_inputs d))) (map clean (i_options d)) = Return (map Num options).
Proof.
  intros Li Lo (k & Hk & -> & H). rewrite app_length, !map_length in Hk.
  rewrite !skipn_app, !map_length, <- Li in H.
  assert (L : length (firstn k (map Seq inputs ++ map Num options)) = k).
  { rewrite firstn_length, app_length, !map_length. lia. }
  assert (H1 : Forall2 (fun n v => kwarg kwargs n = Return v) (skipn k (map clean (i_inputs d))) (skipn k (map Seq inputs)) /\
    Forall2 (fun n v => kwarg kwargs n = Return v) (skipn (k - length inputs) (map clean (i_options d))) (skipn (k - length inputs) (map Num options))).
  { apply Forall2_app_inv_l in H. destruct H as (l1 & l2 & F1 & F2 & E).
    assert (E1 : length l1 = length (skipn k (map Seq inputs))).
    { rewrite <- (Forall2_len _ _ _ F1), !skipn_length, !map_length. congruence. }
    apply app_inj_len in E; [|congruence]. destruct E as [<- <-]. auto. }
  destruct H1 as [F1 F2]. split; apply parse_ok; rewrite ?L, ?map_length; auto.
  - cbn [skipn]. rewrite Nat.sub_0_r. rewrite firstn_firstn, <- Li. rewrite firstn_app, map_length.
    replace (Nat.min (length inputs) k - length inputs)%nat with 0%nat by lia. cbn [firstn]. rewrite app_nil_r.
    destruct (Nat.le_gt_cases (length inputs) k).
    + rewrite Nat.min_l by lia. rewrite !firstn_all2; rewrite ?map_length; auto.
    + rewrite Nat.min_r by lia. reflexivity.
  - rewrite Nat.sub_0_r. exact F1.
  - rewrite <- Li, <- Lo. rewrite skipn_firstn_comm, skipn_app, map_length, Nat.sub_diag.
    rewrite (skipn_all2 (map Seq inputs)) by (rewrite map_length; lia). cbn [skipn app]. rewrite firstn_firstn. f_equal. lia.
  - rewrite <- Li. exact F2.
Qed.

(** The promise of the wrapper for an indicator described by [d]: a call, positional or by
    keyword, with accepted options returns for each output the start announced times the pad
    value and then the values the C function writes, as many values as there are bars (or only
    the latter, without padding); a series shorter than start raises ValueError; rejected
    options raise InvalidOption. *)
Definition python_pads (nan : T) (d : ind) (ok : list (list T) -> Prop) (nin : nat) (os : optspec) start f : Prop :=
  forall size inputs options v args kwargs, wf nin size inputs -> ok inputs -> os options v -> given_by d inputs options args kwargs ->
    let call := py_call nan d start f args kwargs in
    match v with
    | Accept st => start options = Ok st /\ 0 <= st /\
        if size <? st then forall pad, call pad = Raise ValueError
        else exists outs, f size inputs options = Ok (OKAY, outs) /\ call false = Return outs /\
          exists padded, call true = Return padded /\ padded = map (fun o => repeat nan (Z.to_nat st) ++ o) outs /\
          length padded = length (i_outputs d) /\ Forall (fun p => zlen p = size) padded
    | Reject => forall st pad, start options = Ok st -> st <= size -> call pad = Raise InvalidOption
    | Outside => True
    end.
Lemma contract_python nan d ok nin nout (os : optspec) start f :
  (1 <= nin)%nat -> length (i_inputs d) = nin -> length (i_outputs d) = nout -> fields_ok (map clean (i_outputs d)) = true ->
  (forall options v, os options v -> length options = length (i_options d)) ->
  (forall options st, os options (Accept st) -> 0 <= st) ->
  contract_on ok nin nout os start f -> python_pads nan d ok nin os start f.
Proof.
  intros Hn Li Lo Hf Hol Hnn Hc size inputs options v args kwargs Hw Hok Hv Hg. cbv zeta.
  pose proof Hw as (Hin & Hsz & Hb).
  destruct (given_parse d inputs options args kwargs) as [P1 P2]; [congruence|exact (Hol _ _ Hv)|exact Hg|].
  assert (E : forall pad, py_call nan d start f args kwargs pad = match start options with
    | Ub u => Crash u
    | Ok start_amount =>
      let outsize := size - start_amount in
      if outsize <? 0 then Raise ValueError else
      match f size inputs options with
      | Ub u => Crash u
      | Ok (INVALID_OPTION, _) => Raise InvalidOption
      | Ok (OUT_OF_MEMORY, _) => Raise OutOfMemory
      | Ok (OKAY, outs) =>
        if negb (forallb (fun o => zlen o <=? outsize) outs) then Crash OobRead else
        let outs := map (fun o => o ++ repeat #0 (Z.to_nat (outsize - zlen o))) outs in
        if pad then pad_all nan start_amount outs else Return outs
      end
    end).
  { intros pad. unfold py_call. rewrite P1. cbn [pbind]. rewrite P2. cbn [pbind]. rewrite numbers_ok. cbn [pbind].
    destruct inputs as [|x inputs]; [cbn in Hin; lia|]. cbn [map]. pose proof Hsz as Hsz'. inversion_clear Hsz as [|? ? Hx _]. rewrite Hx. cbn [pbind].
    destruct (start options) as [st|u]; [|reflexivity]. change (Seq x :: map Seq inputs) with (map Seq (x :: inputs)). rewrite arrays_ok by exact Hsz'. cbn [pbind].
    rewrite Hf. reflexivity. }
  specialize (Hc size inputs options v Hw Hv Hok). destruct v as [st| |]; [| |exact I].
  - destruct Hc as (Hst & outs & Ho & Hlen & Hz). split; [exact Hst|]. specialize (Hnn _ _ Hv). split; [exact Hnn|].
    rewrite Hst in E. cbv zeta in E. destruct (size <? st) eqn:Es.
    { intros pad. rewrite E. replace (size - st <? 0) with true by lia. reflexivity. }
    rewrite Ho in E. replace (size - st <? 0) with false in E by lia. cbn iota in E.
    replace (forallb (fun o => zlen o <=? size - st) outs) with true in E.
    2: { symmetry. apply forallb_forall. intros o Hi. rewrite Forall_forall in Hz. specialize (Hz o Hi). lia. }
    cbn [negb] in E.
    assert (Em : map (fun o => o ++ repeat #0 (Z.to_nat (size - st - zlen o))) outs = outs).
    { clear - Hz Es. induction Hz as [|o outs Ho _ IH]; cbn [map]; [reflexivity|]. rewrite IH. f_equal.
      replace (Z.to_nat (size - st - zlen o)) with 0%nat by lia. apply app_nil_r. }
    rewrite Em in E. exists outs. split; [exact Ho|]. split; [apply (E false)|]. eexists. split; [|split; [reflexivity|split]].
    + rewrite E. apply pad_all_ok. exact Hnn.
    + rewrite map_length. congruence.
    + apply Forall_forall. intros p Hp. apply in_map_iff in Hp. destruct Hp as (o & <- & Hi). rewrite Forall_forall in Hz. specialize (Hz o Hi).
      rewrite zlen_app. unfold zlen at 1. rewrite repeat_length. lia.
  - intros st pad Hst Hle. rewrite E, Hst. cbv zeta. replace (size - st <? 0) with false by lia. rewrite Hc. reflexivity.
Qed.
End Call.
Lemma names_no_ref : forall d e, In d indicators -> In e indicators -> i_name d <> (i_name e ++ "_ref")%string.
Proof.
  assert (G : forallb (fun d => forallb (fun e => negb (i_name d =? i_name e ++ "_ref")%string) indicators) indicators = true) by (vm_compute; reflexivity).
  intros d e Hd He E. rewrite forallb_forall in G. specialize (G d Hd). rewrite forallb_forall in G. specialize (G e He).
  rewrite E, String.eqb_refl in G. discriminate.
Qed.
Lemma same_ind d e : In d indicators -> In e indicators -> i_name d = i_name e -> d = e.
Proof.
  pose proof indicators_distinct as H. revert H. generalize indicators. intros l. induction l as [|f l IH]; cbn [map In]; [tauto|].
  intros H. inversion_clear H as [|? ? H1 H2]. intros [->|Hd] [->|He] E; auto; exfalso; apply H1; [rewrite E|rewrite <- E]; apply in_map; assumption.
Qed.
Ltac accept_nonneg := let H := fresh in intros ? ? H; hnf in H;
  repeat match goal with H : exists _, _ |- _ => destruct H | H : _ /\ _ |- _ => destruct H end; subst;
  lists; cbn [r_opts] in *;
  repeat match goal with H : Accept _ = ?v |- _ => progress (let h := head v in unfold h in H) end;
  repeat match goal with H : Accept _ = (if ?b then _ else _) |- _ => destruct b eqn:? end;
  try discriminate; repeat match goal with H : Accept _ = Accept _ |- _ => injection H as H end; subst; try lia.
Lemma batch_nonneg {A : Arith} : Forall (fun r => forall options st, r_opts r options (Accept st) -> 0 <= st) batch_table.
Proof.
  unfold batch_table. repeat apply Forall_cons; [..|apply Forall_nil]; cbn [r_opts]. all: accept_nonneg.
  all: try (destruct (p - 1) eqn:?; lia).
  match goal with H : Accept _ = _ |- _ => unfold C_osc.v_mult in H;
    repeat match type of H with context [if ?b then _ else _] => destruct b eqn:? end; try discriminate H; injection H as H end.
  all: try (destruct (p - 1) eqn:?; lia).
Qed.

Lemma described_python {A : Arith} nan name nin nout (os : optspec) ok start f : described name nin nout os ->
  (forall options st, os options (Accept st) -> 0 <= st) -> contract_on ok nin nout os start f ->
  forall d, In d indicators -> i_name d = name -> python_pads nan d ok nin os start f.
Proof.
  intros (e & He & Hn & Hi & Ho & Hl) Hnn Hc d Hd E. destruct (C39_names e He) as (_ & _ & _ & H1 & Hf).
  destruct Hn as [Hn|[_ Hn]]; [|exfalso; apply (names_no_ref d e Hd He); congruence].
  assert (d = e) as -> by (apply same_ind; congruence).
  apply (contract_python nan e ok nin nout); auto. congruence.
Qed.

(** For every indicator of the tables of C23 and C30, called through the wrapper. *)
Theorem C38_python_batch : forall {A : Arith} {IL : IntLaws A} nan,
  Forall (fun r => forall d, In d indicators -> i_name d = r_name r -> python_pads nan d (fun _ => True) (r_nin r) (r_opts r) (r_start r) (r_fn r)) batch_table.
Proof.
  intros A IL nan. apply Forall_forall. intros r Hr.
  pose proof (proj1 (Forall_forall _ _) C39_batch r Hr) as H1. pose proof (proj1 (Forall_forall _ _) batch_nonneg r Hr) as H2.
  pose proof (proj1 (Forall_forall _ _) C23_batch r Hr) as H3. apply (described_python nan _ _ (r_nout r)); [exact H1|exact H2|].
  intros size inputs options v Hw Hv _. exact (H3 size inputs options v Hw Hv).
Qed.
Print Assumptions C38_python_batch.

Definition row_python {A : Arith} nan (r : srow) : Prop :=
  forall d, In d indicators -> i_name d = s_name r -> python_pads nan d (s_ok r) (s_nin r) (s_opts r) (s_start r) (s_fn r).
Theorem C38_python_streams : forall {A : Arith} {IL : IntLaws A} nan, Forall (row_python nan) stream_table.
Proof.
  intros A IL nan. apply Forall_forall. intros r Hr.
  pose proof (proj1 (Forall_forall _ _) C39_streams r Hr) as H1. pose proof (proj1 (Forall_forall _ _) stream_table_all r Hr) as H2.
  destruct H2 as (_ & _ & _ & _ & H2 & H3). exact (described_python nan _ _ (s_nout r) _ _ _ _ H1 H3 H2).
Qed.
Print Assumptions C38_python_streams.
Theorem C38_python_exact : forall nan, Forall (row_python nan) stream_table_exact.
Proof.
  intros nan. apply Forall_forall. intros r Hr.
  pose proof (proj1 (Forall_forall _ _) C39_streams_exact r Hr) as H1. pose proof (proj1 (Forall_forall _ _) stream_table_exact_all r Hr) as H2.
  destruct H2 as (_ & _ & _ & _ & H2 & H3). exact (described_python nan _ _ (s_nout r) _ _ _ _ H1 H3 H2).
Qed.

Print Assumptions C38_python_exact.
(** Concrete calls (binary64): sma of five bars with period 3, positional and by keyword. *)
Definition d_sma : ind := match find (fun d => (i_name d =? "sma")%string) indicators with Some d => d | None => Ind "" "" Math [] [] [] false false end.
Lemma d_sma_in : In d_sma indicators.
Proof. apply (find_some (fun d => (i_name d =? "sma")%string)). vm_compute. reflexivity. Qed.
Example C38_example_sma :
  In d_sma indicators /\ i_name d_sma = "sma"%string /\
  let series := @Seq F64c [dbl 1 0; dbl 2 0; dbl 3 0; dbl 4 0; dbl 8 0] in
  let nan := fsqrt (dbl (-1) 0) in
  let expected := Return [[nan; nan; dbl 2 0; dbl 3 0; dbl 5 0]] in
  py_call nan d_sma start_p1 ti_sma [series; Num (dbl 3 0)] [] true = expected /\
  py_call nan d_sma start_p1 ti_sma [series] [("period", Num (dbl 3 0))] true = expected /\
  py_call nan d_sma start_p1 ti_sma [] [("period", Num (dbl 3 0)); ("series", series)] false = Return [[dbl 2 0; dbl 3 0; dbl 5 0]] /\
  py_call nan d_sma start_p1 ti_sma [series; Num (dbl 7 0)] [] true = Raise ValueError /\
  py_call nan d_sma start_p1 ti_sma [series; Num (dbl 0 0)] [] true = Raise InvalidOption.
Proof. split; [exact d_sma_in|]. vm_compute. auto 6. Qed.
(** The exception to C38: a series shorter than start raises instead of returning an array of
    its length, although the C call succeeds with no output. *)
Theorem C38_short_series_refuted : exists d series period,
  In d indicators /\ i_name d = "sma"%string /\
  @ti_sma F64c (zlen series) [series] [period] = Ok (OKAY, [[]]) /\ 
  py_call #0 d start_p1 ti_sma [Seq series; Num period] [] true = Raise ValueError.
Proof. exists d_sma, [dbl 1 0], (dbl 3 0). split; [exact d_sma_in|]. vm_compute. auto. Qed.
Print Assumptions C38_short_series_refuted.

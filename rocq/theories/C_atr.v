(** atr: the run function has the shape of consecutive loops, and follows the batch function in
    exact arithmetic. *)
From Verif Require Export C_stream3 Fun_tr.

Section P.
Context {A : Arith}.

(** One bar of the warm-up of [ti_atr_stream_run] without its output, and with it (proof
    device: the model of the run function is M_stream3.ti_atr_stream_run). *)
Definition atr_warm (period p : Z) (high low close : list T) (i : Z) (s : T * T * T) : res (T * T * T) :=
  if p + i =? - (period - 1) then
    let '(_, last, _) := s in
    let* h := rd high i in
    let* l := rd low i in
    let* c := rd close i in
    Ok (h .- l, last, c)
  else atr_add high low close i s.
Definition atr_first (per : T) (s : T * T * T) : (T * T * T) * list (list T) :=
  let '(sum, _, last_close) := s in let val := sum .* per in ((sum, val, last_close), [[val]]).
Definition atr_loops (period p : Z) (inputs : list (list T)) : loops (T * T * T) :=
  match inputs with
  | [high; low; close] =>
    {| bounded := [(0 - p, fun i s => let* s := atr_warm period p high low close i s in Ok (s, [[]]));
                   (1 - p, fun i s => let* s := atr_warm period p high low close i s in Ok (atr_first (#1 ./ #period) s))];
       final := atr_next (#1 ./ #period) high low close |}
  | _ => bad_loops
  end.

Lemma emits_silent1 {S} (g : Z -> S -> res S) lo hi s :
  emits lo hi (fun i s => let* s := g i s in Ok (s, [[]])) (s, [[]]) = let* s := for_ lo hi g s in Ok (s, [[]]).
Proof.
  destruct (Z.le_gt_cases lo hi) as [L|L]; [|unfold emits; rewrite !for_nil by lia; reflexivity].
  apply (zind (fun m => emits lo m (fun i s => let* s := g i s in Ok (s, [[]])) (s, [[]]) = let* s := for_ lo m g s in Ok (s, [[]])) lo hi L).
  - unfold emits. rewrite !for_nil by lia. reflexivity.
  - intros m Hm IH. unfold emits in *. rewrite !for_snoc by lia. rewrite IH.
    destruct (for_ lo m g s) as [s1|u]; cbn [bind]; [|reflexivity].
    destruct (g m s1) as [s2|u]; cbn [bind]; reflexivity.
Qed.

Definition atr_inv (st : stream (Z * (T * T * T))) : Prop := 1 <= fst (core st) /\ - (fst (core st) - 1) <= progress st.
Lemma atr_chunk st c : atr_inv st -> chunk_ok 3 c ->
  ti_atr_stream_run st (csize c) c = mkrun 1 atr_loops st (csize c) c /\
  forall cd st' o, mkrun 1 atr_loops st (csize c) c = Ok (cd, st', o) -> atr_inv st'.
Proof.
  intros (Hn & Hp) [Hc Hl]. destruct st as [p [n s]]. cbn [core progress fst snd] in *.
  destruct c as [|h [|l [|cl [|]]]]; cbn in Hc; try discriminate. clear Hc.
  set (size := csize [h; l; cl]) in *. assert (Hs : 0 <= size) by apply zlen_nonneg.
  split.
  2:{ intros cd st' o. unfold mkrun. cbn [core progress]. destruct (run_loops _ _ _ _) as [[s' o']|]; cbn [bind]; [|discriminate].
      intros [= _ <- _]. split; cbn [core progress fst]; lia. }
  unfold mkrun, run_loops. cbn [core progress atr_loops Stream.bounded final phases].
  unfold ti_atr_stream_run. cbn [core progress]. cbv zeta.
  set (per := #1 ./ #n). change (repeat (@nil T) 1) with [@nil T]. rewrite emits_silent1.
  destruct (p <? 1) eqn:P.
  2:{ replace (Z.max 0 (Z.min (0 - p) size)) with 0 by lia. replace (Z.max 0 (Z.min (1 - p) size)) with 0 by lia.
      rewrite !for_nil by lia. cbn [bind]. unfold emits at 2. rewrite !for_nil by lia. cbn [bind].
      replace (p >=? 1) with true by lia. replace (p + (size - 0)) with (p + size) by lia. reflexivity. }
  set (j := Z.max 0 (Z.min size (1 - p))).
  (* the literal warm-up is [atr_warm] for all its bars *)
  assert (EW : forall k : Z * Z * (T * T * T) -> res (code * stream (Z * (T * T * T)) * list (list T)),
    (let* (i, p', s) := if (p =? - (n - 1)) && (0 <? size) then
            let '(_, last, _) := s in
            let* h := rd h 0 in
            let* l := rd l 0 in
            let* c := rd cl 0 in
            Ok (1, p + 1, (h .- l, last, c))
          else Ok (0, p, s) in
     let* s := for_ i (Z.max i (Z.min size (i + (1 - p')))) (atr_add h l cl) s in
     k (Z.max i (Z.min size (i + (1 - p'))), p' + (Z.max i (Z.min size (i + (1 - p'))) - i), s)) =
    let* s := for_ 0 j (atr_warm n p h l cl) s in k (j, p + j, s)).
  { intros k. destruct ((p =? - (n - 1)) && (0 <? size)) eqn:E0.
    - assert (p = - (n - 1) /\ 0 < size) as [Ep Es] by lia.
      rewrite (for_cons 0 j) by lia. unfold atr_warm at 1. replace (p + 0 =? - (n - 1)) with true by lia.
      destruct s as [[a b] c]. destruct (rd h 0); cbn [bind]; [|reflexivity]. destruct (rd l 0); cbn [bind]; [|reflexivity].
      destruct (rd cl 0); cbn [bind]; [|reflexivity]. replace (Z.max 1 (Z.min size (1 + (1 - (p + 1))))) with j by lia.
      replace (p + 1 + (j - 1)) with (p + j) by lia. change (0 + 1) with 1.
      rewrite (for_ext 1 j (atr_warm n p h l cl) (atr_add h l cl)); [reflexivity|].
      intros i s Hi. unfold atr_warm. replace (p + i =? - (n - 1)) with false by lia. reflexivity.
    - cbn [bind]. replace (0 + (1 - p)) with (1 - p) by lia. fold j. replace (p + (j - 0)) with (p + j) by lia.
      rewrite (for_ext 0 j (atr_warm n p h l cl) (atr_add h l cl)); [reflexivity|].
      intros i s' Hi. unfold atr_warm. replace (p + i =? - (n - 1)) with false by lia. reflexivity. }
  assert (EM : (let* so := let* s := for_ 0 (Z.max 0 (Z.min (0 - p) size)) (atr_warm n p h l cl) s in Ok (s, [[]]) in
      let* so := emits (Z.max 0 (Z.min (0 - p) size)) (Z.max (Z.max 0 (Z.min (0 - p) size)) (Z.min (1 - p) size))
        (fun i s => let* s := atr_warm n p h l cl i s in Ok (atr_first per s)) so in
      emits (Z.max (Z.max 0 (Z.min (0 - p) size)) (Z.min (1 - p) size)) size (atr_next per h l cl) so) =
      let* s := for_ 0 j (atr_warm n p h l cl) s in
      emits j size (atr_next per h l cl) (if j =? 1 - p then atr_first per s else (s, [[]]))).
  { replace (Z.max (Z.max 0 (Z.min (0 - p) size)) (Z.min (1 - p) size)) with j by lia.
    destruct (Z.le_gt_cases (1 - p) size) as [Q|Q].
    - replace (Z.max 0 (Z.min (0 - p) size)) with (j - 1) by lia. replace (j =? 1 - p) with true by lia.
      rewrite (for_split 0 (j - 1) j) by lia.
      destruct (for_ 0 (j - 1) _ s) as [s1|u]; cbn [bind]; [|reflexivity].
      unfold emits at 1. rewrite !(for_cons (j - 1)) by lia.
      destruct (atr_warm n p h l cl (j - 1) s1) as [s2|u]; cbn [bind]; [|reflexivity].
      destruct s2 as [[a2 b2] q2]. cbn [atr_first bind]. rewrite !for_nil by lia. reflexivity.
    - replace (Z.max 0 (Z.min (0 - p) size)) with j by lia. replace (j =? 1 - p) with false by lia.
      destruct (for_ 0 j _ s) as [s1|u]; cbn [bind]; [|reflexivity]. unfold emits at 1. rewrite for_nil by lia. reflexivity. }
  rewrite EM. clear EM. rewrite !bind_assoc.
  etransitivity; [|etransitivity; [apply (EW (fun '(j, p', s) =>
     let* (s, o) := if p' =? 1 then Ok (atr_first per s) else Ok (s, [[]]) in
     if p' >=? 1 then
      let* (s, o) := emits j size (atr_next per h l cl) (s, o) in
      Ok (OKAY, {| progress := p' + (size - j); core := (n, s) |}, o)
     else Ok (OKAY, {| progress := p'; core := (n, s) |}, o)))|]].
  - apply bind_ext. intros [[i p'] s1]. rewrite !bind_assoc. apply bind_ext. intros s2.
    destruct (_ =? 1); cbn [bind]; [|reflexivity]. destruct s2 as [[a b] c]. reflexivity.
  - apply bind_ext. intros s1. replace (j =? 1 - p) with (p + j =? 1) by lia. destruct (p + j =? 1) eqn:E1; cbn [bind].
    + replace (p + j >=? 1) with true by lia. replace (p + j + (size - j)) with (p + size) by lia. destruct (atr_first per s1). reflexivity.
    + replace (p + j >=? 1) with false by lia. unfold emits. rewrite for_nil by lia. cbn [bind]. replace (p + j) with (p + size) by lia. reflexivity.
Qed.

Context {IL : IntLaws A}.
Definition o_atr : optspec := int_opts 1 (v_period 1 INT_MAX (-1)).
Lemma atr_new_inv options st : accepted o_atr options -> ti_atr_stream_new options = Ok (OKAY, Some st) -> atr_inv st.
Proof.
  intros (k & ns & ? & ? & E). lists. ranges. unfold ti_atr_stream_new, start_p1. getcast. cbn [bind].
  destruct (p <? 1) eqn:E1; [discriminate|]. rewrite ck_ok by zl. cbn [bind]. intros [= <-]. unfold atr_inv. cbn. lia.
Qed.
Lemma atr_same : same_feed 3 1 (accepted o_atr) ti_atr_stream_new ti_atr_stream_run (mkrun 1 atr_loops).
Proof. apply (same_feed_inv atr_inv); [exact atr_new_inv|]. exact atr_chunk. Qed.
Lemma atr_online : online 3 atr_loops.
Proof.
  online_tac @atr_loops; unfold atr_warm, atr_add, atr_next; untuple;
  match goal with |- context[?j <? _] => repeat match goal with |- context[rd ?x j] => rewrite (rd_zf x j) by lia end end; rewrite ?Z.add_0_r; reflexivity.
Qed.
End P.

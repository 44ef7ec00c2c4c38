(** C01: lookup by name.  C02: generic stream calls. *)
From Coq Require Import String Ascii Sorting.Sorted Sorting.Permutation.
From Verif Require Import M_index.
Local Open Scope string_scope.
Local Open Scope list_scope.
Local Open Scope Z_scope.

(** ** Order of strings *)
Lemma byte_inj x y : N_of_ascii x = N_of_ascii y -> x = y.
Proof. intros H. rewrite <- (ascii_N_embedding x), <- (ascii_N_embedding y), H. reflexivity. Qed.
Lemma strcmp_eq a : forall b, c_string a = true -> c_string b = true -> (strcmp a b = 0 <-> a = b).
Proof.
  induction a as [|x a IH]; intros [|y b] Ha Hb; cbn [strcmp c_string] in *.
  - tauto.
  - apply andb_prop in Hb. split; [lia|discriminate].
  - apply andb_prop in Ha. split; [lia|discriminate].
  - apply andb_prop in Ha, Hb. specialize (IH b (proj2 Ha) (proj2 Hb)).
    destruct (Z.of_N (N_of_ascii x) - Z.of_N (N_of_ascii y) =? 0) eqn:E.
    + assert (x = y) as -> by (apply byte_inj; lia). rewrite IH. split; [congruence|intros [= ->]; reflexivity].
    + split; [lia|]. intros [= -> ->]. lia.
Qed.
Lemma strcmp_lt a : forall b, c_string a = true -> c_string b = true -> (strcmp a b < 0 <-> py_lt a b = true).
Proof.
  induction a as [|x a IH]; intros [|y b] Ha Hb; cbn [strcmp c_string py_lt] in *.
  - split; [lia|discriminate].
  - apply andb_prop in Hb. split; [reflexivity|lia].
  - split; [lia|discriminate].
  - apply andb_prop in Ha, Hb. specialize (IH b (proj2 Ha) (proj2 Hb)).
    destruct (Z.of_N (N_of_ascii x) - Z.of_N (N_of_ascii y) =? 0) eqn:E.
    + replace (Z.of_N (N_of_ascii x) <? Z.of_N (N_of_ascii y)) with false by lia.
      replace (Z.of_N (N_of_ascii y) <? Z.of_N (N_of_ascii x)) with false by lia. exact IH.
    + destruct (Z.of_N (N_of_ascii x) <? Z.of_N (N_of_ascii y)) eqn:E1; [split; [reflexivity|lia]|].
      replace (Z.of_N (N_of_ascii y) <? Z.of_N (N_of_ascii x)) with true by lia. split; [lia|discriminate].
Qed.
Ltac bytes := repeat match goal with
  | H : context[if ?b then _ else _] |- _ => destruct b eqn:?
  | |- context[if ?b then _ else _] => destruct b eqn:?
  end; try discriminate; try lia.
Lemma py_lt_trans a : forall b c, py_lt a b = true -> py_lt b c = true -> py_lt a c = true.
Proof.
  induction a as [|x a IH]; intros [|y b] [|z c]; cbn [py_lt]; try discriminate; try reflexivity.
  intros H1 H2. bytes; try reflexivity. eapply IH; eassumption.
Qed.
Lemma py_lt_irrefl a : py_lt a a = false.
Proof. induction a as [|x a IH]; [reflexivity|]. cbn [py_lt]. rewrite Z.ltb_irrefl. exact IH. Qed.
Lemma py_lt_total a : forall b, a <> b -> py_lt a b = false -> py_lt b a = true.
Proof.
  induction a as [|x a IH]; intros [|y b]; cbn [py_lt]; try congruence; try reflexivity.
  intros H. bytes; try congruence. intros H1. apply IH; [|exact H1].
  intros ->. apply H. f_equal. apply byte_inj. lia.
Qed.

(** ** The generated table is sorted *)
Definition name_lt (d e : ind) : Prop := py_lt (i_name d) (i_name e) = true.
Lemma insert_in d l e : In e (insert d l) <-> e = d \/ In e l.
Proof.
  induction l as [|f l IH]; cbn [insert]; [cbn; intuition congruence|].
  destruct (py_lt (i_name d) (i_name f)); cbn [In]; [cbn; intuition congruence|]. rewrite IH. intuition congruence.
Qed.
Lemma sorted_in l d : In d (sorted l) <-> In d l.
Proof. induction l as [|e l IH]; cbn [sorted]; [tauto|]. rewrite insert_in, IH. cbn. intuition congruence. Qed.
Lemma insert_sorted d l : (forall e, In e l -> i_name e <> i_name d) -> StronglySorted name_lt l -> StronglySorted name_lt (insert d l).
Proof.
  intros Hd. induction l as [|f l IH]; intros Hs; cbn [insert]; [repeat constructor|].
  apply StronglySorted_inv in Hs. destruct Hs as [Hs Hf]. destruct (py_lt (i_name d) (i_name f)) eqn:E.
  - constructor; [constructor; assumption|]. constructor; [exact E|]. eapply Forall_impl; [|exact Hf].
    intros g Hg. exact (py_lt_trans _ _ _ E Hg).
  - constructor; [apply IH; [intros e He; apply Hd; right; exact He|exact Hs]|].
    apply Forall_forall. intros e He. apply insert_in in He. destruct He as [->|He].
    + apply py_lt_total; [|exact E]. intros H. apply (Hd f); [left; reflexivity|congruence].
    + rewrite Forall_forall in Hf. apply Hf. exact He.
Qed.
Lemma sorted_sorted l : NoDup (map i_name l) -> StronglySorted name_lt (sorted l).
Proof.
  induction l as [|d l IH]; cbn [sorted map]; intros H; [constructor|]. inversion_clear H as [|? ? Hd Hl].
  apply insert_sorted; [|apply IH; exact Hl]. intros e He E. apply Hd. rewrite <- E. apply in_map, sorted_in. exact He.
Qed.
Lemma insert_len d l : length (insert d l) = S (length l).
Proof. induction l as [|f l IH]; cbn [insert]; [reflexivity|]. destruct (py_lt _ _); cbn [length]; [reflexivity|]. rewrite IH. reflexivity. Qed.
Lemma sorted_len l : zlen (sorted l) = zlen l.
Proof. unfold zlen. f_equal. induction l as [|d l IH]; cbn [sorted]; [reflexivity|]. rewrite insert_len, IH. reflexivity. Qed.

(** ** Binary search *)
Section Search.
Variables (l : list ind) (d0 : ind).
Hypothesis Hs : StronglySorted name_lt l.
Hypothesis Hc : Forall (fun d => c_string (i_name d) = true) l.
Let t := map index_entry l ++ [null_entry].
Let nm i := i_name (zn d0 l i).

Lemma t_rd i : 0 <= i < zlen l -> rd t i = Ok (index_entry (zn d0 l i)).
Proof.
  intros H. unfold t. rewrite (rd_ok (index_entry d0)) by (rewrite zlen_app, zlen_map; unfold zlen in *; cbn; lia).
  rewrite zn_app1 by (rewrite zlen_map; exact H). f_equal. unfold zn. apply map_nth.
Qed.
Lemma t_len : zlen t - 2 = zlen l - 1.
Proof. unfold t. rewrite zlen_app, zlen_map. change (zlen [null_entry]) with 1. lia. Qed.
Lemma nm_lt i j : 0 <= i < j -> j < zlen l -> py_lt (nm i) (nm j) = true.
Proof.
  unfold nm. revert i j. clear Hc t nm. induction l as [|d l' IH]; intros i j H1 H2; [unfold zlen in H2; cbn in H2; lia|].
  apply StronglySorted_inv in Hs. destruct Hs as [Hs' Hf]. rewrite zlen_cons in H2.
  assert (Hj : zn d0 (d :: l') j = zn d0 l' (j - 1)).
  { unfold zn. replace (Z.to_nat j) with (S (Z.to_nat (j - 1))) by lia. reflexivity. }
  rewrite Hj. destruct (Z.eq_dec i 0) as [->|Hi].
  - change (zn d0 (d :: l') 0) with d. rewrite Forall_forall in Hf. apply Hf. unfold zn. apply nth_In. unfold zlen in *. lia.
  - assert (Hi' : zn d0 (d :: l') i = zn d0 l' (i - 1)).
    { unfold zn. replace (Z.to_nat i) with (S (Z.to_nat (i - 1))) by lia. reflexivity. }
    rewrite Hi'. apply IH; [exact Hs'|lia|lia].
Qed.
Lemma nm_c i : 0 <= i < zlen l -> c_string (nm i) = true.
Proof. intros H. rewrite Forall_forall in Hc. apply Hc. unfold zn. apply nth_In. unfold zlen in *. lia. Qed.

Lemma find_loop_ok name : c_string name = true -> forall fuel imin imax,
  0 <= imin -> imax < zlen l -> imax - imin < Z.of_nat fuel ->
  (forall j, 0 <= j < imin -> py_lt (nm j) name = true) ->
  (forall j, imax < j < zlen l -> py_lt name (nm j) = true) ->
  exists r, find_loop fuel t name imin imax = Some (Ok r) /\
    match r with
    | Some i => 0 <= i < zlen l /\ nm i = name
    | None => forall i, 0 <= i < zlen l -> nm i <> name
    end.
Proof.
  intros Hn. induction fuel as [|fuel IH]; intros imin imax H0 H1 Hf Hlo Hhi; cbn [find_loop].
  - replace (imax >=? imin) with false by lia. eexists. split; [reflexivity|]. cbn beta iota. intros i Hi E.
    destruct (Z.lt_ge_cases i imin) as [L|L].
    + specialize (Hlo i ltac:(lia)). rewrite E, py_lt_irrefl in Hlo. discriminate.
    + specialize (Hhi i ltac:(lia)). rewrite E, py_lt_irrefl in Hhi. discriminate.
  - destruct (imax >=? imin) eqn:E.
    + assert (0 <= Z.quot (imax - imin) 2 <= imax - imin).
      { rewrite Z.quot_div_nonneg by lia. split; [apply Z.div_pos; lia|]. apply Z.div_le_upper_bound; lia. }
      set (i := imin + Z.quot (imax - imin) 2) in *. assert (Hi : imin <= i <= imax) by lia. clearbody i.
      rewrite t_rd by lia. cbn [f_name index_entry]. change (i_name (zn d0 l i)) with (nm i).
      pose proof (nm_c i ltac:(lia)) as Ci.
      destruct (strcmp name (nm i) =? 0) eqn:E0; [|destruct (strcmp name (nm i) >? 0) eqn:E1].
      * eexists. split; [reflexivity|]. cbn beta iota. split; [lia|]. symmetry. apply (strcmp_eq name); [exact Hn|exact Ci|lia].
      * apply IH; [lia|lia|lia| |exact Hhi]. intros j Hj.
        assert (py_lt (nm i) name = true).
        { apply py_lt_total.
          - intros E'. apply (strcmp_eq name (nm i)) in E'; [lia|exact Hn|exact Ci].
          - apply Bool.not_true_is_false. intros E'. apply (strcmp_lt name (nm i)) in E'; [lia|exact Hn|exact Ci]. }
        destruct (Z.eq_dec j i) as [->|N]; [assumption|]. apply (py_lt_trans _ (nm i)); [apply nm_lt; lia|assumption].
      * apply IH; [lia|lia|lia|exact Hlo|]. intros j Hj.
        assert (py_lt name (nm i) = true) by (apply strcmp_lt; [exact Hn|exact Ci|lia]).
        destruct (Z.eq_dec j i) as [->|N]; [assumption|]. apply (py_lt_trans _ (nm i)); [assumption|apply nm_lt; lia].
    + eexists. split; [reflexivity|]. cbn beta iota. intros i Hi E'. destruct (Z.lt_ge_cases i imin) as [L|L].
      * specialize (Hlo i ltac:(lia)). rewrite E', py_lt_irrefl in Hlo. discriminate.
      * specialize (Hhi i ltac:(lia)). rewrite E', py_lt_irrefl in Hhi. discriminate.
Qed.
End Search.

(** ** C01: lookup by name is exact *)
(** What codegen.py generates from any list of indicators with distinct names: for every C
    string the search stops after at most as many passes as there are entries, never reads
    outside the table nor the null name of its last entry, and returns the entry of the
    indicator with that name, or null when there is none. *)
Definition lookup_exact (inds : list ind) : Prop := forall name, c_string name = true ->
  exists r, (forall fuel, zlen inds <= Z.of_nat fuel -> ti_find_indicator fuel (table inds) name = Some (Ok r)) /\
    match r with
    | Some i => 0 <= i < zlen inds /\ exists d, In d inds /\ i_name d = name /\ rd (table inds) i = Ok (index_entry d)
    | None => forall d, In d inds -> i_name d <> name
    end.
Theorem C01_generated_lookup : forall inds, NoDup (map i_name inds) ->
  Forall (fun d => c_string (i_name d) = true) inds -> lookup_exact inds.
Proof.
  intros inds Hd Hc name Hn. destruct inds as [|d0 rest] eqn:E.
  { exists None. split; [|intros d []]. intros fuel _. unfold ti_find_indicator. destruct fuel; reflexivity. }
  rewrite <- E in *. clear E rest.
  assert (Hc' : Forall (fun d => c_string (i_name d) = true) (sorted inds)).
  { rewrite Forall_forall in *. intros d Hi. apply Hc, sorted_in, Hi. }
  assert (G : forall fuel, zlen inds <= Z.of_nat fuel -> exists r, ti_find_indicator fuel (table inds) name = Some (Ok r) /\
    match r with
    | Some i => 0 <= i < zlen (sorted inds) /\ i_name (zn d0 (sorted inds) i) = name
    | None => forall i, 0 <= i < zlen (sorted inds) -> i_name (zn d0 (sorted inds) i) <> name
    end).
  { intros fuel Hf. unfold ti_find_indicator, table. rewrite t_len.
    apply (find_loop_ok (sorted inds) d0 (sorted_sorted _ Hd) Hc' name Hn); rewrite ?sorted_len; try lia; intros; lia. }
  destruct (G (length inds) ltac:(unfold zlen; lia)) as (r & Hr & Hr'). exists r. split.
  - intros fuel Hf. destruct (G fuel Hf) as (r' & Er & Hr2). rewrite Er. f_equal. f_equal.
    destruct r as [i|], r' as [i'|]; [|exfalso; apply (Hr2 i); [apply Hr'|apply Hr']|exfalso; apply (Hr' i'); [apply Hr2|apply Hr2]|reflexivity].
    f_equal. destruct Hr' as [B1 N1], Hr2 as [B2 N2]. pose proof (sorted_sorted _ Hd) as Ss.
    destruct (Z.lt_trichotomy i i') as [L|[L|L]]; [|auto|].
    + pose proof (nm_lt (sorted inds) d0 Ss i i' ltac:(lia) ltac:(lia)) as Q; cbv beta zeta in Q. rewrite N1, N2, py_lt_irrefl in Q. discriminate.
    + pose proof (nm_lt (sorted inds) d0 Ss i' i ltac:(lia) ltac:(lia)) as Q; cbv beta zeta in Q. rewrite N1, N2, py_lt_irrefl in Q. discriminate.
  - destruct r as [i|].
    + destruct Hr' as [B1 N1]. split; [rewrite <- sorted_len; exact B1|]. exists (zn d0 (sorted inds) i).
      split; [apply sorted_in; unfold zn; apply nth_In; unfold zlen in *; lia|]. split; [exact N1|]. apply t_rd. exact B1.
    + intros d Hi E. apply sorted_in in Hi. apply (In_nth _ _ d0) in Hi. destruct Hi as (k & Hk & Ek).
      apply (Hr' (Z.of_nat k)); [unfold zlen; lia|]. unfold zn. rewrite Nat2Z.id, Ek. exact E.
Qed.
Print Assumptions C01_generated_lookup.

(** The names of indicators.yaml are distinct C strings. *)
Fixpoint nodup_names (l : list string) : bool :=
  match l with [] => true | x :: l => negb (existsb (String.eqb x) l) && nodup_names l end.
Lemma nodup_names_ok l : nodup_names l = true -> NoDup l.
Proof.
  induction l as [|x l IH]; cbn [nodup_names]; intros H; constructor; apply andb_prop in H.
  - intros Hi. destruct H as [H _]. apply negb_true_iff in H. rewrite <- not_true_iff_false in H. apply H.
    apply existsb_exists. exists x. split; [exact Hi|apply String.eqb_refl].
  - apply IH, H.
Qed.
Lemma indicators_distinct : NoDup (map i_name indicators).
Proof. apply nodup_names_ok. vm_compute. reflexivity. Qed.
Lemma indicators_c_names : Forall (fun d => c_string (i_name d) = true) indicators.
Proof. apply Forall_forall. intros d. revert d. apply Forall_forall. repeat constructor. Qed.

(** ti_find_indicator on the library's table: 161 entries. *)
Theorem C01_lookup : zlen indicators = 161 /\ lookup_exact indicators.
Proof. split; [reflexivity|]. apply C01_generated_lookup; [exact indicators_distinct|exact indicators_c_names]. Qed.
Print Assumptions C01_lookup.
(** A name in the middle, the first and the last, a prefix, an extension, the empty string, and
    strings before the first and after the last. *)
Example C01_example :
  map (fun s => ti_find_indicator 161 (table indicators) s)
    ["sma"; "abands"; "zlema"; "sm"; "smaa"; ""; "a"; "zz"] =
  map (fun r => Some (Ok r)) [Some 122; Some 0; Some 160; None; None; None; None; None].
Proof. vm_compute. reflexivity. Qed.

(** ** C02: generic stream calls reach the right indicator *)
Definition dispatches (inds : list ind) (idx : list (string * string)) (d : ind) : Prop :=
  let t := table inds in let x := i_name d in
  exists i, stream_new_index inds idx x = Some i /\ 0 <= i < count inds /\
    ti_stream_run t i = Ok ("ti_" ++ x ++ "_stream_run")%string /\
    ti_stream_free t i = Ok ("ti_" ++ x ++ "_stream_free")%string /\
    ti_stream_get_info t i = Ok (index_entry d).
Lemma enum_value_nth l m i : enum_value l m = Some i -> 0 <= i < zlen l /\ nth_error l (Z.to_nat i) = Some m.
Proof.
  revert i. induction l as [|x l IH]; intros i; cbn [enum_value]; [discriminate|]. rewrite zlen_cons.
  destruct (x =? m)%string eqn:E.
  - intros [= <-]. apply String.eqb_eq in E. subst. pose proof (zlen_nonneg l). split; [lia|reflexivity].
  - destruct (enum_value l m) as [j|] eqn:Ej; [|discriminate]. intros [= <-]. destruct (IH j eq_refl) as [H1 H2].
    split; [lia|]. replace (Z.to_nat (j + 1)) with (S (Z.to_nat j)) by lia. exact H2.
Qed.
Lemma enum_value_total l m : In m l -> exists i, enum_value l m = Some i.
Proof.
  induction l as [|x l IH]; [intros []|]. intros [->|H]; cbn [enum_value].
  - rewrite String.eqb_refl. eexists. reflexivity.
  - destruct (x =? m)%string; [eexists; reflexivity|]. destruct (IH H) as [i ->]. eexists. reflexivity.
Qed.
(** For any list of indicators whose constants are distinct, and constructors that store their
    own constant. *)
Theorem C02_generated_dispatch : forall inds idx d, NoDup (map (fun d => macro (i_name d)) inds) ->
  In d inds -> i_stream d = true -> assoc idx (i_name d) = Some (macro (i_name d)) -> dispatches inds idx d.
Proof.
  intros inds idx d Hn Hd Hs Ha. unfold dispatches, stream_new_index. cbv zeta. rewrite Ha.
  destruct (enum_value_total (enumeration inds) (macro (i_name d))) as [i Ei].
  { unfold enumeration. apply (in_map (fun d => macro (i_name d))), sorted_in, Hd. }
  exists i. split; [exact Ei|]. destruct (enum_value_nth _ _ _ Ei) as [Hi Hm]. unfold enumeration in Hi, Hm. rewrite zlen_map, sorted_len in Hi.
  split; [exact Hi|].
  assert (E : rd (table inds) i = Ok (index_entry d)).
  { unfold table. rewrite (t_rd (sorted inds) d) by (rewrite sorted_len; exact Hi). f_equal. f_equal.
    rewrite nth_error_map in Hm. unfold zn. destruct (nth_error (sorted inds) (Z.to_nat i)) as [e|] eqn:Ee; [|discriminate]. cbn [option_map] in Hm. assert (Hm' : macro (i_name e) = macro (i_name d)) by congruence. clear Hm. rename Hm' into Hm.
    rewrite (nth_error_nth _ _ d Ee). apply nth_error_In in Ee. rewrite sorted_in in Ee.
    clear - Hm Hn Hd Ee. induction inds as [|f inds IH]; [destruct Hd|]. cbn [map] in Hn. inversion_clear Hn as [|? ? Hf Hr].
    destruct Hd as [->|Hd], Ee as [->|Ee]; auto; exfalso; apply Hf.
    - rewrite <- Hm. apply (in_map (fun d => macro (i_name d))). exact Ee.
    - rewrite Hm. apply (in_map (fun d => macro (i_name d))). exact Hd. }
  unfold ti_stream_run, ti_stream_free, ti_stream_get_info, call_member. rewrite E. cbn [bind f_stream_run f_stream_free index_entry]. rewrite Hs. auto.
Qed.
Print Assumptions C02_generated_dispatch.

Lemma indicators_macros : NoDup (map (fun d => macro (i_name d)) indicators).
Proof. apply nodup_names_ok. vm_compute. reflexivity. Qed.
Lemma stream_index_own : forall d, In d indicators -> i_stream d = true -> assoc stream_index (i_name d) = Some (macro (i_name d)).
Proof.
  assert (G : forallb (fun d => negb (i_stream d) || match assoc stream_index (i_name d) with Some m => (m =? macro (i_name d))%string | None => false end) indicators = true)
    by (vm_compute; reflexivity).
  intros d Hd Hs. rewrite forallb_forall in G. specialize (G d Hd). rewrite Hs in G. cbn [negb orb] in G.
  destruct (assoc stream_index (i_name d)) as [m|]; [|discriminate]. apply String.eqb_eq in G. congruence.
Qed.
(** The library: every streaming indicator's constructor stores an index inside the table at
    which ti_stream_run, ti_stream_free and ti_stream_get_info find that indicator's functions
    and entry; no two indicators share an index. *)
Theorem C02_dispatch :
  (forall d, In d indicators -> i_stream d = true -> dispatches indicators stream_index d) /\
  (forall d e i, In d indicators -> i_stream d = true -> In e indicators -> i_stream e = true ->
     stream_new_index indicators stream_index (i_name d) = Some i ->
     stream_new_index indicators stream_index (i_name e) = Some i -> i_name d = i_name e).
Proof.
  assert (G : forall d, In d indicators -> i_stream d = true -> dispatches indicators stream_index d).
  { intros d Hd Hs. apply C02_generated_dispatch; auto using indicators_macros, stream_index_own. }
  split; [exact G|]. intros d e i Hd Hsd He Hse Ed Ee.
  destruct (G d Hd Hsd) as (j & Ej & _ & _ & _ & Ij). destruct (G e He Hse) as (k & Ek & _ & _ & _ & Ik).
  assert (j = i) as -> by congruence. assert (k = i) as -> by congruence. rewrite Ij in Ik. injection Ik. auto.
Qed.
Print Assumptions C02_dispatch.
(** 55 of the 161 indicators stream; the er stream's index. *)
Example C02_example : zlen (filter i_stream indicators) = 55 /\ zlen stream_index = 55 /\
  stream_new_index indicators stream_index "er" = Some 48 /\
  ti_stream_run (table indicators) 48 = Ok "ti_er_stream_run" /\
  (** an index outside the table, or of an indicator that does not stream, would not do *)
  ti_stream_run (table indicators) 162 = Ub OobRead /\ ti_stream_run (table indicators) 0 = Ub NullPtr.
Proof. vm_compute. repeat split. Qed.

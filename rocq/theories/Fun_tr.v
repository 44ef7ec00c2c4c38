(** What tr, atr, atr_ref, natr and wilders compute: exact expression per bar, any arithmetic. *)
From Verif Require Export Fun_any M_osc M_stream3 C_stream1 StreamP.

Lemma trec_cons {S} (f : Z -> S -> S) lo hi s : lo < hi -> trec f lo hi s = trec f (lo + 1) hi (f lo s).
Proof.
  intros H. apply (zind (fun m => trec f lo m s = trec f (lo + 1) m (f lo s)) (lo + 1) hi); [lia| |].
  - rewrite trec_snoc, !trec_nil by lia. reflexivity.
  - intros m Hm IH. rewrite !trec_snoc by lia. rewrite IH. reflexivity.
Qed.

Section F.
Context {A : Arith} {L : IntLaws A}.

(** The running average of the averages: the first is sum / p, then v + (x - v) / p. *)
Definition wild (p : Z) (x : Z -> T) (k : Z) : T :=
  trec (fun i v => (x i .- v) .* (#1 ./ #p) .+ v) p (p + k) (trec (fun i s => s .+ x i) 0 p #0 ./ #p).

Definition tr_at (h l c : list T) (i : Z) : T :=
  if i =? 0 then zf h 0 .- zf l 0 else atr_tr (zf h i) (zf l i) (zf c (i - 1)).

Lemma calc_tr h l c size i : zlen h = size -> zlen l = size -> zlen c = size -> 1 <= i < size ->
  CALC_TRUERANGE h l c i = Ok (tr_at h l c i).
Proof.
  intros Hh Hl Hc Hi. unfold CALC_TRUERANGE, tr_at. rewrite !rd_zf by lia. cbn [bind]. replace (i =? 0) with false by lia. reflexivity.
Qed.

Lemma tr_fun size h l c : zlen h = size -> zlen l = size -> zlen c = size -> 0 <= size <= INT_MAX ->
  ti_tr size [h; l; c] [] = Ok (OKAY, [tab 0 size (tr_at h l c)]).
Proof.
  intros Hh Hl Hc Hs. unfold ti_tr. destruct (size =? 0) eqn:E0.
  { assert (size = 0) as -> by lia. rewrite !for_nil by (cbn; lia). reflexivity. }
  replace (Z.min 1 size) with 1 by lia. change (Z.max 0 1) with 1. rewrite for_one by lia. rewrite !rd_zf by lia. cbn [bind].
  apply wp_eq. loop (fun i out => out = tab 0 i (tr_at h l c)); [lia|reflexivity| |intros ? ->; wps; reflexivity].
  intros i out Hi ->. rewrite (calc_tr h l c size) by lia. wps. rewrite tab_snoc by lia. reflexivity.
Qed.

Lemma wilders_any size x o p : zlen x = size -> 0 <= size <= INT_MAX -> to_int o = Some p -> 1 <= p ->
  ti_wilders size [x] [o] = Ok (OKAY, [tab 0 (size - p + 1) (wild p (zf x))]).
Proof.
  openfun ti_wilders.
  eapply (wp_for_trec 0 p _ (fun i s => s .+ zf x i)); [intros; rewrite rd_zf by zl; reflexivity|].
  loop (fun i st => fst st = wild p (zf x) (i - p) /\ snd st = tab 0 (i - p + 1) (wild p (zf x))).
  - lia.
  - cbn [fst snd]. rewrite Z.sub_diag. rewrite tab_snoc by lia. unfold wild. rewrite Z.add_0_r, (trec_nil _ p) by lia. auto.
  - intros i [v out] Hi [H1' H2']. cbn [fst snd] in *. subst. wps. cbn [fst snd].
    assert (EW : wild p (zf x) (i + 1 - p) = (zf x i .- wild p (zf x) (i - p)) .* (#1 ./ #p) .+ wild p (zf x) (i - p)).
    { unfold wild. replace (p + (i + 1 - p)) with (i + 1) by lia. rewrite trec_snoc by lia. replace (p + (i - p)) with i by lia. reflexivity. }
    split; [symmetry; exact EW|]. replace (i + 1 - p + 1) with (i - p + 1 + 1) by lia. rewrite (tab_snoc 0 (i - p + 1)) by lia.
    replace (i - p + 1) with (i + 1 - p) by lia. rewrite EW. reflexivity.
  - intros [v out] [H1' H2']. cbn [fst snd] in *. subst. wps; try reflexivity.
    all: try (rewrite zlen_tab in *; lia).
Qed.

Lemma atr_fun size h l c o p : zlen h = size -> zlen l = size -> zlen c = size -> 0 <= size <= INT_MAX -> to_int o = Some p -> 1 <= p ->
  ti_atr size [h; l; c] [o] = Ok (OKAY, [tab 0 (size - p + 1) (wild p (tr_at h l c))]).
Proof.
  openfun ti_atr.
  eapply (wp_for_trec 1 p _ (fun i s => s .+ tr_at h l c i)); [intros; rewrite (calc_tr h l c size) by zl; reflexivity|].
  replace (trec _ 1 p _) with (trec (fun i s => s .+ tr_at h l c i) 0 p #0).
  2:{ rewrite (trec_cons _ 0 p) by lia. reflexivity. }
  loop (fun i st => fst st = wild p (tr_at h l c) (i - p) /\ snd st = tab 0 (i - p + 1) (wild p (tr_at h l c))).
  - lia.
  - cbn [fst snd]. rewrite Z.sub_diag. rewrite tab_snoc by lia. unfold wild. rewrite Z.add_0_r, (trec_nil _ p) by lia. auto.
  - intros i [v out] Hi [H1' H2']. cbn [fst snd] in *. subst. rewrite (calc_tr h l c (zlen h)) by lia. wps. cbn [fst snd].
    assert (EW : wild p (tr_at h l c) (i + 1 - p) = (tr_at h l c i .- wild p (tr_at h l c) (i - p)) .* (#1 ./ #p) .+ wild p (tr_at h l c) (i - p)).
    { unfold wild. replace (p + (i + 1 - p)) with (i + 1) by lia. rewrite trec_snoc by lia. replace (p + (i - p)) with i by lia. reflexivity. }
    split; [symmetry; exact EW|]. replace (i + 1 - p + 1) with (i - p + 1 + 1) by lia. rewrite (tab_snoc 0 (i - p + 1)) by lia.
    replace (i - p + 1) with (i + 1 - p) by lia. rewrite EW. reflexivity.
  - intros [v out] [H1' H2']. cbn [fst snd] in *. subst. wps; try reflexivity.
    all: try (rewrite zlen_tab in *; lia).
Qed.

(** atr_ref: the same operations in the same order. *)
Lemma atr_ref_same size h l c o p : zlen h = size -> zlen l = size -> zlen c = size -> 0 <= size <= INT_MAX -> to_int o = Some p ->
  ti_atr_ref size [h; l; c] [o] = ti_atr size [h; l; c] [o].
Proof.
  intros Hh Hl Hc Hs Ho. unfold ti_atr_ref. rewrite tr_fun by assumption. cbn [bind]. destruct (p <? 1) eqn:Ep.
  { unfold ti_wilders, ti_atr, cast. rewrite Ho. cbn [bind]. rewrite Ep. reflexivity. }
  rewrite (atr_fun size h l c o p) by (assumption || lia).
  rewrite (wilders_any size _ o p) by (assumption || lia || (rewrite zlen_tab; lia)).
  do 3 f_equal. destruct (Z.le_gt_cases (size - p + 1) 0) as [Hn|Hn]; [rewrite !tab_nil by lia; reflexivity|].
  apply tab_ext. intros k Hk. unfold wild.
  assert (E : forall i, 0 <= i < size -> zf (tab 0 size (tr_at h l c)) i = tr_at h l c i) by (intros; rewrite zf_tab by lia; rewrite Z.add_0_l; reflexivity).
  rewrite (trec_ext (fun i s => s .+ zf (tab 0 size (tr_at h l c)) i) (fun i s => s .+ tr_at h l c i) 0 p) by (intros; rewrite E by lia; reflexivity).
  apply trec_ext. intros i s Hi. rewrite E by lia. reflexivity.
Qed.

Definition natr_at (p : Z) (h l c : list T) (k : Z) : T :=
  let val := wild p (tr_at h l c) k in if truth val then #100 .* val ./ zf c (p - 1 + k) else #0.
Lemma natr_fun size h l c o p : zlen h = size -> zlen l = size -> zlen c = size -> 0 <= size <= INT_MAX -> to_int o = Some p -> 1 <= p ->
  ti_natr size [h; l; c] [o] = Ok (OKAY, [tab 0 (size - p + 1) (natr_at p h l c)]).
Proof.
  openfun ti_natr.
  eapply (wp_for_trec 1 p _ (fun i s => s .+ tr_at h l c i)); [intros; rewrite (calc_tr h l c size) by zl; reflexivity|].
  replace (trec _ 1 p _) with (trec (fun i s => s .+ tr_at h l c i) 0 p #0).
  2:{ rewrite (trec_cons _ 0 p) by lia. reflexivity. }
  assert (EW0 : trec (fun i s => s .+ tr_at h l c i) 0 p #0 ./ #p = wild p (tr_at h l c) 0) by (unfold wild; rewrite Z.add_0_r, (trec_nil _ p) by lia; reflexivity).
  rewrite EW0.
  assert (Ev : forall k, 0 <= k -> p - 1 + k < size -> (if truth (wild p (tr_at h l c) k) then let* x := rd c (p - 1 + k) in Ok (#100 .* wild p (tr_at h l c) k ./ x) else Ok #0) = Ok (natr_at p h l c k)).
  { intros k Hk Hk'. unfold natr_at. cbv zeta. destruct (truth _); [|reflexivity]. rewrite rd_zf by lia. reflexivity. }
  pose proof (Ev 0) as Ev0. rewrite Z.add_0_r in Ev0. rewrite Ev0 by lia. wps.
  loop (fun i st => fst st = wild p (tr_at h l c) (i - p) /\ snd st = tab 0 (i - p + 1) (natr_at p h l c)).
  - lia.
  - cbn [fst snd]. rewrite Z.sub_diag. rewrite tab_snoc by lia. auto.
  - intros i [v out] Hi [H1' H2']. cbn [fst snd] in *. subst. rewrite (calc_tr h l c (zlen h)) by lia. cbn [bind].
    assert (EW : wild p (tr_at h l c) (i + 1 - p) = (tr_at h l c i .- wild p (tr_at h l c) (i - p)) .* (#1 ./ #p) .+ wild p (tr_at h l c) (i - p)).
    { unfold wild. replace (p + (i + 1 - p)) with (i + 1) by lia. rewrite trec_snoc by lia. replace (p + (i - p)) with i by lia. reflexivity. }
    rewrite <- EW. pose proof (Ev (i + 1 - p)) as Evi. replace (p - 1 + (i + 1 - p)) with i in Evi by lia. rewrite Evi by lia. wps. cbn [fst snd].
    split; [reflexivity|]. replace (i + 1 - p + 1) with (i - p + 1 + 1) by lia. rewrite (tab_snoc 0 (i - p + 1)) by lia.
    replace (i - p + 1) with (i + 1 - p) by lia. reflexivity.
  - intros [v out] [H1' H2']. cbn [fst snd] in *. subst. wps; try reflexivity.
    all: try (rewrite zlen_tab in *; lia).
Qed.
End F.

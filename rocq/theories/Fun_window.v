(** Sliding-window extremes: what "maintain highest / lowest" computes, for every total
    preorder on the values (exact reals, and binary64 without NaN). *)
From Verif Require Export C_window Fun_range.

(** [mi] is the latest index in lo..hi holding a value that dominates ([cmp]) them all. *)
Definition latest {B} (cmp : B -> B -> bool) (g : Z -> B) (lo hi mi : Z) : Prop :=
  lo <= mi <= hi /\
  (forall j, lo <= j <= hi -> cmp (g mi) (g j) = true) /\
  (forall j, mi < j <= hi -> cmp (g j) (g mi) = false).

(** Index found by scanning lo..hi from the left, moving on every value that dominates. *)
Definition argext {B} (cmp : B -> B -> bool) (g : Z -> B) (lo hi : Z) : Z :=
  trec (fun j mi => if cmp (g j) (g mi) then j else mi) (lo + 1) (hi + 1) lo.

(** A total preorder on the [good] values. *)
Record preord {B} (cmp : B -> B -> bool) (good : B -> Prop) : Prop := {
  po_refl : forall x, good x -> cmp x x = true;
  po_trans : forall x y z, good x -> good y -> good z -> cmp x y = true -> cmp y z = true -> cmp x z = true;
  po_total : forall x y, good x -> good y -> cmp x y = true \/ cmp y x = true;
}.

Section L.
Context {B : Type} (cmp : B -> B -> bool) (good : B -> Prop) (PO : preord cmp good).
Lemma latest_unique g lo hi a b : latest cmp g lo hi a -> latest cmp g lo hi b -> a = b.
Proof.
  intros (Ha & Ha1 & Ha2) (Hb & Hb1 & Hb2).
  destruct (Z.lt_trichotomy a b) as [L|[E|L]]; [|exact E|].
  - pose proof (Ha2 b ltac:(lia)). pose proof (Hb1 a ltac:(lia)). congruence.
  - pose proof (Hb2 a ltac:(lia)). pose proof (Ha1 b ltac:(lia)). congruence.
Qed.
Lemma latest_shrink g lo lo' hi mi : latest cmp g lo hi mi -> lo <= lo' <= mi -> latest cmp g lo' hi mi.
Proof. intros (H & H1 & H2) L. split; [lia|]. split; intros j Hj; [apply H1|apply H2]; lia. Qed.
Lemma latest_step g lo i mi : (forall j, lo <= j <= i -> good (g j)) -> latest cmp g lo (i - 1) mi ->
  latest cmp g lo i (if cmp (g i) (g mi) then i else mi).
Proof.
  intros Hg (H & H1 & H2). destruct (cmp (g i) (g mi)) eqn:E.
  - split; [lia|]. split; [|intros; lia]. intros j Hj. destruct (Z.eq_dec j i) as [->|N].
    + apply (po_refl _ _ PO). apply Hg. lia.
    + apply (po_trans _ _ PO) with (y := g mi); try (apply Hg; lia); [exact E|apply H1; lia].
  - split; [lia|]. split.
    + intros j Hj. destruct (Z.eq_dec j i) as [->|N]; [|apply H1; lia].
      destruct (po_total _ _ PO (g i) (g mi)) as [E'|E']; try (apply Hg; lia); congruence.
    + intros j Hj. destruct (Z.eq_dec j i) as [->|N]; [exact E|apply H2; lia].
Qed.
Lemma argext_one g lo : argext cmp g lo lo = lo.
Proof. unfold argext. apply trec_nil. lia. Qed.
Lemma argext_snoc g lo i : lo <= i ->
  argext cmp g lo (i + 1) = if cmp (g (i + 1)) (g (argext cmp g lo i)) then i + 1 else argext cmp g lo i.
Proof. intros H. unfold argext at 1. rewrite trec_snoc by lia. reflexivity. Qed.
Lemma argext_latest g lo hi : lo <= hi -> (forall j, lo <= j <= hi -> good (g j)) ->
  latest cmp g lo hi (argext cmp g lo hi).
Proof.
  intros L Hg.
  apply (zind (fun h => h <= hi -> latest cmp g lo h (argext cmp g lo h)) lo hi L); [| |lia].
  - intros _. rewrite argext_one. split; [lia|]. split; [|intros; lia]. intros j Hj.
    replace j with lo by lia. apply (po_refl _ _ PO), Hg. lia.
  - intros n Hn IH Hle. rewrite argext_snoc by lia. apply latest_step; [intros; apply Hg; lia|].
    replace (n + 1 - 1) with n by lia. apply IH. lia.
Qed.
Lemma latest_argext g lo hi mi : (forall j, lo <= j <= hi -> good (g j)) ->
  latest cmp g lo hi mi -> mi = argext cmp g lo hi.
Proof. intros Hg H. eapply latest_unique; [exact H|]. apply argext_latest; [destruct H; lia|exact Hg]. Qed.
Lemma argext_ext g g' lo hi : (forall j, lo <= j <= hi -> g j = g' j) -> argext cmp g lo hi = argext cmp g' lo hi.
Proof.
  intros H. destruct (Z.le_gt_cases lo hi) as [L|L]; [|unfold argext; rewrite !trec_nil by lia; reflexivity].
  assert (E : forall h, lo <= h <= hi -> argext cmp g lo h = argext cmp g' lo h /\ lo <= argext cmp g lo h <= h).
  { intros h Hh. apply (zind (fun h => h <= hi -> argext cmp g lo h = argext cmp g' lo h /\ lo <= argext cmp g lo h <= h) lo h); try lia.
    - intros _. rewrite !argext_one. lia.
    - intros n Hn IH Hl. destruct IH as [E R]; [lia|]. rewrite !argext_snoc by lia. rewrite <- E.
      rewrite !H by lia. destruct (cmp _ _); split; auto; lia. }
  apply E. lia.
Qed.
End L.

(** Before bar i with window start [trail]: the remembered extreme is stale, or right. *)
Definition mstate {A : Arith} (cmp : T -> T -> bool) (g : Z -> T) (trail i : Z) (s : Z * T) : Prop :=
  fst s < trail \/ (latest cmp g trail (i - 1) (fst s) /\ snd s = g (fst s)).
Section M.
Context {A : Arith} (cmp : T -> T -> bool) (good : T -> Prop) (PO : preord cmp good).
Lemma maintain_eq g get trail i s : 0 <= trail <= i ->
  (forall j, trail <= j <= i -> get j = Ok (g j)) -> (forall j, trail <= j <= i -> good (g j)) ->
  mstate cmp g trail i s ->
  maintain cmp get trail i s = Ok (argext cmp g trail i, g (argext cmp g trail i)).
Proof.
  intros Ht Hget Hg Hs. destruct s as [mi m]. unfold mstate in Hs. cbn [fst snd] in Hs.
  unfold maintain. rewrite Hget by lia. cbn [bind]. destruct (mi <? trail) eqn:E.
  - rewrite Hget by lia. cbn [bind]. apply wp_eq.
    apply (wp_for (fun j s => s = (argext cmp g trail (j - 1), g (argext cmp g trail (j - 1))))).
    + lia.
    + replace (trail + 1 - 1) with trail by lia. rewrite argext_one. reflexivity.
    + intros j s Hj ->. rewrite Hget by lia. cbn [bind wp].
      replace (j + 1 - 1) with (j - 1 + 1) by lia. rewrite argext_snoc by lia.
      replace (j - 1 + 1) with j by lia. destruct (cmp _ _); reflexivity.
    + intros s ->. replace (i + 1 - 1) with i by lia. reflexivity.
  - destruct Hs as [Hs|[Hs ->]]; [lia|].
    assert (El : latest cmp g trail i (if cmp (g i) (g mi) then i else mi)) by (apply (latest_step cmp good PO); assumption).
    pose proof (latest_argext cmp good PO g trail i _ Hg El) as <-.
    destruct (cmp (g i) (g mi)); reflexivity.
Qed.
Lemma mstate_next g trail i : 0 <= trail <= i -> (forall j, trail <= j <= i -> good (g j)) ->
  mstate cmp g (trail + 1) (i + 1) (argext cmp g trail i, g (argext cmp g trail i)).
Proof.
  intros Ht Hg. pose proof (argext_latest cmp good PO g trail i ltac:(lia) Hg) as HL.
  unfold mstate. cbn [fst snd]. destruct (Z.lt_ge_cases (argext cmp g trail i) (trail + 1)) as [L|L]; [left; exact L|right].
  split; [|reflexivity]. replace (i + 1 - 1) with i by lia.
  apply latest_shrink with (lo := trail); [exact HL|]. destruct HL. lia.
Qed.
Lemma mstate_same g trail i : 0 <= trail <= i -> (forall j, trail <= j <= i -> good (g j)) ->
  mstate cmp g trail (i + 1) (argext cmp g trail i, g (argext cmp g trail i)).
Proof.
  intros Ht Hg. pose proof (argext_latest cmp good PO g trail i ltac:(lia) Hg) as HL.
  right. cbn [fst snd]. replace (i + 1 - 1) with i by lia. auto.
Qed.
End M.

Section F.
Context {A : Arith} {L : IntLaws A} (good : T -> Prop) (OL : OrdLaws A good).
Definition gef (a b : T) := a .>= b.
Definition lef (a b : T) := a .<= b.
Lemma gef_po : preord gef good.
Proof.
  constructor; unfold gef; intros.
  - apply (ord_refl _ _ OL); auto.
  - apply (ord_trans _ _ OL) with (y := y); auto.
  - apply (ord_total _ _ OL); auto.
Qed.
Lemma lef_po : preord lef good.
Proof.
  constructor; unfold lef; intros.
  - apply (ord_refl _ _ OL); auto.
  - apply (ord_trans _ _ OL) with (y := y); auto.
  - apply (ord_total _ _ OL); auto.
Qed.
(** Positions (latest) and values of the extremes of x[lo..hi]. *)
Definition hi_at (x : list T) lo hi := argext gef (zf x) lo hi.
Definition lo_at (x : list T) lo hi := argext lef (zf x) lo hi.
Definition hi_val (x : list T) lo hi := zf x (hi_at x lo hi).
Definition lo_val (x : list T) lo hi := zf x (lo_at x lo hi).
Definition allgood (x : list T) := forall i, 0 <= i < zlen x -> good (zf x i).

Lemma highest_eq x trail i s : 0 <= trail <= i -> i < zlen x -> allgood x -> mstate gef (zf x) trail i s ->
  highest (rd x) trail i s = Ok (hi_at x trail i, hi_val x trail i).
Proof.
  intros. apply (maintain_eq gef good gef_po); auto; intros; [apply rd_ok|auto]; try lia. apply H1. lia.
Qed.
Lemma lowest_eq x trail i s : 0 <= trail <= i -> i < zlen x -> allgood x -> mstate lef (zf x) trail i s ->
  lowest (rd x) trail i s = Ok (lo_at x trail i, lo_val x trail i).
Proof.
  intros. apply (maintain_eq lef good lef_po); auto; intros; [apply rd_ok|auto]; try lia. apply H1. lia.
Qed.
Lemma highest_next x trail i : 0 <= trail <= i -> i < zlen x -> allgood x ->
  mstate gef (zf x) (trail + 1) (i + 1) (hi_at x trail i, hi_val x trail i).
Proof. intros. apply (mstate_next gef good gef_po); auto. intros. apply H1. lia. Qed.
Lemma lowest_next x trail i : 0 <= trail <= i -> i < zlen x -> allgood x ->
  mstate lef (zf x) (trail + 1) (i + 1) (lo_at x trail i, lo_val x trail i).
Proof. intros. apply (mstate_next lef good lef_po); auto. intros. apply H1. lia. Qed.
Lemma highest_same x trail i : 0 <= trail <= i -> i < zlen x -> allgood x ->
  mstate gef (zf x) trail (i + 1) (hi_at x trail i, hi_val x trail i).
Proof. intros. apply (mstate_same gef good gef_po); auto. intros. apply H1. lia. Qed.
Lemma lowest_same x trail i : 0 <= trail <= i -> i < zlen x -> allgood x ->
  mstate lef (zf x) trail (i + 1) (lo_at x trail i, lo_val x trail i).
Proof. intros. apply (mstate_same lef good lef_po); auto. intros. apply H1. lia. Qed.
Lemma hi_latest x lo hi : 0 <= lo <= hi -> hi < zlen x -> allgood x -> latest gef (zf x) lo hi (hi_at x lo hi).
Proof. intros. apply (argext_latest gef good gef_po); [lia|]. intros. apply H1. lia. Qed.
Lemma lo_latest x lo hi : 0 <= lo <= hi -> hi < zlen x -> allgood x -> latest lef (zf x) lo hi (lo_at x lo hi).
Proof. intros. apply (argext_latest lef good lef_po); [lia|]. intros. apply H1. lia. Qed.

Lemma max_fun size x o p : zlen x = size -> 0 <= size <= INT_MAX -> to_int o = Some p -> 1 <= p -> allgood x ->
  ti_max size [x] [o] = Ok (OKAY, [tab 0 (size - p + 1) (fun k => hi_val x k (k + p - 1))]).
Proof.
  openfun ti_max. setF.
  loop (fun i s => exists st, s = (i - p + 1, st, tab 0 (i - p + 1) F) /\ mstate gef (zf x) (i - p + 1) i st).
  - zl.
  - eexists. split; [replace (p - 1 - p + 1) with 0 by lia; rewrite tab_nil by lia; reflexivity|]. left. cbn. lia.
  - intros i s Hi (st & -> & Hm). wps. rewrite (highest_eq x) by (auto; zl). wps.
    eexists. split; [apply peq; [apply peq; [|reflexivity]; lia|]|].
    + apply (tab_next' _ (i - p + 1)); [zl|zl|reflexivity|]. unfold F. cbn [snd]. f_equal; lia.
    + replace (i + 1 - p + 1) with (i - p + 1 + 1) by lia. apply highest_next; auto; zl.
  - intros s (st & -> & _). fintab.
Qed.
Lemma min_fun size x o p : zlen x = size -> 0 <= size <= INT_MAX -> to_int o = Some p -> 1 <= p -> allgood x ->
  ti_min size [x] [o] = Ok (OKAY, [tab 0 (size - p + 1) (fun k => lo_val x k (k + p - 1))]).
Proof.
  openfun ti_min. setF.
  loop (fun i s => exists st, s = (i - p + 1, st, tab 0 (i - p + 1) F) /\ mstate lef (zf x) (i - p + 1) i st).
  - zl.
  - eexists. split; [replace (p - 1 - p + 1) with 0 by lia; rewrite tab_nil by lia; reflexivity|]. left. cbn. lia.
  - intros i s Hi (st & -> & Hm). wps. rewrite (lowest_eq x) by (auto; zl). wps.
    eexists. split; [apply peq; [apply peq; [|reflexivity]; lia|]|].
    + apply (tab_next' _ (i - p + 1)); [zl|zl|reflexivity|]. unfold F. cbn [snd]. f_equal; lia.
    + replace (i + 1 - p + 1) with (i - p + 1 + 1) by lia. apply lowest_next; auto; zl.
  - intros s (st & -> & _). fintab.
Qed.
Lemma max_ref_fun size x o p : zlen x = size -> 0 <= size <= INT_MAX -> to_int o = Some p -> 1 <= p -> allgood x ->
  ti_max_ref size [x] [o] = Ok (OKAY, [tab 0 (size - p + 1) (fun k => hi_val x k (k + p - 1))]).
Proof.
  openfun ti_max_ref. setF.
  loop (fun i s => s = tab 0 (i - p + 1) F).
  - zl.
  - rewrite tab_nil by lia. reflexivity.
  - intros i s Hi ->. wps. apply (wp_for (fun j m => m = hi_val x (i - p + 1) (j - 1))).
    + zl.
    + unfold hi_val, hi_at. replace (i - p + 2 - 1) with (i - p + 1) by lia. rewrite argext_one. reflexivity.
    + intros j m Hj ->. wps. unfold hi_val, hi_at. replace (j + 1 - 1) with (j - 1 + 1) by lia.
      rewrite argext_snoc by lia. replace (j - 1 + 1) with j by lia. unfold MAXf, gef at 3.
      assert (Hr : i - p + 1 <= argext gef (zf x) (i - p + 1) (j - 1) <= j - 1)
        by (apply (hi_latest x (i - p + 1) (j - 1)); auto; zl).
      rewrite (ord_lt_le _ _ OL) by (apply H3; zl). destruct (_ .>= _); reflexivity.
    + intros m ->. wps. apply (tab_next' _ (i - p + 1)); [zl|zl|reflexivity|]. unfold F. f_equal; lia.
  - intros s ->. fintab.
Qed.
Lemma min_ref_fun size x o p : zlen x = size -> 0 <= size <= INT_MAX -> to_int o = Some p -> 1 <= p -> allgood x ->
  ti_min_ref size [x] [o] = Ok (OKAY, [tab 0 (size - p + 1) (fun k => lo_val x k (k + p - 1))]).
Proof.
  openfun ti_min_ref. setF.
  loop (fun i s => s = tab 0 (i - p + 1) F).
  - zl.
  - rewrite tab_nil by lia. reflexivity.
  - intros i s Hi ->. wps. apply (wp_for (fun j m => m = lo_val x (i - p + 1) (j - 1))).
    + zl.
    + unfold lo_val, lo_at. replace (i - p + 2 - 1) with (i - p + 1) by lia. rewrite argext_one. reflexivity.
    + intros j m Hj ->. wps. unfold lo_val, lo_at. replace (j + 1 - 1) with (j - 1 + 1) by lia.
      rewrite argext_snoc by lia. replace (j - 1 + 1) with j by lia. unfold MINf, lef at 3.
      assert (Hr : i - p + 1 <= argext lef (zf x) (i - p + 1) (j - 1) <= j - 1)
        by (apply (lo_latest x (i - p + 1) (j - 1)); auto; zl).
      rewrite (ord_lt_le _ _ OL) by (apply H3; zl). destruct (_ .<= _); reflexivity.
    + intros m ->. wps. apply (tab_next' _ (i - p + 1)); [zl|zl|reflexivity|]. unfold F. f_equal; lia.
  - intros s ->. fintab.
Qed.
End F.

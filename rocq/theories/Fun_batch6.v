(** What psar, ultosc, stochrsi, vhf and fisher compute over the reals. *)
From Coq Require Import Reals Lra.
From Verif Require Import M_osc M_window Fun_window Fun_exact Fun_exact2 Fun_osc RSum RArith Fun_batch1 Fun_batch2 Fun_batch3 Fun_batch4 Fun_batch5 Fun_window2.
From Verif Require Export SpecR4.
Open Scope Z_scope.

(** ** Extremes *)
Lemma peak_0 f s i : i = s -> peak f s i = f s.
Proof. intros ->. unfold peak. rewrite trec_nil by lia. reflexivity. Qed.
Lemma peak_S f s i : s <= i -> peak f s (i + 1) = Rmax (peak f s i) (f (i + 1)).
Proof. intros. unfold peak. rewrite trec_snoc by lia. reflexivity. Qed.
Lemma trough_0 f s i : i = s -> trough f s i = f s.
Proof. intros ->. unfold trough. rewrite trec_nil by lia. reflexivity. Qed.
Lemma trough_S f s i : s <= i -> trough f s (i + 1) = Rmin (trough f s i) (f (i + 1)).
Proof. intros. unfold trough. rewrite trec_snoc by lia. reflexivity. Qed.
Lemma peak_spec f s i : s <= i -> (forall j, s <= j <= i -> (f j <= peak f s i)%R) /\ exists j, s <= j <= i /\ peak f s i = f j.
Proof.
  intros H. apply (zind (fun i => (forall j, s <= j <= i -> (f j <= peak f s i)%R) /\ exists j, s <= j <= i /\ peak f s i = f j) s i H).
  - rewrite peak_0 by lia. split; [intros j Hj; replace j with s by lia; lra|]. exists s. split; [lia|reflexivity].
  - intros n Hn [IH1 (k & Hk & IH2)]. rewrite peak_S by lia. split.
    + intros j Hj. destruct (Z.eq_dec j (n + 1)) as [->|]; [apply Rmax_r|]. eapply Rle_trans; [apply IH1; lia|apply Rmax_l].
    + unfold Rmax. destruct (Rle_dec (peak f s n) (f (n + 1))); [exists (n + 1)|exists k]; split; try lia; auto.
Qed.
Lemma peak_neg f s i : s <= i -> peak (fun j => - f j)%R s i = (- trough f s i)%R.
Proof.
  intros H. apply (zind (fun i => peak (fun j => - f j)%R s i = (- trough f s i)%R) s i H).
  - rewrite peak_0, trough_0 by lia. reflexivity.
  - intros n Hn IH. rewrite peak_S, trough_S, IH by lia. unfold Rmax, Rmin. destruct (Rle_dec _ _), (Rle_dec _ _); lra.
Qed.
Lemma trough_spec f s i : s <= i -> (forall j, s <= j <= i -> (trough f s i <= f j)%R) /\ exists j, s <= j <= i /\ trough f s i = f j.
Proof.
  intros H. destruct (peak_spec (fun j => - f j)%R s i H) as [P1 (k & Hk & P2)]. rewrite peak_neg in P1 by lia. rewrite peak_neg in P2 by lia. split.
  - intros j Hj. specialize (P1 j Hj). cbv beta in P1. lra.
  - exists k. split; [exact Hk|lra].
Qed.
Lemma peak_unique f s i m : s <= i -> (forall j, s <= j <= i -> (f j <= m)%R) -> (exists j, s <= j <= i /\ m = f j) -> m = peak f s i.
Proof. intros H M1 (k & Hk & M2). destruct (peak_spec f s i H) as [P1 (j & Hj & P2)]. apply Rle_antisym; [rewrite M2; apply P1; lia|rewrite P2; apply M1; lia]. Qed.
Lemma trough_unique f s i m : s <= i -> (forall j, s <= j <= i -> (m <= f j)%R) -> (exists j, s <= j <= i /\ m = f j) -> m = trough f s i.
Proof. intros H M1 (k & Hk & M2). destruct (trough_spec f s i H) as [P1 (j & Hj & P2)]. apply Rle_antisym; [rewrite P2; apply M1; lia|rewrite M2; apply P1; lia]. Qed.

(** ** psar *)
Lemma new_highs_0 f s i : i = s -> new_highs f s i = 0.
Proof. intros ->. unfold new_highs. rewrite trec_nil by lia. reflexivity. Qed.
Lemma new_highs_S f s i : s <= i -> new_highs f s (i + 1) = if Rltb (peak f s i) (f (i + 1)) then new_highs f s i + 1 else new_highs f s i.
Proof. intros. unfold new_highs. rewrite trec_snoc by lia. replace (i + 1 - 1) with i by lia. reflexivity. Qed.
Lemma new_lows_0 f s i : i = s -> new_lows f s i = 0.
Proof. intros ->. unfold new_lows. rewrite trec_nil by lia. reflexivity. Qed.
Lemma new_lows_S f s i : s <= i -> new_lows f s (i + 1) = if Rltb (f (i + 1)) (trough f s i) then new_lows f s i + 1 else new_lows f s i.
Proof. intros. unfold new_lows. rewrite trec_snoc by lia. replace (i + 1 - 1) with i by lia. reflexivity. Qed.
Lemma accel_0 st tp : (0 < st < tp)%R -> accel_of st tp 0 = st.
Proof. intros. unfold accel_of. rewrite Rmult_1_r. apply Rmin_right. lra. Qed.
Lemma accel_S st tp n (b : bool) : (0 < st < tp)%R ->
  (if (Rltb (accel_of st tp n) tp && b)%bool then (if Rltb tp (accel_of st tp n + st) then tp else (accel_of st tp n + st)%R) else accel_of st tp n)
  = accel_of st tp (if b then n + 1 else n).
Proof.
  intros H. unfold accel_of. destruct b; [|rewrite andb_false_r; reflexivity]. rewrite andb_true_r. rewrite !plus_IZR. unfold Rmin.
  repeat match goal with |- context[Rle_dec ?a ?b] => destruct (Rle_dec a b) | |- context[Rltb ?a ?b] => destruct (Rltb_spec a b) end; nra.
Qed.
Lemma psar_at_S st tp h l i : 1 <= i -> psar_at st tp h l i = psar_next st tp h l i (psar_at st tp h l (i - 1)).
Proof. intros. unfold psar_at. rewrite trec_snoc by lia. rewrite Z.sub_add. reflexivity. Qed.
Lemma psar_since st tp h l i : 0 <= i -> 0 <= since (psar_at st tp h l i) <= i.
Proof.
  intros H. apply (zind (fun i => 0 <= since (psar_at st tp h l i) <= i) 0 i H).
  - unfold psar_at. rewrite trec_nil by lia. unfold psar_first. destruct (Rleb _ _); cbn; lia.
  - intros n Hn IH. rewrite psar_at_S by lia. replace (n + 1 - 1) with n by lia. unfold psar_next. cbv zeta. destruct (up _); destruct (Rltb _ _); cbn; lia.
Qed.
Definition psar_ext h l i t : R := if up t then peak (zr h) (since t) i else trough (zr l) (since t) i.
Definition psar_acc st tp h l i t : R := accel_of st tp (if up t then new_highs (zr h) (since t) i else new_lows (zr l) (since t) i).
Lemma Rmin_gt a b : (if Rltb b a then b else a) = Rmin a b.
Proof. unfold Rmin. destruct (Rltb_spec b a), (Rle_dec a b); lra. Qed.
Lemma Rmax_gt a b : (if Rltb a b then b else a) = Rmax a b.
Proof. unfold Rmax. destruct (Rltb_spec a b), (Rle_dec a b); lra. Qed.
Lemma psar_fun size (h l : list R) st tp : zlen h = size -> zlen l = size -> 0 <= size <= INT_MAX -> (0 < st < tp)%R ->
  @ti_psar RA size [h; l] [st; tp] = Ok (OKAY, [tab 1 size (fun i => stop (psar_at st tp h l i))]).
Proof.
  intros Hh Hl Hs Ht. apply wp_eq. unfold ti_psar. change (@T RA) with R in *. toR. change (@T RA) with R in *.
  destruct (Rleb_spec st 0); [lra|]. destruct (Rleb_spec tp st); [lra|]. destruct (size <? 2) eqn:E2. { rewrite tab_nil by lia. reflexivity. }
  rewrite !rdr by zl. cbn [bind]. match goal with |- context[tab 1 size ?f] => set (F := f) end.
  apply wp_bind. apply (wp_for (fun i s => let t := psar_at st tp h l (i - 1) in s = (up t, stop t, psar_ext h l (i - 1) t, psar_acc st tp h l (i - 1) t, tab 1 i F))).
  - lia.
  - cbv zeta. unfold psar_at. rewrite trec_nil by lia. unfold psar_first. rewrite tab_nil by lia. destruct (Rleb _ _); unfold psar_ext, psar_acc; cbn [up since stop];
      [rewrite peak_0, new_highs_0 by lia|rewrite trough_0, new_lows_0 by lia]; rewrite accel_0 by exact Ht; reflexivity.
  - intros i s Hi ->. cbv zeta. cbn beta iota. replace (i + 1 - 1) with i by lia. rewrite (psar_at_S st tp h l i) by lia. rewrite !rdr by zl. cbn [bind].
    pose proof (psar_since st tp h l (i - 1) ltac:(lia)) as Hb. rewrite (tab_snoc 1 i F) by lia. change (F i) with (stop (psar_at st tp h l i)). rewrite (psar_at_S st tp h l i) by lia. set (t := psar_at st tp h l (i - 1)) in *. clearbody t.
    destruct t as [u b sp]. unfold psar_next, psar_ext, psar_acc. cbn [up since stop] in *. cbv zeta.
    assert (Ep : peak (zr h) b i = Rmax (peak (zr h) b (i - 1)) (zr h i)) by (replace i with (i - 1 + 1) at 1 3 by lia; apply peak_S; lia).
    assert (Et : trough (zr l) b i = Rmin (trough (zr l) b (i - 1)) (zr l i)) by (replace i with (i - 1 + 1) at 1 3 by lia; apply trough_S; lia).
    assert (Eh : new_highs (zr h) b i = if Rltb (peak (zr h) b (i - 1)) (zr h i) then new_highs (zr h) b (i - 1) + 1 else new_highs (zr h) b (i - 1)) by (replace i with (i - 1 + 1) at 1 3 by lia; apply new_highs_S; lia).
    assert (El : new_lows (zr l) b i = if Rltb (zr l i) (trough (zr l) b (i - 1)) then new_lows (zr l) b (i - 1) + 1 else new_lows (zr l) b (i - 1)) by (replace i with (i - 1 + 1) at 1 2 by lia; apply new_lows_S; lia).
    destruct u.
    + assert (Es : (if i >=? 2 then bind (@rd R l (i - 2)) (fun l2 => Ok (if Rltb l2 ((peak (zr h) b (i - 1) - sp) * accel_of st tp (new_highs (zr h) b (i - 1)) + sp) then l2 else ((peak (zr h) b (i - 1) - sp) * accel_of st tp (new_highs (zr h) b (i - 1)) + sp)%R)) else Ok ((peak (zr h) b (i - 1) - sp) * accel_of st tp (new_highs (zr h) b (i - 1)) + sp)%R)
         = Ok (let s := (sp + accel_of st tp (new_highs (zr h) b (i - 1)) * (peak (zr h) b (i - 1) - sp))%R in if i <? 2 then s else Rmin s (zr l (i - 2)))).
      { replace ((peak (zr h) b (i - 1) - sp) * accel_of st tp (new_highs (zr h) b (i - 1)) + sp)%R with (sp + accel_of st tp (new_highs (zr h) b (i - 1)) * (peak (zr h) b (i - 1) - sp))%R by ring. cbv zeta.
        destruct (Z.geb_spec i 2); destruct (Z.ltb_spec i 2); try lia; [|reflexivity]. rewrite rdr by zl. cbn [bind]. rewrite Rmin_gt. reflexivity. }
      rewrite Es. cbv zeta. cbn [bind]. rewrite rdr by zl. cbn [bind]. change (@T RA) with R. rewrite Rmin_gt. fold (hold_below l i (sp + accel_of st tp (new_highs (zr h) b (i - 1)) * (peak (zr h) b (i - 1) - sp))). set (sar := hold_below _ _ _).
      rewrite accel_S by exact Ht. rewrite <- Eh, Rmax_gt, <- Ep. cbn [andb orb negb]. rewrite orb_false_r. destruct (Rltb_spec (zr l i) sar); cbn [wp up since stop].
      * rewrite trough_0, new_lows_0, accel_0 by (try exact Ht; lia). reflexivity.
      * reflexivity.
    + assert (Es : (if i >=? 2 then bind (@rd R h (i - 2)) (fun l2 => Ok (if Rltb ((trough (zr l) b (i - 1) - sp) * accel_of st tp (new_lows (zr l) b (i - 1)) + sp) l2 then l2 else ((trough (zr l) b (i - 1) - sp) * accel_of st tp (new_lows (zr l) b (i - 1)) + sp)%R)) else Ok ((trough (zr l) b (i - 1) - sp) * accel_of st tp (new_lows (zr l) b (i - 1)) + sp)%R)
         = Ok (let s := (sp + accel_of st tp (new_lows (zr l) b (i - 1)) * (trough (zr l) b (i - 1) - sp))%R in if i <? 2 then s else Rmax s (zr h (i - 2)))).
      { replace ((trough (zr l) b (i - 1) - sp) * accel_of st tp (new_lows (zr l) b (i - 1)) + sp)%R with (sp + accel_of st tp (new_lows (zr l) b (i - 1)) * (trough (zr l) b (i - 1) - sp))%R by ring. cbv zeta.
        destruct (Z.geb_spec i 2); destruct (Z.ltb_spec i 2); try lia; [|reflexivity]. rewrite rdr by zl. cbn [bind]. rewrite Rmax_gt. reflexivity. }
      rewrite Es. cbv zeta. cbn [bind]. rewrite rdr by zl. cbn [bind]. change (@T RA) with R. rewrite Rmax_gt. fold (hold_above h i (sp + accel_of st tp (new_lows (zr l) b (i - 1)) * (trough (zr l) b (i - 1) - sp))). set (sar := hold_above _ _ _).
      rewrite accel_S by exact Ht. rewrite <- El, Rmin_gt, <- Et. cbn [andb orb negb]. destruct (Rltb_spec sar (zr h i)); cbn [wp up since stop].
      * rewrite peak_0, new_highs_0, accel_0 by (try exact Ht; lia). reflexivity.
      * reflexivity.
  - intros s ->. cbv zeta. cbn beta iota. rewrite zlen_tab. replace (Z.max 0 (size - 1) =? size - 1) with true by lia. cbn [check bind wp]. reflexivity.
Qed.

(** ** ultosc *)
Lemma MINf_R (a b : R) : @MINf RA a b = Rmin a b.
Proof. unfold MINf. cbn. unfold Rmin. destruct (Rltb_spec a b), (Rle_dec a b); lra. Qed.
Lemma drop_ok (b1 b2 : @buffer RA) g p i (f1 f2 : Z -> R) s1 s2 : bufR b1 g f1 1 (i + 1) -> bufR b2 g f2 1 (i + 1) -> 1 <= p < g -> p < i ->
  @ultosc_drop RA b1 b2 g p (s1, s2) = Ok (s1 - f1 (i - p)%Z, s2 - f2 (i - p)%Z)%R.
Proof.
  intros (_ & H1 & _) (_ & H2 & _) Hp Hi. unfold ultosc_drop.
  assert (Ei : (if bindex b1 - p - 1 <? 0 then bindex b1 - p - 1 + g else bindex b1 - p - 1) = (i - p - 1) mod g).
  { destruct H1 as (_ & _ & -> & _). change (@T RA) with R. rewrite zlen_tab. replace (Z.max 0 (i + 1 - 1)) with i by lia.
    pose proof (Z.div_mod i g ltac:(lia)). pose proof (Z.mod_pos_bound i g ltac:(lia)). set (m := i mod g) in *.
    destruct (Z.ltb_spec (m - p - 1) 0).
    - apply (Z.mod_unique_pos _ _ (i / g - 1)); lia.
    - apply (Z.mod_unique_pos _ _ (i / g)); lia. }
  cbv zeta. rewrite Ei. rewrite (slots_rd b1 g 1 (i + 1) f1 (i - p) H1), (slots_rd b2 g 1 (i + 1) f2 (i - p) H2) by lia. reflexivity.
Qed.
Lemma share_R a b k : @truth RA a = negb (Reqb a 0) -> (if negb (Reqb a 0) then (k * a / b)%R else 0%R) = (k * share a b)%R.
Proof. intros _. unfold share. destruct (Reqb_spec a 0); cbn [negb]; [ring|unfold Rdiv; ring]. Qed.
Lemma truth_R a : @truth RA a = negb (Reqb a 0).
Proof. reflexivity. Qed.
Lemma ultosc_fun size (h l c : list R) o1 o2 o3 s m g : zlen h = size -> zlen l = size -> zlen c = size -> 0 <= size <= INT_MAX ->
  @to_int RA o1 = Some s -> @to_int RA o2 = Some m -> @to_int RA o3 = Some g -> 1 <= s <= m -> m < g <= 268435452 ->
  @ti_ultosc RA size [h; l; c] [o1; o2; o3] = Ok (OKAY, [tab 0 (size - g) (fun k => ultosc_at s m g h l c (k + g))]).
Proof.
  intros Hh Hl Hc Hs Ho1 Ho2 Ho3 Hsm Hg. ranges. apply wp_eq. unfold ti_ultosc, ti_ultosc_start. wps; contra. { rewrite tab_nil by zl. reflexivity. }
  setF. set (f1 := pressure l c). set (f2 := full_range h l c).
  destruct (bufR_new g f1 1 ltac:(lia)) as (b1 & Eb1 & Hb1). destruct (bufR_new g f2 1 ltac:(lia)) as (b2 & Eb2 & Hb2). rewrite Eb1 in Eb2. injection Eb2 as <-. rewrite Eb1. wps.
  set (W := fun p i f => zsum (Z.max 1 (i - p)) i f).
  apply (wp_for (fun i st => exists b1 b2, st = (b1, b2, (W s i f1, W s i f2), (W m i f1, W m i f2), tab 0 (i - g) F) /\ bufR b1 g f1 1 i /\ bufR b2 g f2 1 i)).
  - lia.
  - exists b1, b1. split; [|split; assumption]. unfold W. rewrite !zsum_nil by lia. rewrite tab_nil by lia. reflexivity.
  - clear b1 Eb1 Hb1 Hb2. intros i st Hi (b1 & b2 & -> & Hb1 & Hb2). cbn beta iota. do 4 wread. cbv zeta. rewrite MINf_R, MAXf_R. cbn [fst snd]. toR.
    fold (true_low l c i). fold (true_high h c i). change (zr c i - true_low l c i)%R with (f1 i). change (true_high h c i - true_low l c i)%R with (f2 i).
    destruct (bufR_push b1 g f1 1 i (f1 i) Hb1 eq_refl) as (b1' & Eb1 & Hb1' & S1). destruct (bufR_push b2 g f2 1 i (f2 i) Hb2 eq_refl) as (b2' & Eb2 & Hb2' & S2).
    rewrite Eb1. cbn [bind]. rewrite Eb2. cbn [bind].
    assert (WS : forall p f, 1 <= p -> W p (i + 1) f = if i >? p then (W p i f + f i - f (i - p)%Z)%R else (W p i f + f i)%R).
    { intros p f Hp. unfold W. destruct (i >? p) eqn:Ew.
      - replace (Z.max 1 (i + 1 - p)) with (i - p + 1) by lia. replace (Z.max 1 (i - p)) with (i - p) by lia. rewrite zsum_snoc by lia. rewrite (zsum_cons (i - p)) by lia. ring.
      - replace (Z.max 1 (i + 1 - p)) with 1 by lia. replace (Z.max 1 (i - p)) with 1 by lia. rewrite zsum_snoc by lia. ring. }
    apply wp_bind. apply (wp_mono _ (fun r => r = ((W s (i + 1) f1, W s (i + 1) f2), (W m (i + 1) f1, W m (i + 1) f2)))).
    { rewrite !WS by lia. destruct (i >? s) eqn:Ex1.
      - rewrite (drop_ok b1' b2' g s i f1 f2) by (assumption || lia). cbn [bind]. destruct (i >? m) eqn:Ex3; [|reflexivity].
        rewrite (drop_ok b1' b2' g m i f1 f2) by (assumption || lia). reflexivity.
      - destruct (i >? m) eqn:Ex3; [lia|]. reflexivity. }
    intros r ->. cbn beta iota. cbn [fst snd wp]. exists b1', b2'. split; [|split; assumption]. repeat apply peq; try reflexivity.
    destruct (i >=? g) eqn:Eg; [|rewrite !tab_nil by lia; reflexivity]. apply (tab_next' _ (i - g)); [lia|lia|reflexivity|]. unfold F. rewrite Z.sub_add. unfold ultosc_at, pressure_share, lastsum. rewrite !truth_R. toR. 
    rewrite S1, S2. unfold W. replace (Z.max 1 (i + 1 - s)) with (i - s + 1) by lia. replace (Z.max 1 (i + 1 - m)) with (i - m + 1) by lia. replace (Z.max 1 (i + 1 - g)) with (i - g + 1) by lia.
    fold f1 f2. rewrite !share_R by apply truth_R. rewrite Rmult_1_l. reflexivity.
  - intros st (b1' & b2' & -> & _). cbn beta iota. fintab.
Qed.

(** ** vhf, fisher *)
Lemma hi_get (g : Z -> R) get trail i s : 0 <= trail <= i -> (forall j, trail <= j <= i -> get j = Ok (g j)) -> @mstate RA (@gef RA) g trail i s ->
  exists k, @M_window.highest RA get trail i s = Ok (k, peak g trail i) /\ @mstate RA (@gef RA) g (trail + 1) (i + 1) (k, peak g trail i).
Proof.
  intros Ht Hget Hm. pose proof (gef_po (fun _ => True) RA_ord) as PO. set (k := argext (@gef RA) g trail i).
  destruct (argext_latest (@gef RA) _ PO g trail i ltac:(lia) (fun _ _ => I)) as (R1 & R2 & _). fold k in R1, R2.
  assert (E : g k = peak g trail i).
  { apply peak_unique; [lia| |exists k; auto]. intros j Hj. specialize (R2 j Hj). unfold gef in R2. toR. destruct (Rleb_spec (g j) (g k)); [assumption|discriminate]. }
  exists k. rewrite <- E. split; [apply (maintain_eq (@gef RA) _ PO); auto|apply (mstate_next (@gef RA) _ PO); auto].
Qed.
Lemma lo_get (g : Z -> R) get trail i s : 0 <= trail <= i -> (forall j, trail <= j <= i -> get j = Ok (g j)) -> @mstate RA (@lef RA) g trail i s ->
  exists k, @M_window.lowest RA get trail i s = Ok (k, trough g trail i) /\ @mstate RA (@lef RA) g (trail + 1) (i + 1) (k, trough g trail i).
Proof.
  intros Ht Hget Hm. pose proof (lef_po (fun _ => True) RA_ord) as PO. set (k := argext (@lef RA) g trail i).
  destruct (argext_latest (@lef RA) _ PO g trail i ltac:(lia) (fun _ _ => I)) as (R1 & R2 & _). fold k in R1, R2.
  assert (E : g k = trough g trail i).
  { apply trough_unique; [lia| |exists k; auto]. intros j Hj. specialize (R2 j Hj). unfold lef in R2. toR. destruct (Rleb_spec (g k) (g j)); [assumption|discriminate]. }
  exists k. rewrite <- E. split; [apply (maintain_eq (@lef RA) _ PO); auto|apply (mstate_next (@lef RA) _ PO); auto].
Qed.
Lemma height_nonneg f s i : s <= i -> (0 <= peak f s i - trough f s i)%R.
Proof. intros H. destruct (peak_spec f s i H) as [P _]. destruct (trough_spec f s i H) as [Q _]. specialize (P i ltac:(lia)). specialize (Q i ltac:(lia)). lra. Qed.
Lemma vhf_fun size (x : list R) o p : zlen x = size -> 0 <= size <= INT_MAX -> @to_int RA o = Some p -> 1 <= p ->
  @ti_vhf RA size [x] [o] = Ok (OKAY, [tab 0 (size - p) (fun k => vhf_at p x (k + p))]).
Proof.
  intros Hx Hs Ho Hp. ranges. apply wp_eq. unfold ti_vhf, start_p. wps; contra. { rewrite tab_nil by zl. reflexivity. }
  setF. set (g := fun j => Rabs (zr x j - zr x (j - 1))).
  apply (wp_for (fun i st => st = (zsum 1 i g, zr x (i - 1)))).
  - lia.
  - rewrite !zsum_nil by lia. reflexivity.
  - intros i st Hi ->. cbn beta iota. wread. toR. cbn [wp]. rewrite zsum_snoc by lia. replace (i + 1 - 1) with i by lia. reflexivity.
  - intros st ->. wps.
    apply (wp_for (fun i st => exists sx sn, st = (i - p + 1, sx, sn, zsum (Z.max 1 (i - p)) i g, zr x (i - 1), tab 0 (i - p) F) /\
      @mstate RA (@gef RA) (zr x) (i - p + 1) i sx /\ @mstate RA (@lef RA) (zr x) (i - p + 1) i sn)).
    + lia.
    + exists (-1, zr x 0), (-1, zr x 0). split; [|split; left; cbn; lia]. rewrite tab_nil by lia. repeat apply peq; try reflexivity; try lia. f_equal; lia.
    + intros i st Hi (sx & sn & -> & Hx' & Hn'). cbn beta iota. wread. toR.
      assert (Es : zsum (Z.max 1 (i - p + 1)) (i + 1) g = path p x i) by (unfold path; f_equal; lia).
      apply wp_bind. apply (wp_mono _ (fun r => r = path p x i)).
      { rewrite <- Es. destruct (i >? p) eqn:Ep.
        - rewrite !rdr by zl. cbn [bind wp]. replace (Z.max 1 (i - p + 1)) with (i - p + 1) by lia. replace (Z.max 1 (i - p)) with (i - p) by lia. rewrite (zsum_snoc _ i) by lia. rewrite (zsum_cons (i - p)) by lia.
          change (Rabs (zr x i - zr x (i - 1))) with (g i). change (Rabs (zr x (i - p) - zr x (i - p - 1))) with (g (i - p)). ring.
        - cbn [wp]. replace (Z.max 1 (i - p + 1)) with 1 by lia. replace (Z.max 1 (i - p)) with 1 by lia. rewrite zsum_snoc by lia. reflexivity. }
      intros r ->.
      destruct (hi_get (zr x) (@rd R x) (i - p + 1) i sx) as (k1 & E1' & M1); [lia|intros; apply rdr; zl|exact Hx'|].
      destruct (lo_get (zr x) (@rd R x) (i - p + 1) i sn) as (k2 & E2' & M2); [lia|intros; apply rdr; zl|exact Hn'|].
      change (@T RA) with R in *. rewrite E1'. cbn [bind]. rewrite E2'. cbn [bind wp]. cbn [fst snd]. do 2 eexists.
      replace (i + 1 - p + 1) with (i - p + 1 + 1) by lia. split; [|split; eassumption]. replace (i + 1 - 1) with i by lia. repeat apply peq; try reflexivity; try lia.
      * rewrite <- Es. f_equal; lia.
      * apply (tab_next' _ (i - p)); [lia|lia|reflexivity|]. unfold F, vhf_at, share. rewrite Z.sub_add. rewrite truth_R. pose proof (height_nonneg (zr x) (i - p + 1) i ltac:(lia)) as Hn. rewrite (Rabs_right (_ - _)%R) by lra. destruct (Reqb _ 0); reflexivity.
    + intros st (sx & sn & -> & _). cbn beta iota. fintab.
Qed.
Lemma fisher_val_S p h l i : p - 1 <= i -> fisher_val p h l i = cut (66 / 100 * fisher_place p h l i + 67 / 100 * fisher_val p h l (i - 1)).
Proof. intros. unfold fisher_val. rewrite trec_snoc by lia. rewrite Z.sub_add. reflexivity. Qed.
Lemma fisher_at_S p h l i : p - 1 <= i -> fisher_at p h l i = ((ln ((1 + fisher_val p h l i) / (1 - fisher_val p h l i)) + fisher_at p h l (i - 1)) / 2)%R.
Proof. intros. unfold fisher_at. rewrite trec_snoc by lia. rewrite Z.sub_add. reflexivity. Qed.
Lemma fisher_fun size (h l : list R) o p : zlen h = size -> zlen l = size -> 0 <= size <= INT_MAX -> @to_int RA o = Some p -> 1 <= p ->
  @ti_fisher RA size [h; l] [o] = Ok (OKAY, [tab 0 (size - p + 1) (fun k => fisher_at p h l (k + (p - 1))); tab 0 (size - p + 1) (fun k => fisher_at p h l (k + (p - 1) - 1))]).
Proof.
  intros Hh Hl Hs Ho Hp. ranges. apply wp_eq. unfold ti_fisher, start_p1. wps; contra. { rewrite !tab_nil by zl. reflexivity. }
  match goal with |- context[[tab 0 ?s ?F0; tab 0 ?s ?F1]] => set (G0 := F0); set (G1 := F1) end.
  set (m := median_price h l). assert (Hm : forall j, 0 <= j < size -> @HL RA h l j = Ok (m j)).
  { intros j Hj. unfold HL. change (@T RA) with R. rewrite !rdr by zl. cbn [bind]. toR. unfold m, median_price. f_equal. change (10 ^ 1) with 10. field. }
  rewrite Hm by lia. wps.
  apply (wp_for (fun i st => exists sx sn, st = (i - p + 1, sx, sn, fisher_val p h l (i - 1), fisher_at p h l (i - 1), tab 0 (i - p + 1) G0, tab 0 (i - p + 1) G1) /\
      @mstate RA (@gef RA) m (i - p + 1) i sx /\ @mstate RA (@lef RA) m (i - p + 1) i sn)).
  - lia.
  - exists (-1, m 0), (-1, m 0). split; [|split; left; cbn; lia]. rewrite !tab_nil by lia. unfold fisher_val, fisher_at. rewrite !trec_nil by lia. repeat apply peq; try reflexivity; try lia.
  - intros i st Hi (sx & sn & -> & Hx' & Hn'). cbn beta iota.
    destruct (hi_get m (@HL RA h l) (i - p + 1) i sx) as (k1 & E1' & M1); [lia|intros; apply Hm; lia|exact Hx'|].
    destruct (lo_get m (@HL RA h l) (i - p + 1) i sn) as (k2 & E2' & M2); [lia|intros; apply Hm; lia|exact Hn'|].
    rewrite E1'. cbn [bind]. rewrite E2'. cbn [bind]. rewrite Hm by lia. cbn [bind]. cbv zeta. cbn [fst snd]. toR. change (@T RA) with R in *. cbn [wp].
    set (r := (peak m (i - p + 1) i - trough m (i - p + 1) i)%R).
    assert (EV : forall v0, (let v1 := (IZR 33 / IZR (10 ^ 2) * 2 * ((m i - trough m (i - p + 1) i) / (if Reqb r 0 then 1 / IZR (10 ^ 3) else r) - IZR 5 / IZR (10 ^ 1)) + IZR 67 / IZR (10 ^ 2) * v0)%R in
        let v2 := if Rltb (IZR 99 / IZR (10 ^ 2)) v1 then (IZR 999 / IZR (10 ^ 3))%R else v1 in if Rltb v2 (- (IZR 99 / IZR (10 ^ 2))) then (- (IZR 999 / IZR (10 ^ 3)))%R else v2) = cut (66 / 100 * fisher_place p h l i + 67 / 100 * v0)).
    { intros v0. cbv zeta. unfold fisher_place, cut. cbv zeta. fold m. fold r. change (10 ^ 1) with 10. change (10 ^ 2) with 100. change (10 ^ 3) with 1000.
      set (q := ((m i - trough m (i - p + 1) i) / (if Reqb r 0 then 1 / 1000 else r))%R). clearbody q.
      replace (66 / 100 * (q - 1 / 2) + 67 / 100 * v0)%R with (33 / 100 * 2 * (q - 5 / 10) + 67 / 100 * v0)%R by lra.
      set (v1 := (_ + _)%R). destruct (Rltb_spec (99 / 100) v1); [|reflexivity]. destruct (Rltb_spec (999 / 1000) (- (99 / 100))); [lra|reflexivity]. }
    specialize (EV (fisher_val p h l (i - 1))). cbv zeta in EV. rewrite EV. rewrite <- fisher_val_S by lia.
    do 2 eexists. replace (i + 1 - p + 1) with (i - p + 1 + 1) by lia. split; [|split; eassumption]. replace (i + 1 - 1) with i by lia. 
    assert (EF : (IZR 5 / IZR (10 ^ 1) * ln ((1 + fisher_val p h l i) / (1 - fisher_val p h l i)) + IZR 5 / IZR (10 ^ 1) * fisher_at p h l (i - 1))%R = fisher_at p h l i).
    { rewrite (fisher_at_S p h l i) by lia. change (10 ^ 1) with 10. field. }
    repeat apply peq; try reflexivity; try exact EF.
    + apply (tab_next' _ (i - p + 1)); [lia|lia|reflexivity|]. unfold G0. etransitivity; [exact EF|]. f_equal. lia.
    + apply (tab_next' _ (i - p + 1)); [lia|lia|reflexivity|]. unfold G1. f_equal. lia.
  - intros st (sx & sn & -> & _). cbn beta iota. wps; try zl. repeat f_equal; lia.
Qed.

(** ** stochrsi *)
(** [best cmp f a b m mi k]: f k = m is not beaten by any of f a .. f b; mi is its slot. *)
Record orderly (cmp : R -> R -> bool) : Prop := {
  o_irr : forall a, cmp a a = false;
  o_asym : forall a b, cmp a b = true -> cmp b a = false;
  o_trans : forall a b c, cmp a b = false -> cmp b c = false -> cmp a c = false }.
Lemma orderly_gt : orderly (fun a b => Rltb b a).
Proof. split; intros; repeat match goal with H : context[Rltb ?a ?b] |- _ => destruct (Rltb_spec a b); try discriminate; clear H | |- context[Rltb ?a ?b] => destruct (Rltb_spec a b) end; (reflexivity || lra). Qed.
Lemma orderly_lt : orderly (fun a b => Rltb a b).
Proof. split; intros; repeat match goal with H : context[Rltb ?a ?b] |- _ => destruct (Rltb_spec a b); try discriminate; clear H | |- context[Rltb ?a ?b] => destruct (Rltb_spec a b) end; (reflexivity || lra). Qed.
Definition best (cmp : R -> R -> bool) (f : Z -> R) (lo p a b : Z) (s : Z * R) : Prop :=
  exists k, a <= k <= b /\ snd s = f k /\ fst s = (k - lo) mod p /\ forall j, a <= j <= b -> cmp (f j) (snd s) = false.
Lemma slot_shift p a b : 0 < p -> a mod p = b mod p -> b - p <= a < b -> a = b - p.
Proof. intros Hp E H. pose proof (Z.div_mod a p ltac:(lia)) as D1. pose proof (Z.div_mod b p ltac:(lia)) as D2. rewrite E in D1. set (u := a / p) in *. set (v := b / p) in *. assert (v - u = 1) by nia. nia. Qed.
Lemma slot_same p a b : 0 < p -> a mod p = b mod p -> - p < a - b < p -> a = b.
Proof. intros Hp E H. pose proof (Z.div_mod a p ltac:(lia)) as D1. pose proof (Z.div_mod b p ltac:(lia)) as D2. rewrite E in D1. set (u := a / p) in *. set (v := b / p) in *. assert (v = u) by nia. nia. Qed.
Lemma slot_eq p lo a b : 0 < p -> (a - lo) mod p = (b - lo) mod p -> - p < a - b < p -> a = b.
Proof. intros Hp E H. assert (a - lo = b - lo) by (apply (slot_same p); [lia|exact E|lia]). lia. Qed.
Lemma stochrsi_ext_ok cmp (O : orderly cmp) (b : @buffer RA) p lo i (f : Z -> R) s :
  @slots_ok RA b p (tab lo i f) -> 2 <= p -> lo < i -> best cmp f lo p (Z.max lo (i - p)) (i - 1) s ->
  exists s', @stochrsi_ext RA cmp b (f i) s = Ok s' /\ best cmp f lo p (Z.max lo (i - p + 1)) i s'.
Proof.
  intros Hb Hp Hi (k & Hk & Hm & Hs & Hbest). destruct s as [mi m]. cbn [fst snd] in *. subst m.
  assert (Ei : bindex b = (i - lo) mod p). { destruct Hb as (_ & _ & -> & _). change (@T RA) with R. rewrite zlen_tab. f_equal. lia. }
  assert (Ez : bsize b = p) by apply Hb.
  unfold stochrsi_ext. destruct (cmp (f i) (f k)) eqn:Ec.
  { eexists. split; [reflexivity|]. exists i. cbn [fst snd]. split; [lia|]. split; [reflexivity|]. split; [exact Ei|]. intros j Hj.
    destruct (Z.eq_dec j i) as [->|]; [apply (o_irr _ O)|]. apply (o_trans _ O _ (f k)); [apply Hbest; lia|apply (o_asym _ O); exact Ec]. }
  destruct (Z.eqb_spec mi (bindex b)) as [Em|Em].
  2: { eexists. split; [reflexivity|]. exists k. cbn [fst snd].
       assert (k <> i - p) by (intros ->; apply Em; rewrite Hs, Ei; replace (i - lo) with (i - p - lo + 1 * p) by lia; rewrite Z.mod_add by lia; reflexivity).
       split; [lia|]. split; [reflexivity|]. split; [exact Hs|]. intros j Hj. destruct (Z.eq_dec j i) as [->|]; [exact Ec|apply Hbest; lia]. }
  assert (Ek : k = i - p). { assert (k - lo = i - lo - p); [|lia]. apply slot_shift; [lia|congruence|lia]. }
  (* every slot but the next one holds one of the p-1 youngest values *)
  assert (V : forall j, 0 <= j < p -> j <> bindex b -> exists q, i - p + 1 <= q <= i - 1 /\ (q - lo) mod p = j /\ @rdo (@T RA) (bvals b) j = Ok (f q)).
  { intros j Hj Hn. set (q := i - 1 - (i - 1 - lo - j) mod p). pose proof (Z.mod_pos_bound (i - 1 - lo - j) p ltac:(lia)).
    assert (Eq : (q - lo) mod p = j). { unfold q. pose proof (Z.div_mod (i - 1 - lo - j) p ltac:(lia)). symmetry. apply (Z.mod_unique_pos _ _ ((i - 1 - lo - j) / p)); lia. }
    assert (q <> i - p) by (intros E; apply Hn; rewrite <- Eq, Ei, E; replace (i - lo) with (i - p - lo + 1 * p) by lia; rewrite Z.mod_add by lia; reflexivity).
    exists q. split; [lia|]. split; [exact Eq|]. rewrite <- Eq. apply (slots_rd b p lo i f q Hb); lia. }
  assert (V' : forall q, i - p + 1 <= q <= i - 1 -> 0 <= (q - lo) mod p < p /\ (q - lo) mod p <> bindex b).
  { intros q Hq. split; [apply Z.mod_pos_bound; lia|]. rewrite Ei. intros E. assert (q - lo = i - lo - p); [|lia]. apply slot_shift; lia. }
  assert (W : wp (for_ 0 (bsize b) (fun j '(mi, m) => if j =? bindex b then Ok (mi, m) else bind (@rdo (@T RA) (bvals b) j) (fun v => Ok (if cmp v m then (j, v) else (mi, m)))) (mi, f i))
     (fun s' => best cmp f lo p (i - p + 1) i s')).
  { apply (wp_for (fun j s' => (exists q, i - p + 1 <= q <= i /\ snd s' = f q /\ fst s' = (q - lo) mod p) /\ cmp (f i) (snd s') = false /\
       forall q, i - p + 1 <= q <= i - 1 -> (q - lo) mod p < j -> cmp (f q) (snd s') = false)).
    - lia.
    - split; [exists i; cbn [fst snd]; split; [lia|split; [reflexivity|congruence]]|]. split; [apply (o_irr _ O)|]. intros q Hq Hl. pose proof (Z.mod_pos_bound (q - lo) p). lia.
    - rewrite Ez. intros j [mi' m'] Hj ((q & Hq & Eq & Es) & Hi' & Hall). cbn [fst snd] in *. destruct (Z.eqb_spec j (bindex b)) as [Ej|Ej]; cbn [wp].
      + split; [exists q; auto|]. split; [exact Hi'|]. intros q' Hq' Hl. apply Hall; [lia|]. destruct (V' q' Hq'). lia.
      + destruct (V j Hj Ej) as (q2 & Hq2 & Es2 & Er). rewrite Er. cbn [bind wp]. destruct (cmp (f q2) m') eqn:Ec2; cbn [fst snd].
        * split; [exists q2; split; [lia|split; [reflexivity|auto]]|]. split; [apply (o_trans _ O _ m'); [exact Hi'|apply (o_asym _ O); exact Ec2]|].
          intros q' Hq' Hl. destruct (Z.eq_dec ((q' - lo) mod p) j).
          -- assert (q' = q2) as -> by (apply (slot_eq p lo); [lia|congruence|clear - Hq' Hq2; lia]). apply (o_irr _ O).
          -- apply (o_trans _ O _ m'); [apply Hall; lia|apply (o_asym _ O); exact Ec2].
        * split; [exists q; auto|]. split; [exact Hi'|]. intros q' Hq' Hl. destruct (Z.eq_dec ((q' - lo) mod p) j).
          -- assert (q' = q2) as -> by (apply (slot_eq p lo); [lia|congruence|clear - Hq' Hq2; lia]). exact Ec2.
          -- apply Hall; lia.
    - rewrite Ez. intros [mi' m'] ((q & Hq & Eq & Es) & Hi' & Hall). cbn [fst snd] in *. exists q. cbn [fst snd]. split; [lia|]. split; [exact Eq|]. split; [exact Es|].
      intros j Hj. destruct (Z.eq_dec j i) as [->|]; [exact Hi'|]. apply Hall; [lia|]. apply V'; lia. }
  change (@T RA) with R in *. match type of W with wp ?r _ => destruct r as [s'|] eqn:Er; cbn [wp] in W; [|contradiction] end.
  exists s'. split; [reflexivity|]. replace (Z.max lo (i - p + 1)) with (i - p + 1) by lia. exact W.
Qed.
Lemma best_peak f lo p a b s : a <= b -> best (fun u v => Rltb v u) f lo p a b s -> snd s = peak f a b.
Proof. intros H (k & Hk & E & _ & B). apply peak_unique; [exact H| |exists k; auto]. intros j Hj. specialize (B j Hj). destruct (Rltb_spec (snd s) (f j)); [discriminate|lra]. Qed.
Lemma best_trough f lo p a b s : a <= b -> best (fun u v => Rltb u v) f lo p a b s -> snd s = trough f a b.
Proof. intros H (k & Hk & E & _ & B). apply trough_unique; [exact H| |exists k; auto]. intros j Hj. specialize (B j Hj). destruct (Rltb_spec (f j) (snd s)); [discriminate|lra]. Qed.

Lemma wilder_S p f i : p < i -> wilder_from p f i = (wilder_from p f (i - 1) + (f i - wilder_from p f (i - 1)) / IZR p)%R.
Proof. intros. unfold wilder_from. rewrite trec_snoc by lia. rewrite Z.sub_add. reflexivity. Qed.
Lemma rsi_form p x i (u d : R) : u = wilder_from p (gain x) i -> d = wilder_from p (loss x) i ->
  (if @truth RA u then @fmul RA (@of_Z RA 100) (@fdiv RA u (@fadd RA u d)) else @of_Z RA 0) = rsi_at p x i.
Proof. intros -> ->. rewrite truth_R. toR. unfold rsi_at. cbv zeta. destruct (Reqb _ 0); reflexivity. Qed.
Lemma stochrsi_fun size (x : list R) o p : zlen x = size -> 0 <= size <= INT_MAX -> @to_int RA o = Some p -> 2 <= p <= 268435452 ->
  @ti_stochrsi RA size [x] [o] = Ok (OKAY, [tab 0 (size - (2 * p - 1)) (fun k => stochrsi_at p x (k + (2 * p - 1)))]).
Proof.
  intros Hx Hs Ho Hp. ranges. apply wp_eq. unfold ti_stochrsi, start_2p1. wps; contra. { rewrite tab_nil by zl. reflexivity. }
  setF. assert (HF : forall k, F k = stochrsi_at p x (k + (2 * p - 1))) by reflexivity. clearbody F.
  assert (P0 : IZR p <> 0%R) by (apply IZR_neq; lia).
  destruct (@buffer_new_ok RA p ltac:(lia)) as (b0 & Eb0 & Hb0 & Hp0 & _). rewrite Eb0. wps. apply (wp_for (fun i st => st = (zsum 1 i (gain x), zsum 1 i (loss x)))).
  - lia.
  - rewrite !zsum_nil by lia. reflexivity.
  - intros i st Hi ->. cbn beta iota. rewrite UPWARD_eq, DOWNWARD_eq by zl. cbn [bind wp]. rewrite up_change_R, down_change_R. rewrite !zsum_snoc by lia. reflexivity.
  - intros st ->. cbn beta iota. cbv zeta.
    set (u0 := @fdiv RA (zsum 1 (p + 1) (gain x)) (@of_Z RA p)). set (d0 := @fdiv RA (zsum 1 (p + 1) (loss x)) (@of_Z RA p)).
    assert (Eu : u0 = wilder_from p (gain x) p) by (unfold wilder_from; rewrite trec_nil by lia; reflexivity).
    assert (Ed : d0 = wilder_from p (loss x) p) by (unfold wilder_from; rewrite trec_nil by lia; reflexivity).
    clearbody u0 d0. rewrite (rsi_form p x p u0 d0 Eu Ed). subst u0 d0. 
    destruct (@buffer_push_ok RA b0 p [] (rsi_at p x p) Hb0 Hp0) as (b1 & Eb1 & Hb1 & _). rewrite Eb1. cbn [bind].
    apply wp_bind. apply (wp_for (fun i st => exists b s1 s2, st = (wilder_from p (gain x) (i - 1), wilder_from p (loss x) (i - 1), b, s1, s2, tab 0 (i - (2 * p - 1)) F) /\
       @slots_ok RA b p (tab p i (rsi_at p x)) /\ best (fun u v => Rltb v u) (rsi_at p x) p p (Z.max p (i - p)) (i - 1) s1 /\ best (fun u v => Rltb u v) (rsi_at p x) p p (Z.max p (i - p)) (i - 1) s2)).
    + lia.
    + exists b1, (0, rsi_at p x p), (0, rsi_at p x p). split; [rewrite tab_nil by lia; rewrite Z.add_simpl_r; reflexivity|]. split; [rewrite tab_snoc, tab_nil by lia; exact Hb1|].
      assert (Z0 : 0 = (p - p) mod p) by (rewrite Z.sub_diag; symmetry; apply Z.mod_0_l; lia).
      split; exists p; cbn [fst snd]; (split; [lia|split; [reflexivity|split; [exact Z0|]]]); intros j Hj; replace j with p by lia; [apply (o_irr _ orderly_gt)|apply (o_irr _ orderly_lt)].
    + intros i st Hi (b & s1 & s2 & -> & Hb & B1 & B2). cbn beta iota. rewrite UPWARD_eq, DOWNWARD_eq by zl. cbn [bind]. cbv zeta.
      set (u0 := @fadd RA _ (wilder_from p (gain x) (i - 1))). set (d0 := @fadd RA _ (wilder_from p (loss x) (i - 1))).
      assert (Eu : u0 = wilder_from p (gain x) i) by (rewrite wilder_S by lia; unfold u0; rewrite up_change_R; toR; unfold gain; field; exact P0).
      assert (Ed : d0 = wilder_from p (loss x) i) by (rewrite wilder_S by lia; unfold d0; rewrite down_change_R; toR; unfold loss; field; exact P0).
      clearbody u0 d0. rewrite (rsi_form p x i u0 d0 Eu Ed). subst u0 d0.
      destruct (stochrsi_ext_ok _ orderly_gt b p p i _ s1 Hb ltac:(lia) ltac:(lia) B1) as (s1' & E1 & B1').
      destruct (stochrsi_ext_ok _ orderly_lt b p p i _ s2 Hb ltac:(lia) ltac:(lia) B2) as (s2' & E2 & B2').
      change (@T RA) with R in *. toR. rewrite E1. cbn [bind]. rewrite E2. cbn [bind].
      destruct (@buffer_qpush_ok RA b p _ (rsi_at p x i) Hb) as (b' & Eb & Hb' & _). change (@T RA) with R in *. rewrite Eb. cbn [bind]. wps.
      exists b', s1', s2'. rewrite Z.add_simpl_r. rewrite tab_snoc by lia. replace (i + 1 - p) with (i - p + 1) by lia. split; [|split; [exact Hb'|split; [exact B1'|exact B2']]].
      repeat apply peq; try reflexivity. destruct (i >? p * 2 - 2) eqn:Eg; [|rewrite !tab_nil by lia; reflexivity].
      apply (tab_next' _ (i - (2 * p - 1))); [lia|lia|reflexivity|]. rewrite HF. rewrite Z.sub_add. unfold stochrsi_at. cbv zeta.
      replace (Z.max p (i - p + 1)) with (i - p + 1) in * by lia.
      rewrite (best_peak (rsi_at p x) p p (i - p + 1) i s1' ltac:(lia) B1'), (best_trough (rsi_at p x) p p (i - p + 1) i s2' ltac:(lia) B2'). reflexivity.
    + intros st (b & s1 & s2 & -> & _). cbn beta iota. wps; try zl. repeat f_equal; lia.
Qed.

(** ** kc *)
Lemma ema_run_S p f i : 1 <= i -> ema_run p f i = (ema_run p f (i - 1) + 2 / (p + 1) * (f i - ema_run p f (i - 1)))%R.
Proof. intros. unfold ema_run. rewrite trec_snoc by lia. rewrite Z.sub_add. reflexivity. Qed.
Lemma stdmax_R (a b : R) : @stdmax RA a b = Rmax a b.
Proof. unfold stdmax. toR. apply Rmax_gt. Qed.
Lemma stdmin_R (a b : R) : @stdmin RA a b = Rmin a b.
Proof. unfold stdmin. toR. apply Rmin_gt. Qed.
Lemma kc_fun size (h l c : list R) p k : zlen h = size -> zlen l = size -> zlen c = size -> 0 <= size <= INT_MAX -> (1 <= p)%R -> (0 <= k)%R ->
  @ti_kc RA size [h; l; c] [p; k] = Ok (OKAY,
    [tab 0 size (fun i => ema_run p (zr c) i - k * ema_run p (bar_range h l c) i)%R; tab 0 size (ema_run p (zr c));
     tab 0 size (fun i => ema_run p (zr c) i + k * ema_run p (bar_range h l c) i)%R]).
Proof.
  intros Hh Hl Hc Hs Hp Hk. unfold ti_kc. replace (@flt RA p (@of_Z RA 1)) with false by (toR; destruct (Rltb_spec p 1); [lra|reflexivity]).
  replace (@flt RA k (@of_Z RA 0)) with false by (toR; destruct (Rltb_spec k 0); [lra|reflexivity]). cbv zeta.
  pose proof (fun lp => @batch_tab RA _ (fun i s => 0 < i -> s = Some (ema_run p (zr c) (i - 1), ema_run p (bar_range h l c) (i - 1)))
    [(fun i => ema_run p (zr c) i - k * ema_run p (bar_range h l c) i)%R; ema_run p (zr c); (fun i => ema_run p (zr c) i + k * ema_run p (bar_range h l c) i)%R] 0 lp size None) as B.
  cbn [length map] in B. replace (size - 0) with size in B by lia. apply B; clear B; [lia|lia|lia|].
  intros i s Hi Is. disp. replace (i <? 0) with false by lia. rewrite Z.sub_0_r. destruct (i <? 1) eqn:E1.
  - rewrite !rdr by lia. cbn [bind wp fst snd]. replace i with 0 by lia. unfold ema_run at 1 2 3 4. rewrite !trec_nil by lia. unfold bar_range at 1 2. cbn [Z.eqb].
    split; [reflexivity|]. intros _. cbn [Z.add Z.sub Z.opp Z.pos_sub]. unfold ema_run. rewrite !trec_nil by lia. reflexivity.
  - rewrite (Is ltac:(lia)). cbn [val bind]. rewrite !rdr by lia. cbn [bind wp fst snd]. rewrite stdmax_R, stdmin_R. toR.
    assert (Ec : ((zr c i - ema_run p (zr c) (i - 1)) * (2 / (p + 1)) + ema_run p (zr c) (i - 1) = ema_run p (zr c) i)%R) by (rewrite (ema_run_S p _ i) by lia; ring).
    assert (Et : ((Rmax (zr h i) (zr c (i - 1)) - Rmin (zr l i) (zr c (i - 1)) - ema_run p (bar_range h l c) (i - 1)) * (2 / (p + 1)) + ema_run p (bar_range h l c) (i - 1) = ema_run p (bar_range h l c) i)%R).
    { rewrite (ema_run_S p _ i) by lia. assert (Eb : bar_range h l c i = (Rmax (zr h i) (zr c (i - 1)) - Rmin (zr l i) (zr c (i - 1)))%R) by (unfold bar_range; replace (i =? 0) with false by lia; reflexivity). rewrite Eb. ring. }
    rewrite Ec, Et. split; [reflexivity|]. intros _. rewrite Z.add_simpl_r. reflexivity.
Qed.

(** ** msw *)
Lemma msw_fun size (x : list R) o p : zlen x = size -> 0 <= size <= INT_MAX -> @to_int RA o = Some p -> 1 <= p <= INT_MAX ->
  @ti_msw RA size [x] [o] = Ok (OKAY, [tab 0 (size - p) (fun k => sin (msw_phase p x (k + p))); tab 0 (size - p) (fun k => sin (msw_phase p x (k + p) + pi7 / 4))]).
Proof.
  intros Hx Hs Ho Hp. ranges. apply wp_eq. unfold ti_msw, start_p. wps; contra. { rewrite !tab_nil by zl. reflexivity. }
  set (F1 := fun k => sin (msw_phase p x (k + p))). set (F2 := fun k => sin (msw_phase p x (k + p) + pi7 / 4)).
  apply (wp_for (fun i st => st = (tab 0 (i - p) F1, tab 0 (i - p) F2))).
  - lia.
  - rewrite !tab_nil by lia. reflexivity.
  - intros i st Hi ->. cbn beta iota. apply wp_bind.
    apply (wp_for (fun m st => st = (zsum 0 m (fun j => cos (2 * pi7 * IZR j / IZR p) * zr x (i - j))%R, zsum 0 m (fun j => sin (2 * pi7 * IZR j / IZR p) * zr x (i - j))%R))).
    + lia.
    + rewrite !zsum_nil by lia. reflexivity.
    + intros m st Hm ->. cbn beta iota. toR. rewrite !rdr by lia. cbn [bind wp]. rewrite !zsum_snoc by lia. reflexivity.
    + intros st ->. cbn beta iota. cbv zeta. cbn [wp]. fold (cycle_re p x i) (cycle_im p x i). toR.
      set (re := cycle_re p x i). set (im := cycle_im p x i). change (31415926 / IZR (10 ^ 7))%R with pi7. change (1 / IZR (10 ^ 3))%R with (1 / 1000)%R. cbn [Rlibm].
      lazymatch goal with |- context[if Rltb ?a 0 then (?a + 2 * pi7)%R else ?a] => assert (Ea : a = cycle_angle re im) end.
      { unfold cycle_angle. destruct (Rltb im 0), (Rltb re 0), (Rltb (1 / 1000) (Rabs re)); try (field; fail); lra. }
      rewrite Ea. match goal with |- context[sin ?a] => change a with (msw_phase p x i) end.
      match goal with |- context[sin (?a + pi7 / 4)] => change a with (msw_phase p x i) end.
      repeat apply peq; (apply (tab_next' _ (i - p)); [lia|lia|reflexivity|]); unfold F1, F2; rewrite Z.sub_add; reflexivity.
  - intros st ->. cbn beta iota. wps; try zl. repeat f_equal; lia.
Qed.

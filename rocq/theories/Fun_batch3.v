(** What mass, cvi, kvo, ao, cmf, cci, mfi, vosc and volatility compute over the reals. *)
From Coq Require Import Reals Lra.
From Verif Require Import M_osc Fun_exact Fun_osc RSum RArith Fun_batch1 Fun_batch2 Fun_window2.
From Verif Require Export SpecR2.
Open Scope Z_scope.
Ltac wread := apply wp_bind, wp_rdf; [zl|].

Lemma slots_rd (b : @buffer RA) p lo n (f : Z -> R) k : @slots_ok RA b p (tab lo n f) -> lo <= k < n -> n - p <= k ->
  @rdo (@T RA) (bvals b) ((k - lo) mod p) = Ok (f k).
Proof.
  intros (P & Es & Ei & El & Hv) Hk Hk2. change (@T RA) with R in *. rewrite zlen_tab in *. pose proof (Z.mod_pos_bound (k - lo) p P).
  unfold rdo. rewrite (rd_ok None) by lia. cbn [bind]. rewrite Hv by lia. toR. rewrite zn_tab by lia. do 2 f_equal. lia.
Qed.
Lemma slots_oldest (b : @buffer RA) p lo n (f : Z -> R) : @slots_ok RA b p (tab lo n f) -> p <= n - lo ->
  @rdo (@T RA) (bvals b) (bindex b) = Ok (f (n - p)).
Proof.
  intros Hb Hp. assert (P : 0 < p) by apply Hb. rewrite <- (slots_rd b p lo n f (n - p) Hb) by lia. f_equal.
  destruct Hb as (_ & _ & -> & _). change (@T RA) with R. rewrite zlen_tab. replace (Z.max 0 (n - lo)) with (n - p - lo + 1 * p) by lia. rewrite Z.mod_add by lia. reflexivity.
Qed.

Lemma mass_fun size (h l : list R) o p : zlen h = size -> zlen l = size -> 0 <= size <= INT_MAX -> @to_int RA o = Some p -> 1 <= p <= 268435452 ->
  @ti_mass RA size [h; l] [o] = Ok (OKAY, [tab 0 (size - (p + 15)) (fun k => zsum (k + 16) (k + 16 + p) (mass_ratio h l))]).
Proof.
  intros Hh Hl Hs Ho Hp. ranges. apply wp_eq. unfold ti_mass, ti_mass_start. wps; contra. { rewrite tab_nil by zl. reflexivity. }
  setF. set (e1 := efrom 9 (rng h l) 0). set (e2 := efrom 9 e1 8).
  destruct (bufR_new p (mass_ratio h l) 16 ltac:(lia)) as (b0 & Eb & Hb). rewrite Eb. wps.
  apply (wp_for (fun i st => exists a b s, st = (a, b, s, tab 0 (i - (p + 15)) F) /\ (i = 0 -> a = rng h l 0) /\ (0 < i -> a = e1 (i - 1)) /\
     (8 < i -> b = e2 (i - 1)) /\ bufR s p (mass_ratio h l) 16 (Z.max 16 i))).
  - lia.
  - do 3 eexists. split; [rewrite tab_nil by lia; reflexivity|]. split; [reflexivity|]. split; [intros; lia|]. split; [intros; lia|]. exact Hb.
  - clear b0 Eb Hb. intros i st Hi (a & b & s & -> & H0 & H1 & H2 & Hb). cbn beta iota. do 2 wread. cbv zeta.
    assert (E1' : (a * (1 - 2 / (9 + 1)) + (zr h i - zr l i) * (2 / (9 + 1)))%R = e1 i).
    { unfold e1. rewrite <- (efrom_upd 9 (rng h l) 0 i a) by (auto; lia). destruct (i =? 0) eqn:Ei; [rewrite H0 by lia; replace i with 0 by lia; reflexivity|reflexivity]. }
    toR. rewrite E1'.
    destruct (i >=? 8) eqn:E8.
    + assert (E2' := efrom_upd 9 e1 8 i b ltac:(lia) H2). fold e2 in E2'. rewrite E2'. destruct (i >=? 16) eqn:E16.
      * replace (Z.max 16 i) with i in Hb by lia.
        destruct (bufR_push s p (mass_ratio h l) 16 i (@fdiv RA (e1 i) (e2 i)) Hb eq_refl) as (s' & Es & Hs' & Hsum).
        pose proof (truth_div (e1 i) (e2 i)) as Et. toR. rewrite Et. rewrite Es. wps. do 3 eexists. split; [f_equal|].
        -- destruct (i >=? 16 + p - 1) eqn:E5; [|rewrite !tab_nil by lia; reflexivity].
           apply (tab_next' _ (i - (p + 15))); [lia|lia|reflexivity|]. unfold F. rewrite Hsum. f_equal; lia.
        -- replace (i + 1 - 1) with i by lia. replace (Z.max 16 (i + 1)) with (i + 1) by lia. split; [lia|]. split; [reflexivity|]. split; [reflexivity|exact Hs'].
      * apply wp_ret. do 3 eexists. split; [f_equal; rewrite !tab_nil by lia; reflexivity|]. replace (i + 1 - 1) with i by lia. replace (Z.max 16 (i + 1)) with (Z.max 16 i) by lia.
        split; [lia|]. split; [reflexivity|]. split; [reflexivity|exact Hb].
    + apply wp_ret. do 3 eexists. split; [f_equal; rewrite !tab_nil by lia; reflexivity|]. replace (i + 1 - 1) with i by lia. replace (Z.max 16 (i + 1)) with (Z.max 16 i) by lia.
      split; [lia|]. split; [reflexivity|]. split; [intros; lia|exact Hb].
  - intros st (a & b & s & -> & _). fintab.
Qed.

Lemma cvi_fun size (h l : list R) o p : zlen h = size -> zlen l = size -> 0 <= size <= INT_MAX -> @to_int RA o = Some p -> 2 <= p <= 268435452 ->
  @ti_cvi RA size [h; l] [o] = Ok (OKAY, [tab 0 (size - (2 * p - 1)) (fun k => let i := (k + (2 * p - 1))%Z in
    (100 * (efrom p (rng h l) 0 i - efrom p (rng h l) 0 (i - p)) / efrom p (rng h l) 0 (i - p))%R)]).
Proof.
  intros Hh Hl Hs Ho Hp. ranges. apply wp_eq. unfold ti_cvi, start_2p1. wps; contra. { rewrite tab_nil by zl. reflexivity. }
  setF. set (e := efrom p (rng h l) 0) in *. destruct (@buffer_new_ok RA p ltac:(lia)) as (b0 & Eb & Hb & _). rewrite Eb. wps.
  assert (Ee : forall i, 1 <= i -> ((zr h i - zr l i - e (i - 1)%Z) * (2 / (IZR p + 1)) + e (i - 1)%Z)%R = e i) by (intros; apply (efrom_upd' p (rng h l) 0); [lia|reflexivity]).
  apply (wp_for (fun i st => exists b, st = (e (i - 1), b) /\ @slots_ok RA b p (tab 1 i e))).
  - lia.
  - exists b0. split; [|rewrite tab_nil by lia; exact Hb]. unfold e. rewrite efrom_0 by lia. reflexivity.
  - clear b0 Eb Hb. intros i st Hi (b & -> & Hb). cbn beta iota. do 2 wread. cbv zeta. toR. rewrite Ee by lia.
    destruct (@buffer_qpush_ok RA b p _ (e i) Hb) as (b' & Eb & Hb' & _). rewrite Eb. wps. exists b'. replace (i + 1 - 1) with i by lia. rewrite tab_snoc by lia. auto.
  - clear b0 Eb Hb. intros st (b & -> & Hb). wps.
    apply (wp_for (fun i st => exists b, st = (e (i - 1), b, tab 0 (i - (2 * p - 1)) F) /\ @slots_ok RA b p (tab 1 i e))).
    + lia.
    + exists b. split; [|replace (2 * p - 1) with (p * 2 - 1) by lia; exact Hb]. rewrite tab_nil by lia. reflexivity.
    + clear b Hb. intros i st Hi (b & -> & Hb). cbn beta iota. do 2 wread. cbv zeta. toR. rewrite Ee by lia.
      assert (Eo : @rdo (@T RA) (bvals b) (bindex b) = Ok (e (i - p))).
      { rewrite (slots_oldest b p 1 i e Hb) by lia. reflexivity. }
      change (@T RA) with R in Eo. rewrite Eo. wps. destruct (@buffer_qpush_ok RA b p _ (e i) Hb) as (b' & Eb & Hb' & _). rewrite Eb. wps. exists b'. replace (i + 1 - 1) with i by lia.
      split; [|rewrite tab_snoc by lia; exact Hb']. repeat apply peq; try reflexivity. apply (tab_next' _ (i - (2 * p - 1))); [lia|lia|reflexivity|].
      unfold F. cbv zeta. rewrite Z.sub_add. apply (di_val (e i - e (i - p)%Z) (e (i - p)%Z)).
    + intros st (b' & -> & _). fintab.
Qed.

Lemma kvo_trend_S h l c i : 1 <= i -> kvo_trend h l c i = kvo_dir h l c i (kvo_trend h l c (i - 1)).
Proof. intros. unfold kvo_trend. rewrite trec_snoc by lia. rewrite Z.sub_add. reflexivity. Qed.
Lemma kvo_since_S h l c i : 1 <= i -> kvo_since h l c i = if kvo_trend h l c i =? kvo_trend h l c (i - 1) then kvo_since h l c (i - 1) else i - 1.
Proof. intros. unfold kvo_since. rewrite trec_snoc by lia. rewrite Z.sub_add. reflexivity. Qed.
Lemma kvo_since_le h l c i : 0 <= i -> kvo_since h l c i <= Z.max 1 i.
Proof.
  intros Hi. apply (zind (fun i => kvo_since h l c i <= Z.max 1 i) 0 i Hi); [unfold kvo_since; rewrite trec_nil by lia; lia|].
  intros j Hj IH. rewrite kvo_since_S by lia. replace (j + 1 - 1) with j by lia. destruct (_ =? _); lia.
Qed.
Lemma kvo_fun size (h l c v : list R) o1 o2 s g : zlen h = size -> zlen l = size -> zlen c = size -> zlen v = size -> 0 <= size <= INT_MAX ->
  @to_int RA o1 = Some s -> @to_int RA o2 = Some g -> 1 <= s <= g ->
  @ti_kvo RA size [h; l; c; v] [o1; o2] = Ok (OKAY, [tab 0 (size - 1) (fun k =>
     (efrom s (kvo_force h l c v) 1 (k + 1) - efrom g (kvo_force h l c v) 1 (k + 1))%R)]).
Proof.
  intros Hh Hl Hc Hv Hs H1 H2 Hp. ranges. apply wp_eq. unfold ti_kvo, ti_kvo_start. wps; contra. { rewrite tab_nil by zl. reflexivity. }
  setF. set (vf := kvo_force h l c v) in *.
  apply (wp_for (fun i st => exists a b, st = (zsum (kvo_since h l c (i - 1)) i (rng h l), kvo_hlc h l c (i - 1), kvo_trend h l c (i - 1), a, b, tab 0 (i - 1) F) /\
     (1 < i -> a = efrom s vf 1 (i - 1)) /\ (1 < i -> b = efrom g vf 1 (i - 1)))).
  - lia.
  - do 2 eexists. split; [|split; intros; lia]. rewrite tab_nil by lia. change (kvo_since h l c (1 - 1)) with 1. rewrite zsum_nil by lia. reflexivity.
  - intros i st Hi (a & b & -> & Ha & Hb). cbn beta iota. do 3 wread. cbv zeta. apply wp_bind.
    pose proof (kvo_since_le h l c (i - 1) ltac:(lia)) as Hle. pose proof (kvo_since_S h l c i ltac:(lia)) as ES. pose proof (kvo_trend_S h l c i ltac:(lia)) as ET.
    apply (wp_mono _ (fun r => r = (kvo_trend h l c i, (zsum (kvo_since h l c i) i (rng h l))))).
    { unfold kvo_dir in ET. fold (kvo_hlc h l c i). toR. fold (kvo_hlc h l c i). change (@T RA) with R in *.
      assert (Er : rng h l (i - 1) = zsum (i - 1) i (rng h l)) by (replace i with (i - 1 + 1) at 3 by lia; rewrite zsum_one; reflexivity).
      destruct (Rltb_spec (kvo_hlc h l c (i - 1)) (kvo_hlc h l c i)) as [U|U]; cbn [andb].
      - destruct (kvo_trend h l c (i - 1) =? 1) eqn:Et; cbn [negb].
        + destruct (Rltb_spec (kvo_hlc h l c i) (kvo_hlc h l c (i - 1))); [lra|]. cbn [andb wp]. rewrite ET, ES, ET. replace (1 =? kvo_trend h l c (i - 1)) with true by lia. f_equal. lia.
        + rewrite !rdr by zl. cbn [bind wp]. rewrite ET, ES, ET. replace (1 =? kvo_trend h l c (i - 1)) with false by lia. rewrite <- Er. reflexivity.
      - destruct (Rltb_spec (kvo_hlc h l c i) (kvo_hlc h l c (i - 1))); cbn [andb].
        + destruct (kvo_trend h l c (i - 1) =? 0) eqn:Et; cbn [negb].
          * cbn [wp]. rewrite ET, ES, ET. replace (0 =? kvo_trend h l c (i - 1)) with true by lia. f_equal. lia.
          * rewrite !rdr by zl. cbn [bind wp]. rewrite ET, ES, ET. replace (0 =? kvo_trend h l c (i - 1)) with false by lia. rewrite <- Er. reflexivity.
        + cbn [wp]. rewrite ES, ET. rewrite Z.eqb_refl. reflexivity. }
    intros r ->. cbn beta iota. pose proof (kvo_since_le h l c i ltac:(lia)) as Hle2.
    assert (Ecm : (zsum (kvo_since h l c i) i (rng h l) + (zr h i - zr l i))%R = zsum (kvo_since h l c i) (i + 1) (rng h l)) by (rewrite zsum_snoc by lia; reflexivity).
    toR. rewrite Ecm. apply wp_bind. apply (wp_mono _ (fun r => r = vf i)).
    { unfold vf, kvo_force. change (zr h i - zr l i)%R with (rng h l i). unfold truth. toR. destruct (Reqb_spec (rng h l i) 0); cbn [negb]; [reflexivity|].
      rewrite rdr by zl. cbn [bind wp]. destruct (kvo_trend h l c i =? 0); cbn [negb]; rewrite (Rmult_comm 2); [f_equal; lra|reflexivity]. }
    intros r ->. apply wp_ret.
    assert (Ee : forall q w, (1 < i -> w = efrom q vf 1 (i - 1)) -> (if i =? 1 then vf i else (vf i - w) * (2 / (IZR q + 1)) + w)%R = efrom q vf 1 i).
    { intros q w Hw. destruct (i =? 1) eqn:Ez; [rewrite efrom_0 by lia; f_equal; lia|]. apply efrom_upd'; [lia|apply Hw; lia]. }
    rewrite !Ee by assumption. exists (efrom s vf 1 i), (efrom g vf 1 i). replace (i + 1 - 1) with i by lia. split; [|split; intros; reflexivity].
    repeat apply peq; try reflexivity. apply (tab_next' _ (i - 1)); [lia|lia|reflexivity|]. unfold F. rewrite Z.sub_add. reflexivity.
  - intros st (a & b & -> & _). fintab.
Qed.

Lemma roll_mean p f i : ((zsum (i - p + 1) (i + 1) f) * (1 / IZR p))%R = last_mean p f i.
Proof. unfold last_mean, Rdiv. ring. Qed.
Lemma ao_fun size (h l : list R) : zlen h = size -> zlen l = size -> 0 <= size <= INT_MAX ->
  @ti_ao RA size [h; l] [] = Ok (OKAY, [tab 0 (size - 33) (fun k => (last_mean 5 (median_price h l) (k + 33) - last_mean 34 (median_price h l) (k + 33))%R)]).
Proof.
  intros Hh Hl Hs. apply wp_eq. unfold ti_ao, ti_ao_start. wps; contra. { rewrite tab_nil by zl. reflexivity. }
  setF. set (m := median_price h l) in *.
  assert (Em : forall i, (5 / IZR (10 ^ 1) * (zr h i + zr l i))%R = m i) by (intros; unfold m, median_price; change (10 ^ 1)%Z with 10%Z; field).
  apply (wp_for (fun i st => st = (zsum 0 i m, zsum 29 i m))).
  - lia.
  - rewrite !zsum_nil by lia. reflexivity.
  - intros i st Hi ->. cbn beta iota. do 2 wread. cbv zeta. toR. rewrite Em. cbn [wp]. apply peq; [rewrite zsum_snoc by lia; reflexivity|].
    destruct (i >=? 29) eqn:E5; [rewrite zsum_snoc by lia; reflexivity|rewrite !zsum_nil by lia; reflexivity].
  - intros st ->. wps.
    apply (wp_for (fun i st => st = (zsum (i - 34) i m, zsum (i - 5) i m, tab 0 (i - 33) F))).
    + lia.
    + repeat apply peq; try reflexivity. apply tab_one; [lia|]. unfold F, last_mean. toR. replace (0 + 33 - 5 + 1) with 29 by lia. replace (0 + 33 - 34 + 1) with 0 by lia. replace (0 + 33 + 1) with 34 by lia. unfold Rdiv. change (@T RA) with R. ring.
    + intros i st Hi ->. cbn beta iota. do 2 wread. cbv zeta. do 4 wread. toR. rewrite !Em. cbn [wp]. rewrite !(zsum_roll i) by lia. repeat apply peq; try reflexivity.
      apply (tab_next' _ (i - 33)); [lia|lia|reflexivity|]. unfold F. rewrite Z.sub_add. rewrite <- !roll_mean. replace (i - 5 + 1) with (i + 1 - 5) by lia. replace (i - 34 + 1) with (i + 1 - 34) by lia. rewrite !zsum_roll by lia. lra.
    + intros st ->. fintab.
Qed.
Lemma kvo_since_nonneg h l c i : 0 <= i -> 0 <= kvo_since h l c i.
Proof.
  intros Hi. apply (zind (fun i => 0 <= kvo_since h l c i) 0 i Hi); [unfold kvo_since; rewrite trec_nil by lia; lia|].
  intros j Hj IH. rewrite kvo_since_S by lia. replace (j + 1 - 1) with j by lia. destruct (_ =? _); lia.
Qed.

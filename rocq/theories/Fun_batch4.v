(** What cmf, cci, mfi, vosc, volatility, kama and vidya compute over the reals. *)
From Coq Require Import Reals Lra.
From Verif Require Import M_osc Fun_exact Fun_osc RSum RArith Fun_batch1 Fun_batch2 Fun_batch3 Fun_window2.
From Verif Require Export SpecR2.
Open Scope Z_scope.

Lemma chaikin_eq (h l c v : list R) i : 0 <= i < zlen h -> i < zlen l -> i < zlen c -> i < zlen v ->
  @CHAIKIN_AD RA h l c v i = Ok (chaikin h l c v i).
Proof.
  intros. unfold CHAIKIN_AD, chaikin. rewrite !rdR by lia. cbn [bind]. unfold truth. toR. change (@T RA) with R in *.
  destruct (Reqb_spec (zr h i - zr l i) 0); cbn [negb bind]; [reflexivity|]. f_equal. unfold Rdiv. ring.
Qed.
Lemma cmf_fun size (h l c v : list R) o p : zlen h = size -> zlen l = size -> zlen c = size -> zlen v = size -> 0 <= size <= INT_MAX ->
  @to_int RA o = Some p -> 1 <= p ->
  @ti_cmf RA size [h; l; c; v] [o] = Ok (OKAY, [tab 0 (size - p + 1) (fun k =>
    if Reqb (zsum k (k + p) (zr v)) 0 then 0%R else (zsum k (k + p) (chaikin h l c v) / zsum k (k + p) (zr v))%R)]).
Proof.
  openR ti_cmf. setF. set (a := chaikin h l c v) in *.
  loop (fun i st => st = (zsum 0 i a, zsum 0 i (zr v))).
  - lia.
  - rewrite !zsum_nil by lia. reflexivity.
  - intros i st Hi ->. rewrite chaikin_eq by zl. wps. rewrite !zsum_snoc by lia. reflexivity.
  - intros st ->. wps.
    apply (wp_for (fun i st => st = (zsum (i - p + 1) i a, zsum (i - p + 1) i (zr v), tab 0 (i - p + 1) F))).
    + lia.
    + replace (p - 1 - p + 1) with 0 by lia. rewrite tab_nil by lia. reflexivity.
    + intros i st Hi ->. rewrite !chaikin_eq by zl. fold a. wps.
      assert (Es : forall f, zsum (i - p + 1) (i + 1) f = (zsum (i - p + 1) i f + f i)%R) by (intros; apply zsum_snoc; lia).
      assert (Er : forall f, zsum (i + 1 - p + 1) (i + 1) f = (zsum (i - p + 1) i f + f i - f (i - p + 1)%Z)%R).
      { intros. rewrite <- Es. rewrite (zsum_cons (i - p + 1)) by lia. replace (i + 1 - p + 1) with (i - p + 1 + 1) by lia. lra. }
      rewrite !Er. repeat apply peq; try reflexivity. apply (tab_next' _ (i - p + 1)); [lia|lia|reflexivity|].
      unfold F. replace (i - p + 1 + p) with (i + 1) by lia. rewrite !Es. unfold truth. toR. destruct (Reqb _ 0); reflexivity.
    + intros st ->. fintab.
Qed.

Lemma typ_eq (h l c : list R) i : 0 <= i < zlen h -> i < zlen l -> i < zlen c -> @TYPPRICE RA h l c i = Ok (typ h l c i).
Proof. intros. unfold TYPPRICE, typ. rewrite !rdR by lia. cbn [bind]. toR. f_equal. field. Qed.

(** The sum over the slots of a full ring is the sum over the last values. *)
Lemma zsum_mod p n (G : Z -> R) : 0 < p -> p <= n -> zsum (n - p) n (fun j => G (j mod p)) = zsum 0 p G.
Proof.
  intros P Hn. apply (zind (fun n => zsum (n - p) n (fun j => G (j mod p)) = zsum 0 p G) p n Hn).
  - rewrite Z.sub_diag. apply zsum_ext. intros j Hj. rewrite Z.mod_small by lia. reflexivity.
  - intros i Hi IH. rewrite zsum_roll by lia. rewrite IH. replace i with (i - p + 1 * p) at 1 by lia. rewrite Z.mod_add by lia. ring.
Qed.
Lemma ring_sum (b : @buffer RA) p n (f g : Z -> R) (w : R -> R) : @slots_ok RA b p (tab 0 n f) -> p <= n ->
  (forall j, n - p <= j < n -> w (f j) = g j) ->
  for_ 0 p (fun j acc => let* v := @rdo (@T RA) (bvals b) j in Ok (acc + w v)%R) 0%R = Ok (zsum (n - p) n g).
Proof.
  intros Hb Hn Hg. assert (P : 0 < p) by apply Hb.
  set (G := fun q => w (match @zn (option R) None (bvals b) q with Some y => y | None => 0%R end)).
  assert (EG : forall j, n - p <= j < n -> @rdo (@T RA) (bvals b) (j mod p) = Ok (f j) /\ G (j mod p) = g j).
  { intros j Hj. assert (E := slots_rd b p 0 n f j Hb ltac:(lia) ltac:(lia)). rewrite Z.sub_0_r in E. split; [exact E|].
    unfold G. rewrite <- (Hg j Hj). destruct Hb as (_ & _ & _ & _ & Hv). rewrite zlen_tab in Hv by lia.
    change (@T RA) with R in *. rewrite Hv by lia. rewrite (@zf_tab RA) by lia. reflexivity. }
  assert (ER : forall q, 0 <= q < p -> exists y, @rdo (@T RA) (bvals b) q = Ok y /\ w y = G q).
  { intros q Hq. set (j := n - p + (q - (n - p)) mod p). pose proof (Z.mod_pos_bound (q - (n - p)) p P).
    assert (Ej : j mod p = q) by (unfold j; rewrite Z.add_mod_idemp_r by lia; replace (n - p + (q - (n - p))) with q by lia; apply Z.mod_small; lia).
    destruct (EG j ltac:(unfold j; lia)) as [E1 E2]. rewrite Ej in *. exists (f j). split; [exact E1|]. rewrite E2. apply Hg. unfold j. lia. }
  rewrite (zsum_ext _ _ g (fun j => G (j mod p))) by (intros j Hj; symmetry; apply EG; lia). rewrite zsum_mod by lia.
  rewrite (for_zsum 0 p _ G 0%R); [f_equal; ring|lia|].
  intros q s Hq. destruct (ER q Hq) as (y & E1 & E2). rewrite E1. cbn [bind]. rewrite E2. reflexivity.
Qed.

Lemma cci_fun size (h l c : list R) o p : zlen h = size -> zlen l = size -> zlen c = size -> 0 <= size <= INT_MAX ->
  @to_int RA o = Some p -> 1 <= p <= 268435452 ->
  @ti_cci RA size [h; l; c] [o] = Ok (OKAY, [tab 0 (size - (2 * p - 2)) (fun k => cci_at p h l c (k + (2 * p - 2)))]).
Proof.
  intros Hh Hl Hc Hs Ho Hp. ranges. apply wp_eq. unfold ti_cci, start_p12. wps; contra. { rewrite tab_nil by zl. reflexivity. }
  setF. set (y := typ h l c). destruct (bufR_new p y 0 ltac:(lia)) as (b0 & Eb & Hb). rewrite Eb. wps.
  apply (wp_for (fun i st => exists b, st = (b, tab 0 (i - (2 * p - 2)) F) /\ bufR b p y 0 i)).
  - lia.
  - exists b0. split; [rewrite tab_nil by lia; reflexivity|exact Hb].
  - clear b0 Eb Hb. intros i st Hi (b & -> & Hb). cbn beta iota. rewrite typ_eq by zl. fold (y i). cbn [bind].
    destruct (bufR_push _ _ _ _ _ (y i) Hb eq_refl) as (b' & Eb & Hb' & Sb). rewrite Eb. cbn [bind]. clear b Eb Hb. wps.
    + set (av := last_mean p y i).
      assert (Ea : (bsum b' * (1 / IZR p))%R = av) by (unfold av; rewrite Sb, <- roll_mean; do 2 f_equal; lia).
      match goal with |- wp (for_ 0 p ?f ?z) _ => assert (El : for_ 0 p f z = Ok (zsum (i + 1 - p) (i + 1) (fun j => Rabs (y j - av)))) end.
      { toR. rewrite Ea. apply (ring_sum b' p (i + 1) y _ (fun v => Rabs (av - v))); [apply Hb'|lia|]. intros j _. apply Rabs_minus_sym. }
      rewrite El. wps. exists b'. split; [|exact Hb']. apply peq; [reflexivity|]. apply (tab_next' _ (i - (2 * p - 2))); [lia|lia|reflexivity|].
      unfold F, cci_at. cbv zeta. rewrite Z.sub_add. fold y. fold av. toR. rewrite Ea.
      replace (last_mean p (fun j => Rabs (y j - av)) i) with (zsum (i + 1 - p) (i + 1) (fun j => Rabs (y j - av)) * (1 / IZR p))%R by (rewrite <- roll_mean; do 2 f_equal; lia).
      set (d := (zsum _ _ _ * _)%R). unfold truth. toR. change (10 ^ 3)%Z with 1000%Z.
      destruct (Reqb_spec (d * (15 / 1000)) 0), (Reqb_spec d 0); cbn [negb]; try lra; f_equal; lra.
    + exists b'. split; [|exact Hb']. rewrite !tab_nil by lia. reflexivity.
  - intros st (b & -> & _). cbn beta iota. fintab.
Qed.

Lemma mfi_fun size (h l c v : list R) o p : zlen h = size -> zlen l = size -> zlen c = size -> zlen v = size -> 0 <= size <= INT_MAX ->
  @to_int RA o = Some p -> 1 <= p <= 268435452 ->
  @ti_mfi RA size [h; l; c; v] [o] = Ok (OKAY, [tab 0 (size - p) (fun k => mfi_at p h l c v (k + p))]).
Proof.
  intros Hh Hl Hc Hv Hs Ho Hp. ranges. apply wp_eq. unfold ti_mfi, start_p. wps; contra. { rewrite tab_nil by zl. reflexivity. }
  setF. set (y := typ h l c). set (up := flow_up h l c v). set (dn := flow_down h l c v). rewrite typ_eq by zl. fold (y 0). cbn [bind].
  destruct (bufR_new p up 1 ltac:(lia)) as (b0 & Eb & Hb). destruct (bufR_new p dn 1 ltac:(lia)) as (d0 & Ed & Hd). rewrite Eb. wps.
  assert (d0 = b0) by congruence. subst d0.
  apply (wp_for (fun i st => exists b d, st = (y (i - 1), b, d, tab 0 (i - p) F) /\ bufR b p up 1 i /\ bufR d p dn 1 i)).
  - lia.
  - exists b0, b0. split; [rewrite tab_nil by lia; reflexivity|]. split; assumption.
  - clear b0 Eb Hb Ed Hd. intros i st Hi (b & d & -> & Hb & Hd). cbn beta iota. rewrite typ_eq by zl. fold (y i). cbn [bind]. wread. cbv zeta.
    apply wp_bind. apply (wp_mono _ (fun r => exists b d, r = (b, d) /\ bufR b p up 1 (i + 1) /\ bufR d p dn 1 (i + 1))).
    { toR. destruct (bufR_push _ _ _ _ _ (up i) Hb eq_refl) as (b' & Eb & Hb' & _). destruct (bufR_push _ _ _ _ _ (dn i) Hd eq_refl) as (d' & Ed & Hd' & _).
      unfold up at 1, flow_up in Eb. unfold dn at 1, flow_down in Ed. fold y in Eb, Ed. change (@T RA) with R in *.
      destruct (Rltb_spec (y (i - 1)) (y i)), (Rltb_spec (y i) (y (i - 1))); try lra; rewrite ?Eb, ?Ed; cbn [bind]; rewrite ?Eb, ?Ed; cbn [bind wp]; exists b', d'; (split; [reflexivity|split; assumption]). }
    clear b d Hb Hd. intros r (b & d & -> & Hb & Hd). cbn beta iota. apply wp_ret. exists b, d. replace (i + 1 - 1) with i by lia. split; [|split; assumption].
    repeat apply peq; try reflexivity. destruct (i >=? p) eqn:Eq; [|rewrite !tab_nil by lia; reflexivity].
    apply (tab_next' _ (i - p)); [lia|lia|reflexivity|]. unfold F, mfi_at. cbv zeta. rewrite Z.sub_add. fold up dn. destruct Hb as (_ & _ & _ & Sb), Hd as (_ & _ & _ & Sd).
    replace (Z.max 1 (i + 1 - p)) with (i - p + 1) in * by lia. rewrite Sb, Sd. unfold truth. toR. destruct (Reqb _ 0); cbn [negb]; [reflexivity|]. apply Rmult_comm.
  - intros st (b & d & -> & _). cbn beta iota. fintab.
Qed.

Lemma vosc_fun size (x : list R) o1 o2 s g : zlen x = size -> 0 <= size <= INT_MAX -> @to_int RA o1 = Some s -> @to_int RA o2 = Some g -> 1 <= s <= g ->
  @ti_vosc RA size [x] [o1; o2] = Ok (OKAY, [tab 0 (size - g + 1) (fun k => let a := last_mean s (zr x) (k + g - 1) in let b := last_mean g (zr x) (k + g - 1) in
    if Reqb (a - b) 0 then 0%R else (100 * (a - b) / b)%R)]).
Proof.
  intros Hx Hs H1 H2 Hp. ranges. apply wp_eq. unfold ti_vosc, start_l1. wps; contra. { rewrite tab_nil by zl. reflexivity. }
  setF.
  apply (wp_for (fun i st => st = (zsum (g - s) i (zr x), zsum 0 i (zr x)))).
  - lia.
  - rewrite !zsum_nil by lia. reflexivity.
  - intros i st Hi ->. cbn beta iota. wread. toR. cbn [wp]. apply peq; [|rewrite zsum_snoc by lia; reflexivity].
    destruct (i >=? g - s) eqn:Eq; [rewrite zsum_snoc by lia; reflexivity|rewrite !zsum_nil by lia; reflexivity].
  - intros st ->. cbn beta iota zeta.
    assert (EF : forall i a b, a = zsum (i - s + 1) (i + 1) (zr x) -> b = zsum (i - g + 1) (i + 1) (zr x) -> g - 1 <= i ->
      (if @truth RA (a * (1 / IZR s) - b * (1 / IZR g))%R then (100 * (a * (1 / IZR s) - b * (1 / IZR g)) / (b * (1 / IZR g)))%R else 0%R) = F (i - g + 1)).
    { intros i a b -> -> Hi. rewrite !roll_mean. unfold F. cbv zeta. replace (i - g + 1 + g - 1) with i by lia. unfold truth. toR. destruct (Reqb _ 0); reflexivity. }
    apply wp_bind. apply (wp_for (fun i st => st = (zsum (i - s) i (zr x), zsum (i - g) i (zr x), tab 0 (i - g + 1) F))).
    + lia.
    + rewrite Z.sub_diag. repeat apply peq; try reflexivity. apply tab_one; [lia|]. rewrite (EF (g - 1)); [f_equal; lia|f_equal; lia|f_equal; lia|lia].
    + intros i st Hi ->. cbn beta iota. do 3 wread. toR. cbn [wp]. change (@T RA) with R.
      assert (Er : forall q, 1 <= q -> (zsum (i - q) i (zr x) + zr x i - zr x (i - q)%Z)%R = zsum (i + 1 - q) (i + 1) (zr x)) by (intros; rewrite zsum_roll by lia; lra).
      rewrite !Er by lia. repeat apply peq; try reflexivity. apply (tab_next' _ (i - g + 1)); [lia|lia|reflexivity|]. apply EF; [f_equal; lia|f_equal; lia|lia].
    + intros st ->. cbn beta iota. fintab.
Qed.

Lemma change_eq (x : list R) i : 1 <= i < zlen x -> @CHANGE RA x i = Ok (change_at x i).
Proof. intros. unfold CHANGE, change_at. rewrite !rdR by lia. cbn [bind]. unfold truth. toR. destruct (Reqb _ 0); reflexivity. Qed.
(** The mean squared deviation is the mean of the squares less the square of the mean. *)
Lemma last_var p f i : 1 <= p ->
  last_mean p (fun j => (f j - last_mean p f i) * (f j - last_mean p f i))%R i
  = (zsum (i - p + 1) (i + 1) (fun j => f j * f j)%R * (1 / IZR p) - zsum (i - p + 1) (i + 1) f * (1 / IZR p) * (zsum (i - p + 1) (i + 1) f * (1 / IZR p)))%R.
Proof.
  intros Hp. rewrite (roll_mean p f). set (m := last_mean p f i). rewrite <- (roll_mean p (fun j => _)).
  rewrite (zsum_ext _ _ _ (fun j => f j * f j + (- 2 * m * f j + m * m))%R) by (intros; ring).
  rewrite !zsum_plus, zsum_scal, zsum_const by lia. replace (IZR (i + 1 - (i - p + 1))) with (IZR p) by (f_equal; lia).
  assert (P : IZR p <> 0%R) by (apply not_0_IZR; lia).
  replace (zsum (i - p + 1) (i + 1) f) with (m * IZR p)%R by (unfold m, last_mean; field; exact P). field. exact P.
Qed.
Lemma volatility_fun size (x : list R) o p : zlen x = size -> 0 <= size <= INT_MAX -> @to_int RA o = Some p -> 1 <= p ->
  @ti_volatility RA size [x] [o] = Ok (OKAY, [tab 0 (size - p) (fun k => (last_sd p (change_at x) (k + p) * sqrt 252)%R)]).
Proof.
  intros Hx Hs Ho Hp. ranges. apply wp_eq. unfold ti_volatility, start_p. wps; contra. { rewrite tab_nil by zl. reflexivity. }
  setF. set (g := change_at x) in *. set (g2 := fun j => (g j * g j)%R).
  apply (wp_for (fun i st => st = (zsum 1 i g, zsum 1 i g2))).
  - lia.
  - rewrite !zsum_nil by lia. reflexivity.
  - intros i st Hi ->. cbn beta iota. rewrite change_eq by zl. fold g. cbn [bind wp]. rewrite !zsum_snoc by lia. reflexivity.
  - intros st ->. cbn beta iota zeta.
    assert (EF : forall i a b, a = zsum (i - p + 1) (i + 1) g -> b = zsum (i - p + 1) (i + 1) g2 -> p <= i ->
      (sqrt (b * (1 / IZR p) - a * (1 / IZR p) * (a * (1 / IZR p))) * sqrt 252)%R = F (i - p)).
    { intros i a b -> -> Hi. unfold F, last_sd. rewrite Z.sub_add. rewrite last_var by lia. reflexivity. }
    apply wp_bind. apply (wp_for (fun i st => st = (zsum (i - p) i g, zsum (i - p) i g2, tab 0 (i - p) F))).
    + lia.
    + replace (p + 1 - p) with 1 by lia. repeat apply peq; try reflexivity. apply tab_one; [lia|]. toR. rewrite (EF p); [f_equal; lia|f_equal; lia|f_equal; lia|lia].
    + intros i st Hi ->. cbn beta iota. rewrite !change_eq by zl. fold g. cbn [bind]. toR. cbn [wp]. change (@T RA) with R.
      assert (Er : forall f : Z -> R, (zsum (i - p) i f + f i - f (i - p)%Z)%R = zsum (i + 1 - p) (i + 1) f) by (intros; rewrite zsum_roll by lia; lra).
      pose proof (Er g) as E1. pose proof (Er g2) as E2. unfold g2 in E2 at 2 3. cbn beta in E2. rewrite !E1, !E2. repeat apply peq; try reflexivity. apply (tab_next' _ (i - p)); [lia|lia|reflexivity|]. apply EF; [f_equal; lia|f_equal; lia|lia].
    + intros st ->. cbn beta iota. fintab.
Qed.

(** With period 1 the averages are the prices, but the third one starts at 0. *)
Lemma trix1_fun size (x : list R) o : zlen x = size -> 0 <= size <= INT_MAX -> @to_int RA o = Some 1 ->
  @ti_trix RA size [x] [o] = Ok (OKAY, [tab 1 size (fun i => let last := if i =? 1 then 0%R else zr x (i - 1) in
     if Reqb (zr x i) 0 then 0%R else ((zr x i - last) / zr x i * 100)%R)]).
Proof.
  intros Hx Hs Ho. ranges. apply wp_eq. unfold ti_trix, ti_trix_start. wps; contra. { rewrite tab_nil by zl. reflexivity. }
  rewrite for_nil by lia. cbn [wp]. cbn beta iota. match goal with |- context[tab 1 size ?f] => set (F := f) end.
  apply wp_bind. apply (wp_for (fun i st => exists e2, st = (zr x (i - 1), e2, (if i =? 1 then 0%R else zr x (i - 1)), tab 1 i F))).
  - zl.
  - eexists. rewrite tab_nil by lia. reflexivity.
  - intros i st Hi (e2 & ->). cbn beta iota. wread. cbv zeta. toR. cbn [wp]. exists (zr x i).
    assert (EE : forall a b : R, ((a - b) * (2 / (1 + 1)) + b)%R = a) by (intros; field). rewrite !EE.
    replace (i + 1 =? 1) with false by lia. replace (i + 1 - 1) with i by lia. repeat apply peq; try reflexivity.
    rewrite tab_snoc by lia. do 2 f_equal. unfold F, truth. cbv zeta. toR. destruct (Reqb (zr x i) 0); reflexivity.
  - intros st (e2 & ->). cbn beta iota. fintab.
Qed.

(** bbands, macd, apo / ppo and natr: closed forms. *)
From Verif Require Export C_osc2 Fun_window2.

(** A recurrence on pairs whose components do not interact. *)
Lemma trec_pair {S U} (f : Z -> S -> S) (g : Z -> U -> U) lo hi s u :
  trec (fun i v => (f i (fst v), g i (snd v))) lo hi (s, u) = (trec f lo hi s, trec g lo hi u).
Proof.
  destruct (Z.le_gt_cases lo hi) as [H|H]; [|rewrite !trec_nil by lia; reflexivity].
  apply (zind (fun hi => trec (fun i v => (f i (fst v), g i (snd v))) lo hi (s, u) = (trec f lo hi s, trec g lo hi u)) lo hi H).
  - rewrite !trec_nil by lia. reflexivity.
  - intros n Hn IH. rewrite !trec_snoc by lia. rewrite IH. reflexivity.
Qed.

Section A.
Context {A : Arith} {L : IntLaws A}.
(** Exponential average with smoothing factor [per], value after bar i. *)
Definition ema_at (per : T) (x : list T) (i : Z) : T := trec (fun i => ema_step per (zf x i)) 1 (i + 1) (zf x 0).
Lemma ema_fun' size x o p : zlen x = size -> 0 <= size <= INT_MAX -> to_int o = Some p -> 1 <= p ->
  ti_ema size [x] [o] = Ok (OKAY, [tab 0 size (ema_at (#2 ./ (#p .+ #1)) x)]).
Proof. intros. etransitivity; [apply ema_fun; eauto|]. reflexivity. Qed.
Lemma two_emas_eq x s l i : two_emas x s l i = (ema_at (#2 ./ (#s .+ #1)) x i, ema_at (#2 ./ (#l .+ #1)) x i).
Proof.
  unfold two_emas, ema_at.
  apply (trec_pair (fun i => ema_step (#2 ./ (#s .+ #1)) (zf x i)) (fun i => ema_step (#2 ./ (#l .+ #1)) (zf x i))).
Qed.
(** The two smoothing factors of macd: 0.15 and 0.075 for periods 12 and 26. *)
Definition macd_short (s l : Z) : T := if (s =? 12) && (l =? 26) then lit 15 2 else #2 ./ (#s .+ #1).
Definition macd_long (s l : Z) : T := if (s =? 12) && (l =? 26) then lit 75 3 else #2 ./ (#l .+ #1).
Definition macd_val (x : list T) (s l : Z) (i : Z) : T := ema_at (macd_short s l) x i .- ema_at (macd_long s l) x i.
Definition macd_sig (x : list T) (s l g : Z) (i : Z) : T :=
  trec (fun i => ema_step (#2 ./ (#g .+ #1)) (macd_val x s l i)) (l - 1) (i + 1) (macd_val x s l (l - 1)).
Lemma ema_at_next per x i : 0 <= i -> ema_at per x (i + 1) = ema_step per (zf x (i + 1)) (ema_at per x i).
Proof. intros. unfold ema_at. rewrite (trec_snoc _ 1 (i + 1)) by lia. reflexivity. Qed.
Lemma macd_fun size x o1 o2 o3 s l g : zlen x = size -> 0 <= size <= INT_MAX ->
  to_int o1 = Some s -> to_int o2 = Some l -> to_int o3 = Some g -> 1 <= s -> 2 <= l -> s <= l -> 1 <= g ->
  ti_macd size [x] [o1; o2; o3] = Ok (OKAY,
    [tab 0 (size - l + 1) (fun k => macd_val x s l (k + l - 1));
     tab 0 (size - l + 1) (fun k => macd_sig x s l g (k + l - 1));
     tab 0 (size - l + 1) (fun k => macd_val x s l (k + l - 1) .- macd_sig x s l g (k + l - 1))]).
Proof.
  intros Hx Hs H1 H2 H3 Ps Pl Psl Pg. ranges. apply wp_eq. unfold ti_macd, ti_macd_start. wps; contra.
  { rewrite !tab_nil by zl. reflexivity. }
  match goal with |- context[[tab 0 ?s ?F0; tab 0 ?s ?F1; tab 0 ?s ?F2]] => set (G0 := F0); set (G1 := F1); set (G2 := F2) end.
  apply (wp_for (fun i st => exists sg, st = (ema_at (macd_short s l) x (i - 1), ema_at (macd_long s l) x (i - 1), sg,
      tab 0 (i - l + 1) G0, tab 0 (i - l + 1) G1, tab 0 (i - l + 1) G2) /\ (l <= i -> sg = macd_sig x s l g (i - 1)))).
  - zl.
  - eexists. split; [|intros; lia]. rewrite !tab_nil by lia. unfold ema_at. rewrite !trec_nil by lia. reflexivity.
  - intros i st Hi (sg & -> & Hsg). cbn beta iota zeta. apply wp_bind, wp_rdf; [zl|].
    assert (Eper : forall per, (zf x i .- ema_at per x (i - 1)) .* per .+ ema_at per x (i - 1) = ema_at per x i).
    { intros per. replace i with (i - 1 + 1) at 1 4 by lia. rewrite ema_at_next by lia.
      replace (i - 1 + 1) with i by lia. reflexivity. }
    change (if (s =? 12) && (l =? 26) then lit 15 2 else #2 ./ (#s .+ #1)) with (macd_short s l).
    change (if (s =? 12) && (l =? 26) then lit 75 3 else #2 ./ (#l .+ #1)) with (macd_long s l).
    rewrite !Eper. fold (macd_val x s l i). destruct (i >=? l - 1) eqn:Eil.
    + assert (Eg : (macd_val x s l i .- (if i =? l - 1 then macd_val x s l i else sg)) .* (#2 ./ (#g .+ #1))
                   .+ (if i =? l - 1 then macd_val x s l i else sg) = macd_sig x s l g i).
      { unfold macd_sig. rewrite trec_snoc by lia. destruct (i =? l - 1) eqn:Ei.
        - replace i with (l - 1) by lia. rewrite trec_nil by lia. reflexivity.
        - rewrite Hsg by lia. unfold macd_sig. replace (i - 1 + 1) with i by lia. reflexivity. }
      rewrite !Eg. apply wp_ret. eexists. split.
      * replace (i + 1 - 1) with i by lia. repeat apply peq; try reflexivity;
        (apply (tab_next' _ (i - l + 1)); [zl|zl|reflexivity|]);
        [unfold G0|unfold G1|unfold G2]; replace (i - l + 1 + l - 1) with i by lia; reflexivity.
      * intros _. replace (i + 1 - 1) with i by lia. reflexivity.
    + apply wp_ret. eexists. split; [|intros; lia]. replace (i + 1 - 1) with i by lia. rewrite !tab_nil by lia. reflexivity.
  - intros st (sg & -> & _). wps; try zl. repeat f_equal; lia.
Qed.
(** natr: Wilder average of the true range in percent of the close. *)
Definition tr_at (h l c : list T) (i : Z) : T := if i =? 0 then zf h 0 .- zf l 0 else tr_val (zf h i) (zf l i) (zf c (i - 1)).
Definition atr_at (h l c : list T) (p i : Z) : T :=
  trec (fun i => ema_step (#1 ./ #p) (tr_at h l c i)) p (i + 1) (trec (fun i s => s .+ tr_at h l c i) 1 p (#0 .+ (zf h 0 .- zf l 0)) ./ #p).
Definition natr_val (c : list T) (a : T) (i : Z) : T := if truth a then #100 .* a ./ zf c i else #0.
Lemma natr_fun size h l c o p : zlen h = size -> zlen l = size -> zlen c = size -> 0 <= size <= INT_MAX ->
  to_int o = Some p -> 1 <= p ->
  ti_natr size [h; l; c] [o] = Ok (OKAY, [tab 0 (size - p + 1) (fun k => natr_val c (atr_at h l c p (k + p - 1)) (k + p - 1))]).
Proof.
  openfun ti_natr. setF.
  assert (Et : forall i, 1 <= i < size -> CALC_TRUERANGE h l c i = Ok (tr_at h l c i)).
  { intros i Hi. unfold tr_at. replace (i =? 0) with false by lia. apply CALC_TRUERANGE_eq; zl. }
  apply (wp_for (fun i s => s = trec (fun i s => s .+ tr_at h l c i) 1 i (#0 .+ (zf h 0 .- zf l 0)))).
  - lia.
  - rewrite trec_nil by lia. reflexivity.
  - intros i s Hi ->. rewrite Et by lia. wps. rewrite trec_snoc by lia. reflexivity.
  - intros s Es.
    assert (Ev : forall i a, 0 <= i < size -> (if truth a then let* c0 := rd c i in Ok (#100 .* a ./ c0) else Ok #0) = Ok (natr_val c a i)).
    { intros i a Hi. unfold natr_val. destruct (truth a); [|reflexivity]. apply wp_eq. wps. reflexivity. }
    assert (Ea : s ./ #p = atr_at h l c p (p - 1)) by (unfold atr_at; rewrite trec_nil by lia; rewrite Es; reflexivity).
    rewrite Ea. rewrite Ev by lia. apply wp_bind, wp_ret. apply wp_bind.
    apply (wp_for (fun i st => st = (atr_at h l c p (i - 1), tab 0 (i - p + 1) F))).
    + lia.
    + apply peq; [reflexivity|]. symmetry. rewrite Z.sub_diag. cbn [Z.add]. unfold F. cbn.
      replace (p - 1) with (0 + p - 1) by lia. reflexivity.
    + intros i st Hi ->. rewrite Et by lia. apply wp_bind, wp_ret. cbv zeta.
      assert (En : (tr_at h l c i .- atr_at h l c p (i - 1)) .* (#1 ./ #p) .+ atr_at h l c p (i - 1) = atr_at h l c p i).
      { unfold atr_at at 3. rewrite trec_snoc by lia. unfold atr_at. rewrite !Z.sub_add. reflexivity. }
      rewrite En, Ev by lia. apply wp_bind, wp_ret, wp_ret. apply peq; [f_equal; lia|].
      apply (tab_next' _ (i - p + 1)); [zl|zl|reflexivity|]. unfold F. replace (i - p + 1 + p - 1) with i by lia. reflexivity.
    + intros st ->. fintab.
Qed.
End A.

Lemma bbands_fun size (x : list R) o sd p : zlen x = size -> 0 <= size <= INT_MAX -> @to_int RA o = Some p -> 1 <= p ->
  @ti_bbands RA size [x] [o; sd] = Ok (OKAY,
    [tab 0 (size - p + 1) (fun k => mean (window k p x) - sd * sqrt (popvar (window k p x)))%R;
     tab 0 (size - p + 1) (fun k => mean (window k p x));
     tab 0 (size - p + 1) (fun k => mean (window k p x) + sd * sqrt (popvar (window k p x)))%R]).
Proof.
  intros Hl Hs Ho Hp. ranges. change (@T RA) with R in *. apply wp_eq. unfold ti_bbands, ti_bbands_start. wps; contra; try zl.
  { rewrite !tab_nil by zl. reflexivity. }
  match goal with |- context[[tab 0 ?s ?F0; tab 0 ?s ?F1; tab 0 ?s ?F2]] => set (G0 := F0); set (G1 := F1); set (G2 := F2) end.
  apply (wp_for (fun i s => s = (zsum 0 i (zr x), zsum 0 i (fun i => zr x i * zr x i)%R))).
  - lia.
  - rewrite !zsum_nil by lia. reflexivity.
  - intros i s Hi ->. wps. rewrite !zsum_snoc by lia. reflexivity.
  - intros s ->.
    assert (Em : forall k, 0 <= k -> k + p <= size -> mean (window k p x) = (zsum k (k + p) (zr x) * (1 / IZR p))%R).
    { intros. unfold mean. rewrite Rsum_window, zlen_window by lia. unfold Rdiv. ring. }
    assert (Ev : forall k, 0 <= k -> k + p <= size ->
      sqrt (popvar (window k p x)) = sqrt (zsum k (k + p) (fun i => zr x i * zr x i) * (1 / IZR p) -
        zsum k (k + p) (zr x) * (1 / IZR p) * (zsum k (k + p) (zr x) * (1 / IZR p)))%R).
    { intros. rewrite popvar_zsum by lia. reflexivity. }
    cbn beta iota. apply wp_bind.
    apply (wp_for (fun i s => s = (zsum (i - p) i (zr x), zsum (i - p) i (fun i => zr x i * zr x i)%R,
       tab 0 (i - p + 1) G0, tab 0 (i - p + 1) G1, tab 0 (i - p + 1) G2))).
    + lia.
    + toR. repeat apply peq; try (rewrite Z.sub_diag; reflexivity);
      (rewrite Z.sub_diag; apply tab_one; [lia|]); [unfold G0|unfold G1|unfold G2];
      rewrite ?Ev, ?Em by lia; rewrite !Z.add_0_l; reflexivity.
    + intros i s Hi ->. wps.
      assert (E1 : zsum (i + 1 - p) (i + 1) (zr x) = (zsum (i - p) i (zr x) + zr x i - zr x (i - p)%Z)%R) by (apply zsum_roll; lia).
      assert (E2 : zsum (i + 1 - p) (i + 1) (fun i => zr x i * zr x i)%R =
         (zsum (i - p) i (fun i => zr x i * zr x i) + zr x i * zr x i - zr x (i - p)%Z * zr x (i - p)%Z)%R) by (apply (zsum_roll i p (fun i => zr x i * zr x i)%R); lia).
      rewrite E1, E2. repeat apply peq; try reflexivity;
      (apply (tab_next' _ (i - p + 1)); [zl|zl|reflexivity|]);
      [unfold G0|unfold G1|unfold G2]; rewrite ?Ev, ?Em by lia; replace (i - p + 1 + p) with (i + 1) by lia; replace (i - p + 1) with (i + 1 - p) by lia;
      rewrite ?E1, ?E2; reflexivity.
    + intros s ->. wps; try zl. repeat f_equal; lia.
Qed.

(** What the batch indicators built from exponential averages and window sums compute over the reals. *)
From Coq Require Import Reals Lra.
From Verif Require Import M_osc Fun_exact Fun_osc RSum RArith Fun_batch1.
From Verif Require Export SpecR2.
Open Scope Z_scope.

Lemma efrom_0 p f s i : i = s -> efrom p f s i = f s.
Proof. intros ->. unfold efrom. apply trec_nil. lia. Qed.
Lemma efrom_S p f s i : s < i -> efrom p f s i = ((f i - efrom p f s (i - 1)) * (2 / (IZR p + 1)) + efrom p f s (i - 1))%R.
Proof. intros. unfold efrom. rewrite trec_snoc by lia. rewrite Z.sub_add. reflexivity. Qed.
Lemma efrom_upd p f s i v : s <= i -> (s < i -> v = efrom p f s (i - 1)) ->
  ((if i =? s then f i else v) * (1 - 2 / (IZR p + 1)) + f i * (2 / (IZR p + 1)))%R = efrom p f s i.
Proof.
  intros H Hv. destruct (i =? s) eqn:E.
  - rewrite efrom_0 by lia. replace s with i by lia. ring.
  - rewrite (efrom_S p f s i), Hv by lia. ring.
Qed.
Lemma efrom_upd' p f s i v : s < i -> v = efrom p f s (i - 1) -> ((f i - v) * (2 / (IZR p + 1)) + v)%R = efrom p f s i.
Proof. intros H ->. rewrite (efrom_S p f s i) by lia. reflexivity. Qed.
Lemma emaR_efrom p x i : 0 <= i -> emaR p x i = efrom p (zr x) 0 i.
Proof. intros H. unfold ema_at, efrom. apply trec_ext. intros. reflexivity. Qed.

Lemma tema_fun size (x : list R) o p : zlen x = size -> 0 <= size <= INT_MAX -> @to_int RA o = Some p -> 1 <= p <= 715827883 ->
  @ti_tema RA size [x] [o] = Ok (OKAY, [tab 0 (size - 3 * (p - 1)) (fun k => let i := (k + 3 * (p - 1))%Z in (3 * ema1 p x i - 3 * ema2 p x i + ema3 p x i)%R)]).
Proof.
  intros Hx Hs Ho Hp. ranges. apply wp_eq. unfold ti_tema, start_p13. wps; contra. { rewrite tab_nil by zl. reflexivity. }
  setF.
  apply (wp_for (fun i st => exists e1 e2 e3, st = (e1, e2, e3, tab 0 (i - 3 * (p - 1)) F) /\ (i = 0 -> e1 = zr x 0) /\ (0 < i -> e1 = ema1 p x (i - 1)) /\
     (p - 1 < i -> e2 = ema2 p x (i - 1)) /\ (2 * p - 2 < i -> e3 = ema3 p x (i - 1)))).
  - lia.
  - do 3 eexists. split; [rewrite tab_nil by lia; reflexivity|]. repeat split; intros; try lia.
  - intros i st Hi (e1 & e2 & e3 & -> & H0 & H1 & H2 & H3). wps;
    (assert (E1' : (e1 * (1 - 2 / (IZR p + 1)) + zr x i * (2 / (IZR p + 1)))%R = ema1 p x i);
     [unfold ema1; rewrite <- (efrom_upd p (zr x) 0 i e1) by (auto; lia); destruct (i =? 0) eqn:Ei; [rewrite H0 by lia; replace i with 0 by lia; reflexivity|reflexivity]|]);
    toR; rewrite E1'.
    all: try (assert (E2' := efrom_upd p (ema1 p x) (p - 1) i e2 ltac:(lia) H2); fold (ema2 p x i) in E2'; rewrite E2').
    all: replace ((p - 1) * 2) with (2 * p - 2) in * by lia.
    all: try (assert (E3' := efrom_upd p (ema2 p x) (2 * p - 2) i e3 ltac:(lia) H3); fold (ema3 p x i) in E3'; rewrite E3').
    all: do 3 eexists; (split; [f_equal; try reflexivity|]).
    all: try solve [repeat split; intros; try lia; replace (i + 1 - 1) with i by lia; reflexivity].
    + destruct (i >=? (p - 1) * 3) eqn:E5; [|rewrite !tab_nil by lia; reflexivity].
      apply (tab_next' _ (i - 3 * (p - 1))); [lia|lia|reflexivity|]. unfold F. cbv zeta. replace (i - 3 * (p - 1) + 3 * (p - 1)) with i by lia. reflexivity.
    + rewrite !tab_nil by lia. reflexivity.
    + rewrite !tab_nil by lia. reflexivity.
  - intros st (e1 & e2 & e3 & -> & _). fintab.
Qed.
Lemma dema_ema_R (x : list R) p i : 0 <= i -> @dema_ema RA x p i = ema1 p x i.
Proof.
  intros Hi. unfold dema_ema. cbv zeta. apply (zind (fun i => trec (fun i v => @fadd RA (@fmul RA v (@fsub RA (@of_Z RA 1) (@fdiv RA (@of_Z RA 2) (@fadd RA (@of_Z RA p) (@of_Z RA 1))))) (@fmul RA (@zf RA x i) (@fdiv RA (@of_Z RA 2) (@fadd RA (@of_Z RA p) (@of_Z RA 1))))) 0 (i + 1) (@zf RA x 0) = ema1 p x i) 0 i Hi).
  - rewrite trec_snoc, trec_nil by lia. unfold ema1. rewrite efrom_0 by lia. toR. ring.
  - intros j Hj IH. rewrite trec_snoc by lia. rewrite IH. unfold ema1. rewrite (efrom_S p _ 0 (j + 1)) by lia. replace (j + 1 - 1) with j by lia. toR. ring.
Qed.
Lemma dema_ema2_R (x : list R) p i : 1 <= p -> p - 1 <= i -> @dema_ema2 RA x p i = ema2 p x i.
Proof.
  intros Hp Hi. unfold dema_ema2. cbv zeta. apply (zind (fun i => trec (fun i v => @fadd RA (@fmul RA v (@fsub RA (@of_Z RA 1) (@fdiv RA (@of_Z RA 2) (@fadd RA (@of_Z RA p) (@of_Z RA 1))))) (@fmul RA (@dema_ema RA x p i) (@fdiv RA (@of_Z RA 2) (@fadd RA (@of_Z RA p) (@of_Z RA 1))))) (p - 1) (i + 1) (@dema_ema RA x p (p - 1)) = ema2 p x i) (p - 1) i Hi).
  - rewrite trec_snoc, trec_nil by lia. unfold ema2. rewrite efrom_0 by lia. rewrite dema_ema_R by lia. toR. ring.
  - intros j Hj IH. rewrite trec_snoc by lia. rewrite IH, dema_ema_R by lia. unfold ema2. rewrite (efrom_S p _ (p - 1) (j + 1)) by lia. replace (j + 1 - 1) with j by lia. toR. ring.
Qed.
Lemma demaR_fun size (x : list R) o p : zlen x = size -> 0 <= size <= INT_MAX -> @to_int RA o = Some p -> 1 <= p <= 1073741824 ->
  @ti_dema RA size [x] [o] = Ok (OKAY, [tab 0 (size - 2 * (p - 1)) (fun k => let i := (k + 2 * (p - 1))%Z in (2 * ema1 p x i - ema2 p x i)%R)]).
Proof.
  intros Hx Hs Ho Hp. etransitivity; [apply (@dema_fun RA _ size x o p); assumption|]. do 3 f_equal. apply tab_ext. intros k Hk. cbv zeta.
  rewrite dema_ema_R, dema_ema2_R by lia. toR. ring.
Qed.

Lemma trix_fun size (x : list R) o p : zlen x = size -> 0 <= size <= INT_MAX -> @to_int RA o = Some p -> 2 <= p <= 715827882 ->
  @ti_trix RA size [x] [o] = Ok (OKAY, [tab 0 (size - (3 * p - 2)) (fun k => let i := (k + (3 * p - 2))%Z in
     if Reqb (ema3 p x i) 0 then 0%R else ((ema3 p x i - ema3 p x (i - 1)) / ema3 p x i * 100)%R)]).
Proof.
  intros Hx Hs Ho Hp. ranges. apply wp_eq. unfold ti_trix, ti_trix_start. wps; contra. { rewrite tab_nil by zl. reflexivity. }
  setF. cbn [fst snd].
  apply (wp_for (fun i st => exists e2 e3, st = (ema1 p x (i - 1), e2, e3) /\
     (p - 1 < i -> e2 = ema2 p x (i - 1)) /\ (2 * p - 2 < i -> e3 = ema3 p x (i - 1)))).
  - lia.
  - do 2 eexists. split; [unfold ema1; rewrite efrom_0 by lia; reflexivity|]. split; intros; lia.
  - intros i st Hi (e2 & e3 & -> & H2 & H3). 
    assert (E1' : ((zr x i - ema1 p x (i - 1)) * (2 / (IZR p + 1)) + ema1 p x (i - 1))%R = ema1 p x i) by (apply efrom_upd'; [lia|reflexivity]).
    assert (E2' : p - 1 < i -> ((ema1 p x i - e2) * (2 / (IZR p + 1)) + e2)%R = ema2 p x i) by (intros; apply efrom_upd'; [lia|auto]).
    assert (E3' : 2 * p - 2 < i -> ((ema2 p x i - e3) * (2 / (IZR p + 1)) + e3)%R = ema3 p x i) by (intros; apply efrom_upd'; [lia|auto]).
    replace (i + 1 - 1) with i by lia. wps; toR; rewrite E1'; rewrite ?E2' by lia; rewrite ?E3' by lia; do 2 eexists; (split; [reflexivity|]); split; intros; try lia; try reflexivity.
    + unfold ema2. rewrite efrom_0 by lia. f_equal; lia.
    + unfold ema3. rewrite efrom_0 by lia. f_equal; lia.
  - intros st (e2 & e3 & -> & H2 & H3). rewrite H2, H3 by lia. clear H2 H3 e2 e3. wps.
    apply (wp_for (fun i st => st = (ema1 p x (i - 1), ema2 p x (i - 1), ema3 p x (i - 1), tab 0 (i - (3 * p - 2)) F))).
    + lia.
    + rewrite tab_nil by lia. replace (p * 3 - 2 - 1) with (3 * p - 2 - 1) by lia. reflexivity.
    + intros i st Hi ->.
      assert (E1' : ((zr x i - ema1 p x (i - 1)) * (2 / (IZR p + 1)) + ema1 p x (i - 1))%R = ema1 p x i) by (apply efrom_upd'; [lia|reflexivity]).
      assert (E2' : ((ema1 p x i - ema2 p x (i - 1)) * (2 / (IZR p + 1)) + ema2 p x (i - 1))%R = ema2 p x i) by (apply efrom_upd'; [lia|reflexivity]).
      assert (E3' : ((ema2 p x i - ema3 p x (i - 1)) * (2 / (IZR p + 1)) + ema3 p x (i - 1))%R = ema3 p x i) by (apply efrom_upd'; [lia|reflexivity]).
      replace (i + 1 - 1) with i by lia. wps; toR; rewrite E1', E2', E3'. repeat apply peq; try reflexivity.
      apply (tab_next' _ (i - (3 * p - 2))); [lia|lia|reflexivity|]. unfold F. cbv zeta. replace (i - (3 * p - 2) + (3 * p - 2)) with i by lia.
      unfold truth. toR. destruct (Reqb_spec (ema3 p x i) 0); reflexivity.
    + intros st ->. fintab.
Qed.

Lemma adosc_fun size (h l c v : list R) o1 o2 s g : zlen h = size -> zlen l = size -> zlen c = size -> zlen v = size -> 0 <= size <= INT_MAX ->
  @to_int RA o1 = Some s -> @to_int RA o2 = Some g -> 1 <= s <= g ->
  @ti_adosc RA size [h; l; c; v] [o1; o2] = Ok (OKAY, [tab 0 (size - (g - 1)) (fun k => let i := (k + (g - 1))%Z in
     (efrom s (ad_line h l c v) 0 i - efrom g (ad_line h l c v) 0 i)%R)]).
Proof.
  intros Hh Hl Hc Hv Hs H1 H2 Hp. ranges. apply wp_eq. unfold ti_adosc, start_l1. wps; contra. { rewrite tab_nil by zl. reflexivity. }
  setF.
  apply (wp_for (fun i st => exists a b, st = (zsum 0 i (chaikin h l c v), a, b, tab 0 (i - (g - 1)) F) /\
     (0 < i -> a = efrom s (ad_line h l c v) 0 (i - 1)) /\ (0 < i -> b = efrom g (ad_line h l c v) 0 (i - 1)))).
  - lia.
  - do 2 eexists. split; [rewrite tab_nil by lia; rewrite zsum_nil by lia; reflexivity|]. split; intros; lia.
  - intros i st Hi (a & b & -> & Ha & Hb). cbn beta iota. apply wp_bind, wp_rdf; [zl|]. apply wp_bind, wp_rdf; [zl|]. cbv zeta. apply wp_bind.
    apply (wp_mono _ (fun r => r = ad_line h l c v i)).
    { unfold ad_line. rewrite zsum_snoc by lia. unfold chaikin. toR. destruct (Reqb_spec (zr h i - zr l i) 0) as [Eq|Nq]; cbn [negb wp]; change (@T RA) with R in *; [lra|].
      rewrite !rdr by zl. cbn [bind wp]. unfold Rdiv. ring. }
    intros r ->. apply wp_ret. toR.
    assert (Ee : forall q w, (0 < i -> w = efrom q (ad_line h l c v) 0 (i - 1)) -> (if i =? 0 then ad_line h l c v i else (ad_line h l c v i - w) * (2 / (IZR q + 1)) + w)%R = efrom q (ad_line h l c v) 0 i).
    { intros q w Hw. destruct (i =? 0) eqn:Ez; [rewrite efrom_0 by lia; f_equal; lia|]. apply efrom_upd'; [lia|apply Hw; lia]. }
    rewrite !Ee by assumption. do 2 eexists. split; [|split; intros; replace (i + 1 - 1) with i by lia; reflexivity].
    repeat apply peq; try reflexivity.
    destruct (i >=? g - 1) eqn:E5; [|rewrite !tab_nil by lia; reflexivity].
      apply (tab_next' _ (i - (g - 1))); [lia|lia|reflexivity|]. unfold F. cbv zeta. rewrite Z.sub_add. reflexivity.
  - intros st (a & b & -> & _). fintab.
Qed.

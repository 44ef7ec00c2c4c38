(** What kama, vidya, trima, hma and zlema compute over the reals. *)
From Coq Require Import Reals Lra R_Ifp.
From Verif Require Import M_osc Fun_exact Fun_exact2 Fun_osc RSum RArith Fun_batch1 Fun_batch2 Fun_batch3 Fun_batch4 Fun_window2.
From Verif Require Export SpecR3.
Open Scope Z_scope.

Lemma kama_at_S p x i : p <= i -> kama_at p x i = (kama_at p x (i - 1) + kama_share p x i * (zr x i - kama_at p x (i - 1)))%R.
Proof. intros. unfold kama_at. rewrite trec_snoc by lia. rewrite Z.sub_add. reflexivity. Qed.
Lemma kama_fun size (x : list R) o p : zlen x = size -> 0 <= size <= INT_MAX -> @to_int RA o = Some p -> 1 <= p ->
  @ti_kama RA size [x] [o] = Ok (OKAY, [tab 0 (size - p + 1) (fun k => kama_at p x (k + (p - 1)))]).
Proof.
  intros Hx Hs Ho Hp. ranges. apply wp_eq. unfold ti_kama, start_p1. wps; contra. { rewrite tab_nil by zl. reflexivity. }
  setF. set (g := fun j => Rabs (zr x j - zr x (j - 1))).
  apply (wp_for (fun i st => st = zsum 1 i g)).
  - lia.
  - rewrite !zsum_nil by lia. reflexivity.
  - intros i st Hi ->. cbn beta iota. do 2 wread. toR. cbn [wp]. rewrite zsum_snoc by lia. reflexivity.
  - intros st ->. wps.
    apply (wp_for (fun i st => st = (zsum (Z.max 1 (i - p)) i g, kama_at p x (i - 1), tab 0 (i - p + 1) F))).
    + lia.
    + replace (Z.max 1 (p - p)) with 1 by lia. assert (EK : kama_at p x (p - 1) = zr x (p - 1)) by (unfold kama_at; rewrite trec_nil by lia; reflexivity).
      repeat apply peq; [reflexivity|symmetry; exact EK|]. apply tab_one; [lia|]. unfold F. rewrite Z.add_0_l, EK. reflexivity.
    + intros i st Hi ->. cbn beta iota. do 2 wread. toR. fold (g i). apply wp_bind.
      apply (wp_mono _ (fun r => r = path p x i)).
      { unfold path. fold g. destruct (i >? p) eqn:Ei.
        - rewrite !rdr by zl. cbn [bind wp]. change (Rabs (zr x (i - p) - zr x (i - p - 1))) with (g (i - p)). replace (i - p + 1) with (i + 1 - p) by lia. rewrite zsum_roll by lia.
          replace (Z.max 1 (i - p)) with (i - p) by lia. reflexivity.
        - cbn [wp]. replace (Z.max 1 (i - p)) with 1 by lia. replace (i - p + 1) with 1 by lia. rewrite zsum_snoc by lia. reflexivity. }
      intros r ->. apply wp_bind. apply (wp_mono _ (fun r => r = efficiency p x i)).
      { unfold efficiency. destruct (Reqb_spec (path p x i) 0); cbn [negb]; [reflexivity|]. rewrite !rdr by zl. reflexivity. }
      intros r ->. cbv zeta. apply wp_ret. 
      match goal with |- context[(kama_at p x (i - 1) + ?q * (zr x i - kama_at p x (i - 1)))%R] => assert (EQ : q = kama_share p x i) end.
      { unfold kama_share. cbv zeta. etransitivity; [apply fpow_2_R|]. change (@T RA) with R. field. }
      rewrite EQ, <- kama_at_S by lia. replace (i + 1 - 1) with i by lia. repeat apply peq; try reflexivity; [unfold path; fold g; f_equal; lia|].
      apply (tab_next' _ (i - p + 1)); [lia|lia|reflexivity|]. unfold F. f_equal. lia.
    + intros st ->. fintab.
Qed.

Lemma vidya_at_S s g a x i : g - 1 <= i -> vidya_at s g a x i = (vidya_at s g a x (i - 1) + vidya_share s g a x i * (zr x i - vidya_at s g a x (i - 1)))%R.
Proof. intros. unfold vidya_at. rewrite trec_snoc by lia. rewrite Z.sub_add. reflexivity. Qed.
Lemma vidya_k_R s g a (x : list R) i ss ss2 ls ls2 : 1 <= s -> 1 <= g ->
  ss = zsum (i - s + 1) (i + 1) (zr x) -> ss2 = zsum (i - s + 1) (i + 1) (fun j => zr x j * zr x j)%R ->
  ls = zsum (i - g + 1) (i + 1) (zr x) -> ls2 = zsum (i - g + 1) (i + 1) (fun j => zr x j * zr x j)%R ->
  @vidya_k RA ss ss2 (1 / IZR s)%R ls ls2 (1 / IZR g)%R a = vidya_share s g a x i.
Proof.
  intros Hs Hg -> -> -> ->. unfold vidya_k, vidya_share, last_sd. rewrite !last_var by assumption. unfold truth. toR.
  match goal with |- context[negb (Reqb ?e ?e)] => destruct (Reqb_spec e e); [|congruence] end. cbn [negb].
  destruct (Reqb _ 0); cbn [negb]; ring.
Qed.
Lemma vidya_fun size (x : list R) o1 o2 a s g : zlen x = size -> 0 <= size <= INT_MAX -> @to_int RA o1 = Some s -> @to_int RA o2 = Some g ->
  1 <= s <= g -> 2 <= g -> (0 <= a <= 1)%R -> size <> g - 1 ->
  @ti_vidya RA size [x] [o1; o2; a] = Ok (OKAY, [tab 0 (size - (g - 2)) (fun k => vidya_at s g a x (k + (g - 2)))]).
Proof.
  intros Hx Hs H1 H2 Hp Hg Ha Hn. ranges. apply wp_eq. unfold ti_vidya, ti_vidya_start, cast. rewrite H1, H2. cbn [bind].
  replace (s <? 1) with false by lia. replace (g <? s) with false by lia. replace (g <? 2) with false by lia.
  replace (@flt RA a (@of_Z RA 0) || @flt RA (@of_Z RA 1) a)%bool with false by (cbn; destruct (Rltb_spec a 0), (Rltb_spec 1 a); try lra; reflexivity).
  wps. { rewrite tab_nil by zl. reflexivity. }
  setF. set (q := fun j => (zr x j * zr x j)%R).
  apply (wp_for (fun i st => st = (zsum (g - s) i (zr x), zsum (g - s) i q, zsum 0 i (zr x), zsum 0 i q))).
  - lia.
  - rewrite !zsum_nil by lia. reflexivity.
  - intros i st Hi ->. cbn beta iota. wread. cbv zeta. toR. change (zr x i * zr x i)%R with (q i). destruct (i >=? g - s) eqn:Eq; cbn [wp].
    + rewrite !zsum_snoc by lia. reflexivity.
    + rewrite !(zsum_nil (g - s)) by lia. rewrite !zsum_snoc by lia. reflexivity.
  - intros st ->. cbn beta iota zeta. wread. replace (g - 1 <? size) with true by lia. rewrite (rdR x (g - 1)) by zl. cbn [bind]. cbn beta iota.
    assert (V0 : vidya_at s g a x (g - 2) = zr x (g - 2)) by (unfold vidya_at; rewrite trec_nil by lia; reflexivity).
    assert (ES : forall i ss ss2 ls ls2, g - 1 <= i -> ss = zsum (i - s + 1) (i + 1) (zr x) -> ss2 = zsum (i - s + 1) (i + 1) q ->
       ls = zsum (i - g + 1) (i + 1) (zr x) -> ls2 = zsum (i - g + 1) (i + 1) q ->
       ((zr x i - vidya_at s g a x (i - 1)) * @vidya_k RA ss ss2 (1 / IZR s)%R ls ls2 (1 / IZR g)%R a + vidya_at s g a x (i - 1))%R = vidya_at s g a x i).
    { intros i ss ss2 ls ls2 Hi A1 A2 A3 A4. rewrite (vidya_k_R s g a x i) by (assumption || lia). rewrite (vidya_at_S s g a x i) by lia. ring. }
    apply wp_bind. apply (wp_for (fun i st => st = (zsum (i - s) i (zr x), zsum (i - s) i q, zsum (i - g) i (zr x), zsum (i - g) i q, vidya_at s g a x (i - 1), tab 0 (i - (g - 2)) F))).
    + lia.
    + rewrite Z.sub_diag. toR. assert (E1 := ES (g - 1) (zsum (g - s) g (zr x)) (zsum (g - s) g q) (zsum 0 g (zr x)) (zsum 0 g q) ltac:(lia) ltac:(f_equal; lia) ltac:(f_equal; lia) ltac:(f_equal; lia) ltac:(f_equal; lia)).
      replace (g - 1 - 1) with (g - 2) in E1 by lia. rewrite V0 in E1. rewrite E1. repeat apply peq; try reflexivity.
      replace (g - (g - 2)) with (1 + 1) by lia. rewrite tab_snoc by lia. change (tab 0 1 F) with [F 0].
      unfold F. rewrite Z.add_0_l, V0. cbn [app]. do 3 f_equal. lia.
    + intros i st Hi ->. cbn beta iota. do 3 wread. cbv zeta. toR. change (zr x i * zr x i)%R with (q i). change (zr x (i - g) * zr x (i - g))%R with (q (i - g)). change (zr x (i - s) * zr x (i - s))%R with (q (i - s)).
      assert (Er : forall f r, 1 <= r -> (zsum (i - r) i f + f i - f (i - r)%Z)%R = zsum (i + 1 - r) (i + 1) f) by (intros; rewrite zsum_roll by lia; reflexivity).
      change (@T RA) with R. rewrite !Er by lia. rewrite (ES i) by (try lia; f_equal; lia). cbn [wp]. replace (i + 1 - 1) with i by lia. repeat apply peq; try reflexivity.
      apply (tab_next' _ (i - (g - 2))); [lia|lia|reflexivity|]. unfold F. f_equal. lia.
    + intros st ->. cbn beta iota. fintab.
Qed.

(** ** trima *)
Lemma zsum_up n : 0 <= n -> zsum 0 n (fun j => IZR (j + 1)) = (IZR (n * (n + 1)) / 2)%R.
Proof.
  intros Hn. apply (zind (fun n => zsum 0 n (fun j => IZR (j + 1)) = (IZR (n * (n + 1)) / 2)%R) 0 n Hn); [rewrite zsum_nil by lia; cbn; lra|].
  intros m Hm IH. rewrite zsum_snoc by lia. rewrite IH. rewrite !mult_IZR, !plus_IZR. field.
Qed.
Lemma zsum_down p a : a <= p -> zsum a p (fun j => IZR (p - j)) = (IZR ((p - a) * (p - a + 1)) / 2)%R.
Proof.
  intros Ha. remember (p - a) as n eqn:En. assert (Hn : 0 <= n) by lia. replace a with (p - n) by lia. clear En Ha a.
  apply (zind (fun n => zsum (p - n) p (fun j => IZR (p - j)) = (IZR (n * (n + 1)) / 2)%R) 0 n Hn); [rewrite zsum_nil by lia; cbn; lra|].
  intros m Hm IH. rewrite zsum_cons by lia. replace (p - (m + 1) + 1) with (p - m) by lia. rewrite IH. replace (p - (p - (m + 1))) with (m + 1) by lia. rewrite !mult_IZR, !plus_IZR. field.
Qed.
(** The sum of the weights. *)
Lemma triw_sum p t : 0 <= t -> p = 2 * t \/ p = 2 * t - 1 -> 0 <= p -> zsum 0 p (triw p) = IZR (t * (p - t + 1)).
Proof.
  intros Ht Hp P. rewrite (zsum_split 0 t) by lia.
  rewrite (zsum_ext 0 t _ (fun j => IZR (j + 1))) by (intros; unfold triw; f_equal; lia). rewrite (zsum_ext t p _ (fun j => IZR (p - j))) by (intros; unfold triw; f_equal; lia).
  rewrite zsum_up, zsum_down by lia. destruct Hp as [-> | ->].
  - replace (2 * t - t) with t by lia. rewrite !mult_IZR, !plus_IZR. field.
  - replace (2 * t - 1 - t) with (t - 1) by lia. rewrite !mult_IZR, !plus_IZR, !minus_IZR. field.
Qed.
(** Moving the window by one bar: the rising half loses one weight per bar, the falling half gains one. *)
Lemma triw_next p t (f : Z -> R) a : 1 <= t -> p = 2 * t \/ p = 2 * t - 1 ->
  (zsum a (a + p) (fun j => triw p (j - a) * f j) + zsum (a + p - (t - 1)) (a + p) f - zsum a (a + t) f)%R
  = zsum (a + 1) (a + p) (fun j => triw p (j - (a + 1)) * f j)%R.
Proof.
  intros Ht Hp.
  assert (E : zsum (a + 1) (a + p) (fun j => triw p (j - (a + 1)) * f j)%R = zsum a (a + p) (fun j => triw p (j - (a + 1)) * f j)%R).
  { rewrite (zsum_cons a) by lia. unfold triw at 2. replace (Z.min (a - (a + 1) + 1) (p - (a - (a + 1)))) with 0 by lia. ring. }
  rewrite E. clear E. set (m := a + p - (t - 1)).
  rewrite !(zsum_split a (a + t) (a + p)) by lia. rewrite !(zsum_split (a + t) m (a + p)) by (unfold m; lia).
  rewrite (zsum_ext a (a + t) _ (fun j => triw p (j - (a + 1)) * f j + f j)%R).
  2:{ intros j Hj. unfold triw. replace (Z.min (j - a + 1) (p - (j - a))) with (j - a + 1) by lia. replace (Z.min (j - (a + 1) + 1) (p - (j - (a + 1)))) with (j - a) by lia. rewrite plus_IZR. ring. }
  rewrite (zsum_ext (a + t) m _ (fun j => triw p (j - (a + 1)) * f j)%R).
  2:{ intros j Hj. unfold triw, m in *. do 2 f_equal. lia. }
  rewrite (zsum_ext m (a + p) (fun j => triw p (j - (a + 1)) * f j)%R (fun j => triw p (j - a) * f j + f j)%R).
  2:{ intros j Hj. unfold triw, m in *. replace (Z.min (j - a + 1) (p - (j - a))) with (p - (j - a)) by lia. replace (Z.min (j - (a + 1) + 1) (p - (j - (a + 1)))) with (p - (j - a) + 1) by lia. rewrite plus_IZR. ring. }
  rewrite !zsum_plus. ring.
Qed.
Lemma trima_at_eq p x i : trima_at p x i = (zsum (i - p + 1) (i - p + 1 + p) (fun j => triw p (j - (i - p + 1)) * zr x j) / zsum 0 p (triw p))%R.
Proof.
  unfold trima_at. f_equal. set (a := i - p + 1). replace (zsum a (a + p)) with (zsum (0 + a) (p + a)) by (f_equal; lia). rewrite zsum_shift.
  apply zsum_ext. intros j Hj. replace (j + a - a) with j by lia. do 2 f_equal. lia.
Qed.
Lemma trima_fun size (x : list R) o p : zlen x = size -> 0 <= size <= INT_MAX -> @to_int RA o = Some p -> 3 <= p <= 92679 ->
  @ti_trima RA size [x] [o] = Ok (OKAY, [tab 0 (size - p + 1) (fun k => trima_at p x (k + (p - 1)))]).
Proof.
  intros Hx Hs Ho Hp. ranges. 
  set (t := (p + 1) / 2). assert (Ht : p = 2 * t \/ p = 2 * t - 1) by (unfold t; pose proof (Z.div_mod (p + 1) 2); pose proof (Z.mod_pos_bound (p + 1) 2); lia).
  assert (T2 : 2 <= t <= 46340) by lia. clearbody t.
  assert (Eq : Z.quot p 2 = p / 2) by (apply Z.quot_div_nonneg; lia). assert (Er : Z.rem p 2 = p mod 2) by (apply Z.rem_mod_nonneg; lia).
  assert (Ew : (if negb (Z.rem p 2 =? 0) then ck ((Z.quot p 2 + 1) * (Z.quot p 2 + 1)) else ck ((Z.quot p 2 + 1) * Z.quot p 2)) = Ok (t * (p - t + 1))).
  { rewrite Eq, Er. destruct Ht as [-> | ->].
    - rewrite Z.mul_comm, Z.mod_mul by lia. rewrite Z.div_mul by lia. cbn [Z.eqb negb]. unfold ck. replace ((INT_MIN <=? (t + 1) * t) && ((t + 1) * t <=? INT_MAX))%bool with true by (symmetry; apply andb_true_intro; split; apply Z.leb_le; unfold INT_MIN, INT_MAX; nia). f_equal. lia.
    - replace (2 * t - 1) with (1 + (t - 1) * 2) by lia. rewrite Z.mod_add, Z.div_add by lia. cbn [Z.eqb negb]. change (1 mod 2) with 1. change (1 / 2) with 0. cbn [Z.eqb negb]. unfold ck.
      replace ((INT_MIN <=? (0 + (t - 1) + 1) * (0 + (t - 1) + 1)) && ((0 + (t - 1) + 1) * (0 + (t - 1) + 1) <=? INT_MAX))%bool with true by (symmetry; apply andb_true_intro; split; apply Z.leb_le; unfold INT_MIN, INT_MAX; nia). f_equal. lia. }
  assert (El : (if negb (Z.rem p 2 =? 0) then Z.quot p 2 else Z.quot p 2 - 1) = t - 1).
  { rewrite Eq, Er. destruct Ht as [-> | ->].
    - rewrite Z.mul_comm, Z.mod_mul by lia. rewrite Z.div_mul by lia. reflexivity.
    - replace (2 * t - 1) with (1 + (t - 1) * 2) by lia. rewrite Z.mod_add, Z.div_add by lia. change (1 mod 2) with 1. change (1 / 2) with 0. cbn [Z.eqb negb]. lia. }
  apply wp_eq. unfold ti_trima, cast. rewrite Ho. cbn [bind]. replace (p <? 1) with false by lia. replace (p <=? 2) with false by lia. rewrite Ew, El. cbn [bind]. cbv zeta.
  clear Eq Er Ew El. unfold start_p1. wps; contra. { rewrite tab_nil by zl. reflexivity. }
  setF. set (wx := fun a lim => zsum a lim (fun j => triw p (j - a) * zr x j)%R).
  replace (p - 1 - p + 1) with 0 by lia. replace (t - 1 + 1) with t by lia.
  apply (wp_for (fun i st => st = (wx 0 i, zsum (p - (t - 1)) i (zr x), zsum 0 (Z.min i t) (zr x), Z.min (i + 1) (p - i)))).
  - lia.
  - unfold wx. rewrite !zsum_nil by lia. repeat apply peq; try reflexivity. lia.
  - intros i st Hi ->. cbn beta iota. wread. cbv zeta. toR. cbn [wp]. repeat apply peq.
    + unfold wx. rewrite zsum_snoc by lia. rewrite Z.sub_0_r. change (IZR (Z.min (i + 1) (p - i))) with (triw p i). change (@T RA) with R. ring.
    + destruct (i + 1 >? p - (t - 1)) eqn:Eg; [rewrite zsum_snoc by lia; reflexivity|rewrite !zsum_nil by lia; reflexivity].
    + destruct (i + 1 <=? t) eqn:Eg; [replace (Z.min (i + 1) t) with (i + 1) by lia; replace (Z.min i t) with i by lia; rewrite zsum_snoc by lia; reflexivity|f_equal; lia].
    + destruct (i + 1 <? t) eqn:Eg, (i + 1 >=? p - (t - 1)) eqn:Eh; lia.
  - intros st ->. cbn beta iota. apply wp_bind.
    apply (wp_for (fun i st => st = (wx (i - p + 1) i, zsum (i - (t - 1) + 1) i (zr x), zsum (i - p + 1) (i - p + 1 + t) (zr x), i - (t - 1) + 1, i - p + 1 + t, i - p + 1, tab 0 (i - p + 1) F))).
    + lia.
    + replace (p - 1 - p + 1) with 0 by lia. replace (Z.min (p - 1) t) with t by lia. rewrite tab_nil by lia. repeat apply peq; try reflexivity; try lia. f_equal. lia.
    + intros i st Hi ->. cbn beta iota. wread. cbv zeta. do 3 wread. toR. cbn [wp]. set (a := i - p + 1). change (@T RA) with R.
      assert (W : (wx a i + zr x i)%R = zsum a (a + p) (fun j => triw p (j - a) * zr x j)%R).
      { replace (a + p) with (i + 1) by (unfold a; lia). rewrite zsum_snoc by (unfold a; lia). replace (triw p (i - a)) with 1%R by (unfold triw; replace (Z.min (i - a + 1) (p - (i - a))) with 1 by (unfold a; lia); reflexivity). rewrite Rmult_1_l. reflexivity. }
      assert (L : (zsum (i - (t - 1) + 1) i (zr x) + zr x i)%R = zsum (a + p - (t - 1)) (a + p) (zr x)).
      { replace (a + p) with (i + 1) by (unfold a; lia). replace (i + 1 - (t - 1)) with (i - (t - 1) + 1) by lia. rewrite zsum_snoc by lia. reflexivity. }
      rewrite !W, !L. rewrite triw_next by (assumption || lia). repeat apply peq; try lia.
      * unfold wx. replace (i + 1 - p + 1) with (a + 1) by (unfold a; lia). replace (a + p) with (i + 1) by (unfold a; lia). reflexivity.
      * replace (a + p) with (i + 1) by (unfold a; lia). rewrite (zsum_cons (i + 1 - (t - 1))) by lia. replace (i + 1 - (t - 1)) with (i - (t - 1) + 1) by lia. replace (i - (t - 1) + 1 + 1) with (i + 1 - (t - 1) + 1) by lia. ring.
      * replace (i + 1 - p + 1) with (a + 1) by (unfold a; lia). replace (a + 1 + t) with (a + t + 1) by lia. rewrite (zsum_snoc (a + 1)) by lia. rewrite (zsum_cons a) by lia. ring.
      * apply (tab_next' _ (i - p + 1)); [lia|lia|reflexivity|]. unfold F. rewrite trima_at_eq. replace (i - p + 1 + (p - 1) - p + 1) with a by (unfold a; lia). rewrite (triw_sum p t) by (assumption || lia). unfold Rdiv. ring.
    + intros st ->. cbn beta iota. fintab.
Qed.

(** ** hma *)
Lemma sqrt_cast p : 0 <= p <= INT_MAX -> @to_int RA (@fsqrt RA (@of_Z RA p)) = Some (Z.sqrt p).
Proof.
  intros Hp. cbn. unfold Rto_int, Rtrunc. pose proof (sqrt_pos (IZR p)). destruct (Rle_dec 0 (sqrt (IZR p))); [|lra].
  destruct (Z.sqrt_spec p ltac:(lia)) as [S1 S2]. pose proof (Z.sqrt_nonneg p) as S0. set (q := Z.sqrt p) in *.
  assert (Q0 : (0 <= IZR q)%R) by (apply IZR_le; lia).
  assert (E : Int_part (sqrt (IZR p)) = q).
  { destruct (Int_part_bounds (sqrt (IZR p))) as [I1 I2]. set (k := Int_part (sqrt (IZR p))) in *.
    assert (sqrt (IZR p) < IZR q + 1)%R.
    { rewrite <- (sqrt_square (IZR q + 1)) by lra. apply sqrt_lt_1; [apply IZR_le; lia|nra|]. rewrite <- plus_IZR, <- mult_IZR. apply IZR_lt. lia. }
    assert (IZR q <= sqrt (IZR p))%R.
    { rewrite <- (sqrt_square (IZR q)) at 1 by lra. apply sqrt_le_1; [nra|apply IZR_le; lia|]. rewrite <- mult_IZR. apply IZR_le. lia. }
    assert (k < q + 1) by (apply lt_IZR; rewrite plus_IZR; lra). assert (q < k + 1) by (apply lt_IZR; rewrite plus_IZR; lra). lia. }
  rewrite E. replace ((INT_MIN <=? q) && (q <=? INT_MAX))%bool with true; [reflexivity|]. symmetry. apply andb_true_intro. split; apply Z.leb_le; unfold INT_MIN, INT_MAX in *; nia.
Qed.
(** The linearly weighted sum of the last p values: the next one. *)
Lemma lin_full p f i : (zsum (i - p + 1) i (fun j => IZR (j - i + p) * f j) + f i * IZR p)%R = zsum (i - p + 1) (i + 1) (fun j => IZR (j - i + p) * f j)%R \/ p < 1.
Proof. destruct (Z.le_gt_cases 1 p); [left|right; lia]. rewrite zsum_snoc by lia. replace (i - i + p) with p by lia. ring. Qed.
Lemma lin_next p f i : 1 <= p ->
  (zsum (i - p + 1) (i + 1) (fun j => IZR (j - i + p) * f j) - zsum (i - p + 1) (i + 1) f)%R = zsum (i + 1 - p + 1) (i + 1) (fun j => IZR (j - (i + 1) + p) * f j)%R.
Proof.
  intros Hp. rewrite <- zsum_minus. rewrite (zsum_ext _ _ _ (fun j => IZR (j - (i + 1) + p) * f j)%R).
  - rewrite (zsum_cons (i - p + 1)) by lia. replace (i - p + 1 - (i + 1) + p) with 0 by lia. replace (i - p + 1 + 1) with (i + 1 - p + 1) by lia. ring.
  - intros j Hj. replace (j - i + p) with (j - (i + 1) + p + 1) by lia. rewrite plus_IZR. ring.
Qed.
Lemma half_prod p : 0 <= p -> IZR (Z.quot (p * (p + 1)) 2) = (IZR (p * (p + 1)) / 2)%R.
Proof.
  intros Hp. rewrite Z.quot_div_nonneg by nia. assert (E : p * (p + 1) = p * (p + 1) / 2 * 2).
  { pose proof (Z.div_mod (p * (p + 1)) 2 ltac:(lia)) as D. assert ((p * (p + 1)) mod 2 = 0); [|lia].
    destruct (Z.Even_or_Odd p) as [[m ->]|[m ->]]; [replace (2 * m * (2 * m + 1)) with (m * (2 * m + 1) * 2) by ring|replace ((2 * m + 1) * (2 * m + 1 + 1)) with ((2 * m + 1) * (m + 1) * 2) by ring]; apply Z.mod_mul; lia. }
  rewrite E at 2. rewrite mult_IZR. field.
Qed.
Lemma hma_fun size (x : list R) o p : zlen x = size -> 0 <= size <= INT_MAX -> @to_int RA o = Some p -> 2 <= p <= 46340 ->
  @ti_hma RA size [x] [o] = Ok (OKAY, [tab 0 (size - (p + Z.sqrt p - 2)) (fun k => hma_at p x (k + (p + Z.sqrt p - 2)))]).
Proof.
  intros Hx Hs Ho Hp. ranges. pose proof (sqrt_cast p ltac:(unfold INT_MAX in *; lia)) as Hq. assert (Q : 1 <= Z.sqrt p <= p) by (split; [change 1 with (Z.sqrt 1); apply Z.sqrt_le_mono; lia|apply Z.sqrt_le_lin; lia]).
  assert (Qp : Z.sqrt p <= 215) by (apply (Z.sqrt_le_mono p 46340); lia).
  set (q := Z.sqrt p) in *. set (h := p / 2). assert (Hh : 1 <= h <= p - 1 /\ h <= 23170) by (unfold h; pose proof (Z.div_mod p 2); pose proof (Z.mod_pos_bound p 2); lia).
  assert (Eh : Z.quot p 2 = h) by (apply Z.quot_div_nonneg; lia).
  apply wp_eq. unfold ti_hma, ti_hma_start. cbn beta iota.
  assert (CK : forall n, 0 <= n <= 46340 -> ck (n * (n + 1)) = Ok (n * (n + 1))).
  { intros n Hn. unfold ck. replace ((INT_MIN <=? n * (n + 1)) && (n * (n + 1) <=? INT_MAX))%bool with true; [reflexivity|]. symmetry. apply andb_true_intro. split; apply Z.leb_le; unfold INT_MIN, INT_MAX; nia. }
  unfold cast. rewrite Ho. cbn [bind]. rewrite Hq. cbn [bind]. replace (p <? 1) with false by lia. replace (p >=? 0) with true by lia.
  replace (ck (p + q)) with (Ok (p + q)) by (unfold ck; replace ((INT_MIN <=? p + q) && (p + q <=? INT_MAX))%bool with true by zl; reflexivity). cbn [bind].
  replace (ck (p + q - 2)) with (Ok (p + q - 2)) by (unfold ck; replace ((INT_MIN <=? p + q - 2) && (p + q - 2 <=? INT_MAX))%bool with true by zl; reflexivity). cbn [bind].
  destruct (size <=? p + q - 2) eqn:Es. { rewrite tab_nil by zl. reflexivity. }
  replace (ck (p + 1)) with (Ok (p + 1)) by (unfold ck; replace ((INT_MIN <=? p + 1) && (p + 1 <=? INT_MAX))%bool with true by zl; reflexivity). cbn [bind].
  cbv zeta. rewrite ?Eh. rewrite ?Hq. cbn [bind]. rewrite !CK by lia. cbn [bind]. cbv zeta. setF.
  set (A := fun r f i => zsum (i - r + 1) i (fun j => IZR (j - i + r) * f j)%R). set (B := fun r (f : Z -> R) i => zsum (i - r + 1) i f).
  apply wp_bind. apply (wp_for (fun i st => st = (zsum 0 i (fun j => IZR (j + 1) * zr x j)%R, zsum 0 i (zr x), zsum (p - h) i (fun j => IZR (j + 1 - (p - h)) * zr x j)%R, zsum (p - h) i (zr x)))).
  - lia.
  - rewrite !zsum_nil by lia. reflexivity.
  - intros i st Hi ->. cbn beta iota. wread. toR. destruct (i >=? p - h) eqn:Eg; cbn [wp].
    + rewrite !zsum_snoc by lia. repeat apply peq; try reflexivity; change (@T RA) with R; ring.
    + rewrite !(zsum_nil (p - h)) by lia. rewrite !zsum_snoc by lia. repeat apply peq; try reflexivity; change (@T RA) with R; ring.
  - intros st ->. cbn beta iota. destruct (@buffer_new_ok RA q ltac:(lia)) as (b0 & Eb & Hb & _). rewrite Eb. cbn [bind].
    set (df := fun j => (2 * wma_of h (zr x) j - wma_of p (zr x) j)%R). set (d := fun j => if j <? p - 1 then 0%R else df j).
    apply wp_bind. apply (wp_for (fun i st => exists b, st = (A p (zr x) i, B p (zr x) i, A h (zr x) i, B h (zr x) i, A q d i, B q d i, b, tab 0 (i - (p + q - 2)) F) /\ @slots_ok RA b q (tab (p - 1) i d))).
    + lia.
    + exists b0. rewrite !tab_nil by lia. split; [|exact Hb].
      assert (Z0 : forall f : Z -> R, zsum (p - 1 - q + 1) (p - 1) (fun j => (f j * d j)%R) = 0%R).
      { intros f. rewrite (zsum_ext _ _ _ (fun _ => 0%R)); [rewrite zsum_const by lia; ring|]. intros j Hj. unfold d. replace (j <? p - 1) with true by lia. ring. }
      repeat apply peq; try reflexivity; unfold A, B.
      * replace (p - 1 - p + 1) with 0 by lia. apply zsum_ext. intros. do 2 f_equal. lia.
      * f_equal. lia.
      * replace (p - 1 - h + 1) with (p - h) by lia. apply zsum_ext. intros. do 2 f_equal. lia.
      * f_equal. lia.
      * rewrite Z0. reflexivity.
      * rewrite (zsum_ext _ _ _ (fun j => (1 * d j)%R)) by (intros; ring). rewrite Z0. reflexivity.
    + clear b0 Eb Hb. intros i st Hi (b & -> & Hb). cbn beta iota. wread. cbv zeta. toR.
      assert (AF : forall r f, 1 <= r -> (A r f i + f i * IZR r)%R = zsum (i - r + 1) (i + 1) (fun j => IZR (j - i + r) * f j)%R).
      { intros r f Hr. destruct (lin_full r f i) as [E1|]; [exact E1|lia]. }
      assert (BF : forall r (f : Z -> R), 1 <= r -> (B r f i + f i)%R = zsum (i - r + 1) (i + 1) f) by (intros; unfold B; rewrite zsum_snoc by lia; reflexivity).
      change (@T RA) with R in *. rewrite !AF, !BF by lia. rewrite !half_prod by lia.
      change (zsum (i - h + 1) (i + 1) (fun j => IZR (j - i + h) * zr x j)%R / (IZR (h * (h + 1)) / 2))%R with (wma_of h (zr x) i).
      change (zsum (i - p + 1) (i + 1) (fun j => IZR (j - i + p) * zr x j)%R / (IZR (p * (p + 1)) / 2))%R with (wma_of p (zr x) i).
      assert (Ed : (2 * wma_of h (zr x) i - wma_of p (zr x) i)%R = d i) by (unfold d; replace (i <? p - 1) with false by lia; reflexivity).
      rewrite !Ed. rewrite !AF, !BF by lia.
      destruct (@buffer_qpush_ok RA b q _ (d i) Hb) as (b' & Eb & Hb' & _). change (@T RA) with R in *. rewrite Eb. cbn [bind]. 
      rewrite <- (tab_snoc (p - 1) i d) in Hb' by lia.
      apply wp_bind. apply (wp_mono _ (fun r => r = (A q d (i + 1), B q d (i + 1), tab 0 (i + 1 - (p + q - 2)) F))).
      { assert (AN : (zsum (i - q + 1) (i + 1) (fun j => IZR (j - i + q) * d j) - zsum (i - q + 1) (i + 1) d)%R = A q d (i + 1)) by (apply lin_next; lia).
        assert (BN : (zsum (i - q + 1) (i + 1) d - d (i - q + 1)%Z)%R = B q d (i + 1)) by (unfold B; rewrite (zsum_cons (i - q + 1)) by lia; replace (i - q + 1 + 1) with (i + 1 - q + 1) by lia; ring).
        destruct (i >=? p - 1 + (q - 1)) eqn:Eo.
        - assert (Eg : @buffer_get RA b' 1 = Ok (d (i - q + 1))).
          { rewrite (@buffer_get_next RA b' q _ Hb') by (change (@T RA) with R; rewrite zlen_tab; lia). f_equal. change (@T RA) with R. rewrite zlen_tab. unfold zf. toR. rewrite zn_tab by lia. f_equal. lia. }
          rewrite Eg. cbn [bind wp]. toR. change (@T RA) with R. rewrite AN, BN. repeat apply peq; try reflexivity.
          apply (tab_next' _ (i - (p + q - 2))); [lia|lia|reflexivity|]. unfold F, hma_at. fold q h. rewrite Z.sub_add. unfold wma_of at 1. f_equal. apply zsum_ext. intros j Hj. unfold d. replace (j <? p - 1) with false by lia. reflexivity.
        - cbn [wp]. toR. change (@T RA) with R. rewrite AN. assert (D0 : d (i - q + 1) = 0%R) by (unfold d; replace (i - q + 1 <? p - 1) with true by lia; reflexivity).
          rewrite <- BN, D0, Rminus_0_r. rewrite !tab_nil by lia. reflexivity. }
      intros r ->. cbn beta iota. toR. rewrite !rdr by zl. cbn [bind wp]. change (@T RA) with R. exists b'. split; [|exact Hb'].
      rewrite !lin_next by lia.
      assert (BN : forall r, 1 <= r -> (zsum (i - r + 1) (i + 1) (zr x) - zr x (i - r + 1)%Z)%R = B r (zr x) (i + 1)) by (intros r Hr; unfold B; rewrite (zsum_cons (i - r + 1)) by lia; replace (i - r + 1 + 1) with (i + 1 - r + 1) by lia; ring).
      rewrite !BN by lia. reflexivity.
    + intros st (b & -> & _). cbn beta iota. fintab.
Qed.

Lemma zlemaR_fun size (x : list R) o p : zlen x = size -> 0 <= size <= INT_MAX -> @to_int RA o = Some p -> 3 <= p ->
  let lag := (p - 1) / 2 in @ti_zlema RA size [x] [o] = Ok (OKAY, [tab 0 (size - (lag - 1)) (fun k => zlema_at p x (k + (lag - 1)))]).
Proof.
  intros Hx Hs Ho Hp lag. etransitivity; [apply (@zlema_fun RA _ size x o p); assumption|]. fold lag. do 3 f_equal. apply tab_ext. intros k Hk. unfold zlema_at. fold lag.
  replace (k + (lag - 1) + 1) with (k + lag) by lia. apply trec_ext. intros i v Hi. unfold ema_step. toR. change (@T RA) with R. ring.
Qed.

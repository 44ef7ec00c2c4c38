(** What hwma, ahma, ehma, edcf, rvi and frama compute, in exact real arithmetic. *)
From Verif Require Export Fun_filter Fun_exact3 M_stream4 M_stream7 SpecR6.
From Coq Require Import Reals Lra.
Open Scope Z_scope.

Section R.
Local Existing Instance RA.

Lemma upto13 (P : Z -> Prop) : P 7 -> P 8 -> P 9 -> P 10 -> P 11 -> P 12 -> P 13 -> forall p, 7 <= p <= 13 -> P p.
Proof. intros H7 H8 H9 H10 H11 H12 H13 p Hp. assert (p = 7 \/ p = 8 \/ p = 9 \/ p = 10 \/ p = 11 \/ p = 12 \/ p = 13) as [-> | [-> | [-> | [-> | [-> | [-> | ->]]]]]] by lia; assumption. Qed.
Lemma hwma_row p : 7 <= p <= 13 -> exists c, rd (@hwma_tables RA) (p - 7) = Ok c /\
  forall j, 0 <= j < p -> @rd R c (12 - j) = Ok (IZR (nth (Z.to_nat j) (henderson p) 0%Z) / 1000)%R.
Proof.
  revert p. apply upto13; (eexists; split; [reflexivity|]); intros j Hj;
    repeat match goal with H : 0 <= j < ?n |- _ => destruct (Z.eq_dec j (n - 1)) as [->|]; [reflexivity|]; let H' := fresh in assert (H' : 0 <= j < n - 1) by lia; cbn [Z.sub Z.opp Z.add Z.pos_sub Pos.pred_double] in H'; clear H; simpl in H' end; lia.
Qed.
Lemma hwma_fun size (x : list R) o p : zlen x = size -> 0 <= size <= INT_MAX -> @to_int RA o = Some p -> 7 <= p <= 13 ->
  @ti_hwma RA size [x] [o] = Ok (OKAY, [tab (p - 1) size (hwma_at p (zr x))]).
Proof.
  intros Hx Hs Ho Hp. unfold ti_hwma, cast. rewrite Ho. cbn [bind]. rewrite ck_ok by zl. cbn [bind].
  replace (p <? 7) with false by lia. replace (p >? 13) with false by lia. cbn [orb].
  destruct (hwma_row p Hp) as (c & Ec & Hc). rewrite Ec. cbn [bind].
  rewrite (@for_tab RA (p - 1) size _ (fun k => hwma_at p (zr x) (k + (p - 1)))).
  - cbn [bind]. do 3 f_equal. unfold tab. rewrite Z.sub_0_r. apply map_ext. intros k. f_equal. lia.
  - intros i out Hi. rewrite Z.sub_add.
    rewrite (for_zsum 0 p _ (fun j => IZR (nth (Z.to_nat j) (henderson p) 0%Z) / 1000 * zr x (i - j)%Z)%R) by (lia || (intros j s Hj; rewrite Hc by lia; cbn [bind]; rewrite rdr by lia; reflexivity)).
    cbn [bind]. unfold hwma_at. do 3 f_equal. toR. ring.
Qed.

Lemma ahma_fun size (x : list R) o p f : zlen x = size -> 0 <= size <= INT_MAX -> @to_int RA o = Some p -> 1 <= p ->
  (forall i, 0 <= i < size -> ahma_at p (zr x) f i) -> @ti_ahma RA size [x] [o] = Ok (OKAY, [tab 0 size f]).
Proof.
  intros Hx Hs Ho Hp Hf. unfold ti_ahma, cast. rewrite Ho. cbn [bind]. replace (p <? 1) with false by lia.
  apply (batch1 (fun i s => s = tab 0 i f)); [lia|lia|rewrite tab_nil by lia; reflexivity|].
  intros i s Hi ->. disp. replace (i <? 0) with false by lia. pose proof (Hf i Hi) as E. unfold ahma_at in E. rewrite tab_snoc by lia.
  destruct (i <? p) eqn:Ep.
  - rewrite !rdr by lia. cbn [bind wp fst snd]. rewrite <- E. split; reflexivity.
  - rewrite (rdr x) by lia. cbn [bind]. rewrite !(rdr (tab 0 i f)) by (rewrite zlen_tab; lia). cbn [bind wp fst snd]. rewrite !zr_tab by lia.
    toR. rewrite <- E. split; reflexivity.
Qed.

Lemma ema_run_0 p f : ema_run p f 0 = f 0.
Proof. unfold ema_run. rewrite trec_nil by lia. reflexivity. Qed.
Lemma ema_run_step p f i : 0 < i -> ema_run p f i = (ema_run p f (i - 1) + 2 / (p + 1) * (f i - ema_run p f (i - 1)))%R.
Proof. intros. unfold ema_run at 1. rewrite trec_snoc by lia. unfold ema_run. replace (i - 1 + 1) with i by lia. reflexivity. Qed.
Lemma ehma_fun size (x : list R) o p : zlen x = size -> 0 <= size <= INT_MAX -> @to_int RA o = Some p -> 1 <= p ->
  @ti_ehma RA size [x] [o] = Ok (OKAY, [tab 0 size (ehma_at p (zr x))]).
Proof.
  intros Hx Hs Ho Hp. unfold ti_ehma, cast. rewrite Ho. cbn [bind]. replace (p <? 1) with false by lia.
  set (a := ema_run (IZR p / 2) (zr x)). set (b := ema_run (IZR p) (zr x)). set (g := fun j => (2 * a j - b j)%R).
  change (ehma_at p (zr x)) with (ema_run (sqrt (IZR p)) g).
  apply (batch1 (fun i s => 0 < i -> s = Some (a (i - 1), b (i - 1), ema_run (sqrt (IZR p)) g (i - 1)))); [lia|lia|lia|].
  intros i s Hi Is. disp. replace (i <? 0) with false by lia. destruct (i <? 1) eqn:E1.
  - assert (i = 0) as -> by lia. rewrite rdr by lia. cbn [bind wp fst snd]. rewrite !ema_run_0. change (0 + 1 - 1) with 0. unfold a, b, g. rewrite !ema_run_0. unfold a, b. rewrite !ema_run_0. split; reflexivity.
  - rewrite Is by lia. cbn [val bind]. rewrite rdr by lia. cbn [bind]. cbv zeta. rewrite Z.add_simpl_r.
    pose proof (pos_INR 0).
    assert (Ea : @fadd RA (@fdiv RA (@fmul RA (@fsub RA (zr x i) (a (i - 1))) (@of_Z RA 2)) (@fadd RA (@fdiv RA (@of_Z RA p) (@of_Z RA 2)) (@of_Z RA 1))) (a (i - 1)) = a i).
    { unfold a. rewrite (ema_run_step _ _ i) by lia. toR. unfold Rdiv. ring. }
    assert (Eb : @fadd RA (@fdiv RA (@fmul RA (@fsub RA (zr x i) (b (i - 1))) (@of_Z RA 2)) (@fadd RA (@of_Z RA p) (@of_Z RA 1))) (b (i - 1)) = b i).
    { unfold b. rewrite (ema_run_step _ _ i) by lia. toR. unfold Rdiv. ring. }
    rewrite Ea, Eb. cbn [wp fst snd].
    lazymatch goal with |- [[?v]] = _ /\ _ => assert (Ec : v = ema_run (sqrt (IZR p)) g i) end.
    { rewrite (ema_run_step _ _ i) by lia. change (g i) with (2 * a i - b i)%R. toR. unfold Rdiv. ring. }
    rewrite Ec. split; reflexivity.
Qed.

(** edcf *)
Definition dequeR (x : list R) (i m : Z) : list R := tab 0 m (fun k => zr x (i - 1 - k)).
Lemma tab_cons (f : Z -> R) m : 0 <= m -> tab 0 (m + 1) f = f 0 :: tab 0 m (fun k => f (k + 1)).
Proof.
  intros H. apply (zind (fun m => tab 0 (m + 1) f = f 0 :: tab 0 m (fun k => f (k + 1))) 0 m H).
  - rewrite tab_snoc, !tab_nil by lia. reflexivity.
  - intros n Hn IH. rewrite (tab_snoc 0 (n + 1)), (tab_snoc 0 n (fun k => f (k + 1))) by lia. rewrite IH. reflexivity.
Qed.
Lemma dequeR_push x i m : 0 <= m -> zr x i :: dequeR x i m = dequeR x (i + 1) (m + 1).
Proof. intros H. unfold dequeR. rewrite tab_cons by lia. rewrite Z.add_simpl_r, Z.sub_0_r. f_equal. apply tab_ext. intros k Hk. f_equal. lia. Qed.
Lemma dequeR_pop x i m : 0 <= m -> removelast (dequeR x i (m + 1)) = dequeR x i m.
Proof. intros H. unfold dequeR. rewrite tab_snoc by lia. apply removelast_last. Qed.
Lemma edcf_value_R p x i n : 1 <= p -> p <= n -> @edcf_value RA n p (dequeR x (i + 1) (2 * p)) = Ok (edcf_at p (zr x) i).
Proof.
  intros Hp Hn. unfold edcf_value, edcf_coef.
  assert (Er : forall k, 0 <= k < 2 * p -> @rd R (dequeR x (i + 1) (2 * p)) k = Ok (zr x (i - k))).
  { intros k Hk. unfold dequeR. rewrite rdr by (rewrite zlen_tab; lia). rewrite zr_tab by lia. do 2 f_equal. lia. }
  rewrite (@for_tab RA 0 p _ (edcf_weight p (zr x) i)).
  - cbn [bind]. rewrite Z.sub_0_r.
    match goal with |- bind ?L _ = _ => assert (EL : L = Ok (zsum 0 p (fun k => edcf_weight p (zr x) i k * zr x (i - k)%Z)%R, zsum 0 p (edcf_weight p (zr x) i))) end.
    { apply wp_eq. apply (wp_for (fun k s => s = (zsum 0 k (fun k => edcf_weight p (zr x) i k * zr x (i - k)%Z)%R, zsum 0 k (edcf_weight p (zr x) i)))); [lia|rewrite !zsum_nil by lia; reflexivity| |intros s ->; reflexivity].
      intros k s Hk ->. rewrite Er by lia. rewrite rdr by (rewrite zlen_tab; lia). rewrite zr_tab by lia. cbn [bind wp]. rewrite !zsum_snoc by lia. reflexivity. }
    rewrite EL. cbn [bind]. unfold edcf_at. cbv zeta. f_equal. toR. destruct (Reqb_spec (zsum 0 p (edcf_weight p (zr x) i)) 0); reflexivity.
  - intros k out Hk. replace (k <? n) with true by lia. cbn [check bind]. rewrite Z.sub_0_r.
    rewrite (for_zsum 1 p _ (fun l => (zr x (i - k)%Z - zr x (i - k - l)%Z) * (zr x (i - k)%Z - zr x (i - k - l)%Z))%R).
    + cbn [bind]. unfold edcf_weight. do 3 f_equal. toR. ring.
    + lia.
    + intros l s Hl. rewrite !Er by lia. cbn [bind]. replace (i - (k + l)) with (i - k - l) by lia. reflexivity.
Qed.
Lemma edcf_fun size (x : list R) p : zlen x = size -> 0 <= size <= INT_MAX -> 1 <= p -> 2 * p <= INT_MAX ->
  @ti_edcf RA size [x] [IZR p] = Ok (OKAY, [tab (2 * p - 1) size (edcf_at p (zr x))]).
Proof.
  intros Hx Hs Hp Hq. unfold ti_edcf, ti_edcf_start. replace (@flt RA (IZR p) (@of_Z RA 1)) with false.
  2: { toR. destruct (Rltb_spec (IZR p) 1) as [L|L]; [apply lt_IZR in L; lia|reflexivity]. }
  replace (@fmul RA (@of_Z RA 2) (IZR p)) with (IZR (2 * p)) by (rewrite mult_IZR; reflexivity). rewrite cast_IZR by zl. cbn [bind].
  replace (@fsub RA (IZR (2 * p)) (@of_Z RA 1)) with (IZR (2 * p - 1)) by (rewrite minus_IZR; reflexivity). rewrite cast_IZR by zl. cbn [bind].
  rewrite ceilto_IZR by zl. cbn [bind].
  apply (batch1 (fun i s => s = dequeR x i (Z.min i (2 * p - 1)))); [lia|lia|unfold dequeR; rewrite tab_nil by lia; reflexivity|].
  intros i s Hi ->. disp. rewrite !rdr by lia. cbn [bind]. destruct (i <? 2 * p - 1) eqn:E1.
  - cbn [wp fst snd]. split; [reflexivity|]. rewrite dequeR_push by lia. f_equal. lia.
  - rewrite dequeR_push by lia. replace (Z.min i (2 * p - 1) + 1) with (2 * p) by lia. rewrite edcf_value_R by lia. cbn [bind wp fst snd].
    split; [reflexivity|]. replace (2 * p) with (2 * p - 1 + 1) by lia. rewrite dequeR_pop by lia. f_equal. lia.
Qed.

(** rvi *)
Lemma side_S side e p x i : 1 <= p -> p - 1 <= i -> side_avg side e p x i = (let v := side_avg side e p x (i - 1) in if eqb (Rltb 0 (above_line p x i)) side
  then (v + 2 / (IZR e + 1) * (above_line p x i * above_line p x i / IZR p - v))%R else v).
Proof. intros. unfold side_avg at 1. rewrite trec_snoc by lia. cbv zeta. unfold side_avg. replace (i - 1 + 1) with i by lia. reflexivity. Qed.
Lemma side_warm side e p x i : i < p - 1 -> side_avg side e p x i = 0%R.
Proof. intros. unfold side_avg. rewrite trec_nil by lia. reflexivity. Qed.
Lemma rvi_step_R e p x i : 2 <= p -> p - 1 <= i ->
  @rvi_step RA e p (IZR (p * (p + 1)) / 2)%R (IZR (p * (p + 1) * (2 * p + 1)) / 6)%R (Lin p (zr x) (i - p + 1)) (Flat p (zr x) (i - p + 1)) (zr x i)
    (side_avg true e p x (i - 1)) (side_avg false e p x (i - 1)) = (side_avg true e p x i, side_avg false e p x i, rvi_at e p x i).
Proof.
  intros Hp Hi. set (k := i - p + 1). assert (Hpos : (2 <= IZR p)%R) by (apply IZR_le; lia).
  assert (E1 : (IZR (p * (p + 1)) / 2)%R = zsum 0 p linw) by (rewrite zsum_id by lia; rewrite mult_IZR, plus_IZR; reflexivity).
  assert (E2 : (IZR (p * (p + 1) * (2 * p + 1)) / 6)%R = zsum 0 p (fun j => IZR ((j + 1) * (j + 1)))) by (rewrite zsum_sq by lia; rewrite !mult_IZR, !plus_IZR, mult_IZR; reflexivity).
  unfold rvi_step. cbv zeta. rewrite E1, E2.
  lazymatch goal with |- context[@fsub RA (@fdiv RA (Flat p (zr x) k) _) (@fdiv RA (@fmul RA ?b _) _)] => assert (Eb : b = lr_slope k p x) end.
  { etransitivity; [|apply posc_b_R; lia]. reflexivity. }
  rewrite Eb.
  lazymatch goal with |- context[@fsub RA (zr x i) ?l] => assert (Ea : @fsub RA (zr x i) l = above_line p x i) end.
  { unfold above_line. fold k. unfold lr_icept. fold (Flat p (zr x) k). change (zsum 0 p (fun j => IZR (j + 1))) with (zsum 0 p linw). toR. unfold Rdiv. ring. }
  rewrite Ea. set (ab := above_line p x i).
  assert (Eg : forall v, @fadd RA (@fdiv RA (@fmul RA (@fsub RA (@fdiv RA (@fmul RA ab ab) (@of_Z RA p)) v) (@of_Z RA 2)) (@of_Z RA (e + 1))) v = (v + 2 / (IZR e + 1) * (ab * ab / IZR p - v))%R).
  { intros v. toR. rewrite plus_IZR. unfold Rdiv. ring. }
  rewrite !Eg. unfold rvi_at. cbv zeta. rewrite (side_S true e p x i), (side_S false e p x i) by lia. cbv zeta. fold ab.
  replace (@flt RA (@of_Z RA 0) ab) with (Rltb 0 ab) by reflexivity.
  destruct (Rltb 0 ab); cbn [eqb]; apply peq; try reflexivity; unfold truth; toR.
  all: lazymatch goal with |- (if negb (Reqb ?g 0) then _ else _) = _ => destruct (Reqb g 0); cbn [negb]; [reflexivity|unfold Rdiv; ring] | _ => idtac end.
Qed.
Lemma rvi_fun size (x : list R) e p : zlen x = size -> 0 <= size <= INT_MAX -> 1 <= e < INT_MAX -> 2 <= p -> p * (p + 1) * (2 * p + 1) <= INT_MAX ->
  @ti_rvi RA size [x] [IZR e; IZR p] = Ok (OKAY, [tab (p - 1) size (rvi_at e p x)]).
Proof.
  intros Hx Hs He Hp Hpp. assert (p <= 1023) by (unfold INT_MAX in Hpp; nia). unfold ti_rvi.
  rewrite !cast_IZR by zl. cbn [bind]. replace (e <? 1) with false by lia. replace (p <? 1) with false by lia.
  repeat (rewrite ck_ok by (unfold INT_MIN, INT_MAX; nia); cbn [bind]). cbv zeta.
  apply (batch1 (fun i s => s = (lin p (zr x) i, flat p (zr x) i, side_avg true e p x (i - 1), side_avg false e p x (i - 1)))); [lia|lia| |].
  - rewrite lin_0, flat_0 by lia. rewrite !side_warm by lia. reflexivity.
  - intros i s Hi ->. disp. rewrite rdr by lia. cbn [bind]. destruct (i <? p - 1) eqn:E1.
    + cbn [wp fst snd]. split; [reflexivity|]. toR. rewrite flat_warm, lin_warm by lia. rewrite !side_warm by lia. reflexivity.
    + rewrite ck_ok by zl. cbn [bind]. toR. rewrite lin_full, flat_full by lia. rewrite rvi_step_R by lia. rewrite rdr by lia. cbn [bind wp fst snd]. split; [reflexivity|].
      rewrite lin_next, flat_next by lia. rewrite Z.add_simpl_r. reflexivity.
Qed.

(** frama *)
Lemma peak_last f s j : s < j -> peak f s j = Rmax (peak f s (j - 1)) (f j).
Proof. intros. pose proof (peak_S f s (j - 1) ltac:(lia)) as E. rewrite Z.sub_add in E. exact E. Qed.
Lemma trough_last f s j : s < j -> trough f s j = Rmin (trough f s (j - 1)) (f j).
Proof. intros. pose proof (trough_S f s (j - 1) ltac:(lia)) as E. rewrite Z.sub_add in E. exact E. Qed.
Lemma frama_scan_R (h l : list R) a b c : 0 <= a -> a < c <= b -> b < zlen h -> b < zlen l ->
  for_ a (b + 1) (@frama_scan RA h l c) ((zr h a, zr l a), (None, None), (None, None)) =
  Ok ((peak (zr h) a b, trough (zr l) a b), (Some (peak (zr h) a (c - 1)), Some (trough (zr l) a (c - 1))), (Some (peak (zr h) c b), Some (trough (zr l) c b))).
Proof.
  intros Ha Hc Hh Hl. apply wp_eq.
  apply (wp_for (fun j s =>
    fst (fst s) = (if j =? a then (zr h a, zr l a) else (peak (zr h) a (j - 1), trough (zr l) a (j - 1))) /\
    (c < j -> snd (fst s) = (Some (peak (zr h) a (c - 1)), Some (trough (zr l) a (c - 1))) /\ snd s = (Some (peak (zr h) c (j - 1)), Some (trough (zr l) c (j - 1)))))).
  - lia.
  - replace (a =? a) with true by lia. split; [reflexivity|lia].
  - intros j [[[hi lo] [h1 l1]] [h2 l2]] Hj [E1 E2]. cbn [fst snd] in E1, E2. unfold frama_scan. rewrite !rdr by lia. cbn [bind].
    replace (j + 1 =? a) with false by lia. rewrite Z.add_simpl_r.
    assert (Eh : (if @flt RA hi (zr h j) then zr h j else hi) = peak (zr h) a j /\ (if @flt RA (zr l j) lo then zr l j else lo) = trough (zr l) a j).
    { destruct (j =? a) eqn:E; injection E1 as -> ->.
      - assert (j = a) as -> by lia. rewrite peak_0, trough_0 by lia. toR. split; [destruct (Rltb (zr h a) (zr h a))|destruct (Rltb (zr l a) (zr l a))]; reflexivity.
      - rewrite (peak_last _ a j), (trough_last _ a j) by lia. toR. unfold Rmax, Rmin. split.
        + destruct (Rltb_spec (peak (zr h) a (j - 1)) (zr h j)), (Rle_dec (peak (zr h) a (j - 1)) (zr h j)); lra.
        + destruct (Rltb_spec (zr l j) (trough (zr l) a (j - 1))), (Rle_dec (trough (zr l) a (j - 1)) (zr l j)); lra. }
    destruct Eh as [Eh El]. 
    destruct (j =? c) eqn:Ec.
    + assert (j = c) as -> by lia. replace (c >=? c) with true by lia. cbn [bind wp fst snd]. split; [apply peq; [exact Eh|exact El]|]. intros _.
      replace (c =? a) with false in E1 by lia. injection E1 as -> ->. rewrite (peak_0 _ c c), (trough_0 _ c c) by lia. split; reflexivity.
    + destruct (j >=? c) eqn:Eg.
      * destruct (E2 ltac:(lia)) as [E3 E4]. injection E3 as -> ->. injection E4 as -> ->. cbn [val bind wp fst snd]. split; [apply peq; [exact Eh|exact El]|]. intros _. split; [reflexivity|].
        rewrite (peak_last _ c j), (trough_last _ c j) by lia. toR. unfold Rmax, Rmin. 
        apply peq; f_equal.
        -- destruct (Rltb_spec (peak (zr h) c (j - 1)) (zr h j)), (Rle_dec (peak (zr h) c (j - 1)) (zr h j)); lra.
        -- destruct (Rltb_spec (zr l j) (trough (zr l) c (j - 1))), (Rle_dec (trough (zr l) c (j - 1)) (zr l j)); lra.
      * cbn [bind wp fst snd]. split; [apply peq; [exact Eh|exact El]|lia].
  - intros [[[hi lo] [h1 l1]] [h2 l2]] [E1 E2]. cbn [fst snd] in *. replace (b + 1 =? a) with false in E1 by lia. rewrite Z.add_simpl_r in *.
    destruct (E2 ltac:(lia)) as [E3 E4]. rewrite E1, E3, E4. reflexivity.
Qed.
Lemma clamp_R a : (let a' := if @flt RA a (@lit RA 1 2) then @lit RA 1 2 else a in if @flt RA (@of_Z RA 1) a' then @of_Z RA 1 else a') = Rmin 1 (Rmax (1 / 100) a).
Proof.
  cbv zeta. toR. change (IZR (10 ^ 2)) with 100%R. unfold Rmin, Rmax. destruct (Rle_dec (1 / 100) a).
  - destruct (Rltb_spec a (1 / 100)); [lra|]. destruct (Rltb_spec 1 a), (Rle_dec 1 a); lra.
  - destruct (Rltb_spec a (1 / 100)); [|lra]. destruct (Rltb_spec 1 (1 / 100)), (Rle_dec 1 (1 / 100)); lra.
Qed.
Lemma frama_fun size (h l : list R) p avg f : zlen h = size -> zlen l = size -> 0 <= size <= INT_MAX -> 2 <= p <= INT_MAX -> Z.even p = true -> (2 <= avg)%R ->
  (forall i, 0 <= i < size -> frama_at p avg (zr h) (zr l) f i) -> @ti_frama RA size [h; l] [IZR p; avg] = Ok (OKAY, [tab 0 size f]).
Proof.
  intros Hh Hl Hs Hp He Ha Hf. unfold ti_frama, ti_frama_start.
  replace (@flt RA (IZR p) (@of_Z RA 1)) with false by (toR; destruct (Rltb_spec (IZR p) 1) as [L|L]; [apply lt_IZR in L; lia|reflexivity]).
  replace (@flt RA avg (@of_Z RA 2)) with false by (toR; destruct (Rltb_spec avg 2); [lra|reflexivity]).
  rewrite cast_IZR by zl. cbn [bind]. apply Z.even_spec in He. destruct He as [q ->].
  replace (Z.rem (2 * q) 2) with 0 by (rewrite Z.mul_comm, Z.rem_mul; lia). cbn [Z.eqb negb].
  destruct (size <=? 0) eqn:E0; [rewrite tab_nil by lia; reflexivity|].
  replace (@fdiv RA (IZR (2 * q)) (@of_Z RA 2)) with (IZR q) by (toR; rewrite mult_IZR; field). rewrite cast_IZR by zl. cbn [bind].
  rewrite ceilto_IZR by zl. cbn [bind].
  lazymatch goal with |- bind (emits 0 _ ?b1 _) (fun so => bind (emits _ size ?b2 so) _) = _ =>
    transitivity (@batch_loops RA _ 1 size {| Stream.bounded := [(2 * q, b1)]; final := b2 |} None) end.
  { unfold batch_loops, run_loops. cbn [Stream.bounded final phases]. rewrite bind_assoc. replace (Z.max 0 (Z.min (2 * q) size)) with (Z.min (2 * q) size) by lia.
    apply bind_ext. intros so. destruct (Z.le_gt_cases (2 * q) size) as [L|L].
    - replace (Z.min (2 * q) size) with (2 * q) by lia. reflexivity.
    - replace (Z.min (2 * q) size) with size by lia. unfold emits. rewrite !for_nil by lia. destruct so; reflexivity. }
  apply (batch1 (fun i s => 0 < i -> s = Some (f (i - 1)))); [lia|lia|lia|].
  intros i s Hi Is. disp. replace (i <? 0) with false by lia. pose proof (Hf i Hi) as E. unfold frama_at in E. cbv zeta in E. destruct (i <? 2 * q) eqn:Eq.
  - rewrite !rdr by lia. cbn [bind wp fst snd]. rewrite Z.add_simpl_r. rewrite E. split; reflexivity.
  - replace (@fadd RA (@fsub RA (@of_Z RA i) (IZR (2 * q))) (@of_Z RA 1)) with (IZR (i - 2 * q + 1)) by (toR; rewrite plus_IZR, minus_IZR; reflexivity).
    rewrite cast_IZR by zl. cbn [bind]. rewrite !rdr by lia. cbn [bind].
    rewrite frama_scan_R by lia. cbn [bind val]. rewrite ?rdr by lia. cbn [bind]. rewrite Is by lia. cbn [val bind wp fst snd]. rewrite Z.add_simpl_r.
    lazymatch goal with |- context[@libm RA Lexp ?e] => pose proof (clamp_R (@libm RA Lexp e)) as Ec; cbv zeta in Ec; rewrite Ec; clear Ec;
      assert (Ew : (Rmin 1 (Rmax (1 / 100) (@libm RA Lexp e)) = frama_alpha (2 * q) avg (zr h) (zr l) i)) end.
    { unfold frama_alpha. do 2 f_equal. unfold frama_w. toR. cbn [Rlibm]. do 2 f_equal. unfold frama_dim, frama_dimension, spread. cbv zeta. replace (2 * q / 2) with q by (rewrite Z.mul_comm, Z.div_mul; lia).
      replace (i - q + 1 - 1) with (i - q) by lia. toR. cbn [Rlibm]. reflexivity. }
    rewrite Ew. lazymatch goal with |- [[?v]] = _ /\ _ => assert (Ev : v = f i) end.
    { rewrite E. toR. unfold Rdiv. ring. }
    rewrite Ev. rewrite Z.add_simpl_r. split; reflexivity.
Qed.
End R.

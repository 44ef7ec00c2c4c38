(** What the streamed indicators compute, in exact real arithmetic: er, t3, fi, idwma, pwma, swma,
    pvt, evwma. *)
From Verif Require Export C_ref SpecR.
From Coq Require Import Reals Lra.
Open Scope Z_scope.

Lemma batch_tab {A : Arith} {S1} (I : Z -> S1 -> Prop) (Fs : list (Z -> T)) st (l : loops S1) size s :
  0 <= size -> 0 <= st -> I 0 s ->
  (forall i s, 0 <= i < size -> I i s ->
    wp (dispatch l i s) (fun r => snd r = (if i <? st then map (fun _ => []) Fs else map (fun F => [F (i - st)]) Fs) /\ I (i + 1) (fst r))) ->
  batch_loops (length Fs) size l s = Ok (OKAY, map (fun F => tab 0 (size - st) F) Fs).
Proof.
  intros Hs Ht H0 Hst. destruct (loops_tab I l Fs st size s Hs Ht H0) as (s' & E & _).
  - intros i s1 Hi HI. specialize (Hst i s1 Hi HI). destruct (dispatch l i s1) as [[s2 e]|u]; cbn [wp fst snd] in *; [|exact Hst].
    destruct Hst as [-> HI2]. split; [|exact HI2]. destruct (i <? st) eqn:E; [replace (st <=? i) with false by lia|replace (st <=? i) with true by lia]; reflexivity.
  - unfold batch_loops. rewrite E. reflexivity.
Qed.
(** A loop that appends one value per bar. *)
Lemma for_tab {A : Arith} lo hi (f : Z -> list T -> res (list T)) F :
  (forall i o, lo <= i < hi -> f i o = Ok (o ++ [F (i - lo)])) -> for_ lo hi f [] = Ok (tab 0 (hi - lo) F).
Proof.
  intros H. destruct (Z.le_gt_cases lo hi) as [Hl|Hl].
  - apply (zind (fun m => m <= hi -> for_ lo m f [] = Ok (tab 0 (m - lo) F)) lo hi Hl); [| |lia].
    + intros _. rewrite for_nil, tab_nil by lia. reflexivity.
    + intros m Hm IH _. rewrite for_snoc by lia. rewrite IH by lia. cbn [bind]. rewrite H by lia.
      replace (m + 1 - lo) with (m - lo + 1) by lia. rewrite tab_snoc by lia. reflexivity.
  - rewrite for_nil, tab_nil by lia. reflexivity.
Qed.
(** A sum as a loop. *)
Lemma for_zsum lo hi (f : Z -> R -> res R) (g : Z -> R) s0 : lo <= hi ->
  (forall i s, lo <= i < hi -> f i s = Ok (s + g i)%R) -> for_ lo hi f s0 = Ok (s0 + zsum lo hi g)%R.
Proof.
  intros Hl H. apply (zind (fun m => m <= hi -> for_ lo m f s0 = Ok (s0 + zsum lo m g)%R) lo hi Hl); [| |lia].
  - intros _. rewrite for_nil, zsum_nil by lia. f_equal. ring.
  - intros m Hm IH _. rewrite for_snoc by lia. rewrite IH by lia. cbn [bind]. rewrite H by lia. rewrite zsum_snoc by lia. f_equal. ring.
Qed.

Lemma rd1 {B} (a : B) l : rd (a :: l) 0 = Ok a.
Proof. unfold rd. cbn [nth_error Z.to_nat]. replace (0 <? zlen (a :: l)) with true by (unfold zlen; cbn [length]; lia). reflexivity. Qed.
Ltac disp := unfold dispatch; cbn [dispatch' Stream.bounded final].

Lemma rdr (l : list R) i : 0 <= i < zlen l -> @rd R l i = Ok (zr l i).
Proof. apply (@rd_zf RA). Qed.
Section R.
Local Existing Instance RA.

(** er *)
Lemma er_fun size (x : list R) o p : zlen x = size -> 0 <= size <= INT_MAX -> @to_int RA o = Some p -> 1 <= p ->
  @ti_er RA size [x] [o] = Ok (OKAY, [tab 0 (size - p) (er_at p x)]).
Proof.
  intros Hx Hs Ho Hp. unfold ti_er, cast. rewrite Ho. cbn [bind]. replace (p <? 1) with false by lia.
  set (g := fun j => Rabs (zr x j - zr x (j - 1))).
  apply (@batch_tab RA _ (fun i s => s = zsum (Z.max 1 (i - p + 1)) i g) [er_at p x] p); [lia|lia|rewrite zsum_nil by lia; reflexivity|].
  intros i s Hi ->. disp. destruct (i <? 1) eqn:E1; [|destruct (i <? p) eqn:E2].
  - cbn [wp fst snd]. replace (i <? p) with true by lia. split; [reflexivity|]. rewrite !zsum_nil by lia. reflexivity.
  - rewrite !rdr by lia. cbn [bind wp fst snd]. split; [reflexivity|]. replace (Z.max 1 (i + 1 - p + 1)) with (Z.max 1 (i - p + 1)) by lia.
    rewrite zsum_snoc by lia. reflexivity.
  - rewrite !rdr by lia. cbn [bind wp fst snd]. replace (i <? p) with false by lia. replace (Z.max 1 (i - p + 1)) with (i - p + 1) by lia.
    assert (E : @fadd RA (zsum (i - p + 1) i g) (fabs (zr x i .- zr x (i - 1))) = zsum (i - p + 1) (i + 1) g) by (rewrite zsum_snoc by lia; reflexivity).
    rewrite E. split.
    + cbn [map]. rewrite truth_div. unfold er_at. replace (i - p + p) with i by lia. reflexivity.
    + replace (Z.max 1 (i + 1 - p + 1)) with (i - p + 1 + 1) by lia. rewrite (zsum_cons (i - p + 1)) by lia. unfold g at 1. toR. replace (i - p + 1 - 1) with (i - p) by lia. ring.
Qed.
Lemma er_ref_fun size (x : list R) o p : zlen x = size -> 0 <= size <= INT_MAX -> @to_int RA o = Some p -> 1 <= p < INT_MAX ->
  @ti_er_ref RA size [x] [o] = Ok (OKAY, [tab 0 (size - p) (er_at p x)]).
Proof.
  intros Hx Hs Ho Hp. unfold ti_er_ref, cast. rewrite Ho. cbn [bind]. replace (p <? 1) with false by lia. rewrite ck_ok by zl. cbn [bind].
  rewrite (@for_tab RA (p + 1) (size + 1) _ (er_at p x)).
  - cbn [bind]. do 3 f_equal. apply tab_eq; lia.
  - intros i out Hi. rewrite !rdr by lia. cbn [bind].
    rewrite (for_zsum (i - p) i _ (fun j => Rabs (zr x j - zr x (j - 1)))); [|lia|].
    2:{ intros j s Hj. rewrite !rdr by lia. reflexivity. }
    cbn [bind]. rewrite truth_div. unfold er_at. toR. rewrite Rplus_0_l. replace (i - (p + 1) + p) with (i - 1) by lia. replace (i - (p + 1)) with (i - p - 1) by lia. replace (i - p - 1 + 1) with (i - p) by lia. replace (i - 1 + 1) with i by lia. reflexivity.
Qed.

Lemma ema_list_len p x : zlen (ema_list p x) = zlen x.
Proof. unfold ema_list. rewrite zlen_tab. pose proof (zlen_nonneg x). lia. Qed.
Lemma ema_list_fun size (x : list R) o p : zlen x = size -> size <= INT_MAX -> @to_int RA o = Some p -> 1 <= p ->
  @ti_ema RA size [x] [o] = Ok (OKAY, [ema_list p x]).
Proof.
  intros Hx Hs Ho Hp. pose proof (zlen_nonneg x). etransitivity; [apply (@ema_fun' RA RA_laws size x o p); try assumption; lia|]. unfold ema_list. rewrite Hx. reflexivity.
Qed.
Lemma zr_ema p x i : 0 <= i < zlen x -> zr (ema_list p x) i = emaR p x i.
Proof. intros. unfold ema_list. apply (@zf_tab RA). lia. Qed.
Lemma emaR_0 p x : emaR p x 0 = zr x 0.
Proof. unfold ema_at. rewrite trec_nil by lia. reflexivity. Qed.
Lemma emaR_S p x i : 0 <= i -> emaR p x (i + 1) = ((zr x (i + 1) - emaR p x i) * (2 / (IZR p + 1)) + emaR p x i)%R.
Proof. intros. rewrite (@ema_at_next RA) by lia. reflexivity. Qed.
Lemma emaR_S' p x i : 1 <= i -> emaR p x i = ((zr x i - emaR p x (i - 1)) * (2 / (IZR p + 1)) + emaR p x (i - 1))%R.
Proof. intros. replace i with (i - 1 + 1) at 1 by lia. rewrite emaR_S by lia. replace (i - 1 + 1) with i by lia. reflexivity. Qed.
Lemma zr_tab n (F : Z -> R) i : 0 <= i < n -> zr (tab 0 n F) i = F i.
Proof. intros. etransitivity; [apply (@zf_tab RA); lia|]. reflexivity. Qed.

(** t3 *)
Lemma gd_list_len p v x : zlen (gd_list p v x) = zlen x.
Proof. unfold gd_list. rewrite zlen_tab. pose proof (zlen_nonneg x). lia. Qed.
Lemma zr_gd p v x i : 0 <= i < zlen x -> zr (gd_list p v x) i = gd_at p v x i.
Proof. intros. unfold gd_list. apply zr_tab. lia. Qed.
Lemma t3_fun size (x : list R) p v : zlen x = size -> 0 <= size <= INT_MAX -> 1 <= p -> (0 <= v)%R ->
  @ti_t3 RA size [x] [IZR p; v] = Ok (OKAY, [gd_list p v (gd_list p v (gd_list p v x))]).
Proof.
  intros Hx Hs Hp Hv. unfold ti_t3. set (g1 := gd_list p v x). set (g2 := gd_list p v g1).
  assert (L1 : zlen g1 = size) by (unfold g1; rewrite gd_list_len; exact Hx). assert (L2 : zlen g2 = size) by (unfold g2; rewrite gd_list_len; exact L1).
  replace (@flt RA (IZR p) (@of_Z RA 1)) with false by (cbn; destruct (Rltb_spec (IZR p) 1) as [C|]; [apply lt_IZR in C; lia|reflexivity]).
  replace (@flt RA v (@of_Z RA 0)) with false by (cbn; destruct (Rltb_spec v 0); [lra|reflexivity]).
  set (St := fun i => (emaR p x i, emaR p (ema_list p x) i, emaR p g1 i, emaR p (ema_list p g1) i, emaR p g2 i, emaR p (ema_list p g2) i)).
  etransitivity; [apply (@batch_tab RA _ (fun i s => 1 <= i -> s = Some (St (i - 1))) [gd_at p v g2] 0); [lia|lia|lia|]|].
  - intros i s Hi HI. disp. replace (i <? 0) with false by lia. rewrite Z.sub_0_r.
    assert (G0 : forall y, 0 < zlen y -> gd_at p v y 0 = zr y 0) by (intros y Hy; unfold gd_at; rewrite !emaR_0, zr_ema, emaR_0 by lia; ring).
    destruct (i <? 1) eqn:E.
    + rewrite rdr by lia. cbn [bind wp fst snd map]. assert (i = 0) as -> by lia. split.
      * rewrite G0 by lia. unfold g2. rewrite zr_gd, G0 by lia. unfold g1. rewrite zr_gd, G0 by lia. reflexivity.
      * intros _. change (0 + 1 - 1) with 0. unfold St. do 6 (rewrite ?emaR_0, ?zr_ema by lia).
        assert (E1 : zr g1 0 = zr x 0) by (unfold g1; rewrite zr_gd, G0 by lia; reflexivity).
        assert (E2 : zr g2 0 = zr x 0) by (unfold g2; rewrite zr_gd, G0 by lia; exact E1). rewrite E1, E2. reflexivity.
    + rewrite rdr by lia. rewrite HI by lia. cbn [bind val wp fst snd map]. unfold St.
      assert (N : forall y : list R, zlen y = size -> ((zr y i - emaR p y (i - 1)) * 2 / (IZR p + 1) + emaR p y (i - 1) = emaR p y i)%R)
        by (intros y Hy; rewrite (emaR_S' p y i) by lia; unfold Rdiv; ring).
      assert (N2 : forall y : list R, zlen y = size -> ((emaR p y i - emaR p (ema_list p y) (i - 1)) * 2 / (IZR p + 1) + emaR p (ema_list p y) (i - 1) = emaR p (ema_list p y) i)%R)
        by (intros y Hy; rewrite <- (zr_ema p y i) by lia; apply N; rewrite ema_list_len; exact Hy).
      assert (G : forall y : list R, zlen y = size -> (emaR p y i * (1 + v) - emaR p (ema_list p y) i * v = zr (gd_list p v y) i)%R)
        by (intros y Hy; rewrite zr_gd by lia; reflexivity).
      toR. rewrite (N x Hx), (N2 x Hx), (G x Hx). fold g1. rewrite (N g1 L1), (N2 g1 L1), (G g1 L1). fold g2. rewrite (N g2 L2), (N2 g2 L2).
      cbn [wp fst snd]. split; [reflexivity|]. intros _. replace (i + 1 - 1) with i by lia. reflexivity.
  - cbn [map]. unfold gd_list at 1. rewrite L2, Z.sub_0_r. reflexivity.
Qed.
Lemma t3_GD_fun size (x : list R) p v : zlen x = size -> 0 <= size <= INT_MAX -> 1 <= p <= INT_MAX ->
  @t3_GD RA (IZR p) v size x = Ok (gd_list p v x).
Proof.
  intros Hx Hs Hp. unfold t3_GD. assert (Ho : @to_int RA (IZR p) = Some p) by (apply (@to_int_of_Z RA RA_laws p); zl).
  rewrite (ema_list_fun size x _ p) by (assumption || lia). cbn [bind]. rewrite rd1. cbn [bind]. rewrite (ema_list_fun size (ema_list p x) _ p) by (try assumption; try lia; rewrite ema_list_len; exact Hx).
  cbn [bind]. rewrite rd1. cbn [bind]. rewrite (@for_tab RA 0 size _ (gd_at p v x)).
  - unfold gd_list. rewrite Hx, Z.sub_0_r. reflexivity.
  - intros i o Hi. rewrite !rdr by (rewrite ?ema_list_len; lia). rewrite zr_ema by lia. rewrite zr_ema by (rewrite ema_list_len; lia).
    cbn [bind]. rewrite Z.sub_0_r. reflexivity.
Qed.
Lemma t3_ref_fun size (x : list R) p v : zlen x = size -> 0 <= size <= INT_MAX -> 1 <= p <= INT_MAX -> (0 <= v)%R ->
  @ti_t3_ref RA size [x] [IZR p; v] = Ok (OKAY, [gd_list p v (gd_list p v (gd_list p v x))]).
Proof.
  intros Hx Hs Hp Hv. unfold ti_t3_ref.
  replace (@flt RA (IZR p) (@of_Z RA 1)) with false by (cbn; destruct (Rltb_spec (IZR p) 1) as [C|]; [apply lt_IZR in C; lia|reflexivity]).
  replace (@flt RA v (@of_Z RA 0)) with false by (cbn; destruct (Rltb_spec v 0); [lra|reflexivity]).
  rewrite !(t3_GD_fun size) by (rewrite ?gd_list_len; assumption || lia). cbn [bind].
  rewrite !(t3_GD_fun size) by (rewrite ?gd_list_len; assumption || lia). cbn [bind].
  rewrite !(t3_GD_fun size) by (rewrite ?gd_list_len; assumption || lia). reflexivity.
Qed.

(** fi *)
Lemma fi_fun size (c v : list R) p : zlen c = size -> zlen v = size -> 0 <= size <= INT_MAX -> 1 <= p ->
  @ti_fi RA size [c; v] [IZR p] = Ok (OKAY, [ema_list p (tab 0 (size - 1) (force c v))]).
Proof.
  intros Hc Hv Hs Hp. unfold ti_fi.
  replace (@flt RA (IZR p) (@of_Z RA 1)) with false by (cbn; destruct (Rltb_spec (IZR p) 1) as [C|]; [apply lt_IZR in C; lia|reflexivity]).
  unfold ti_fi_start. cbn [bind]. set (y := tab 0 (size - 1) (force c v)). assert (Hy : zlen y = Z.max 0 (size - 1)) by (unfold y; rewrite zlen_tab; lia).
  destruct (size <=? 1) eqn:E.
  { unfold ema_list. rewrite tab_nil by lia. reflexivity. }
  rewrite !rdr by lia. cbn [bind].
  match goal with |- (let* (_, _) := for_ 1 size ?f ?s0 in _) = _ =>
    destruct (for_rel (fun i (s : @T RA * list (@T RA)) (_ : unit) => snd s = tab 0 (i - 1) (emaR p y) /\ (i = 1 -> fst s = zr y 0) /\ (i >= 2 -> fst s = emaR p y (i - 2))) 1 size f (fun _ s => Ok s) s0 tt) as ([e o] & [] & -> & _ & Eo & _) end.
  - lia.
  - cbn [fst snd]. split; [rewrite tab_nil by lia; reflexivity|]. split; [intros _|lia]. unfold y. rewrite zr_tab by lia. reflexivity.
  - intros i [e o] [] Hi (Eo & E1 & E2). cbn [fst snd] in *. subst o. rewrite !rdr by lia. cbn [bind wp fst snd].
    assert (Ey : zr y (i - 1) = (zr v i * (zr c i - zr c (i - 1)))%R) by (unfold y; rewrite zr_tab by lia; unfold force; replace (i - 1 + 1) with i by lia; reflexivity).
    assert (EE : (@fadd RA (@fmul RA (@fsub RA (@fmul RA (zr v i) (@fsub RA (zr c i) (zr c (i - 1)))) e) (@fdiv RA (@of_Z RA 2) (@fadd RA (IZR p) (@of_Z RA 1)))) e) = emaR p y (i - 1)).
    { toR. rewrite <- Ey. destruct (Z.eq_dec i 1) as [->|].
      - rewrite E1 by reflexivity. change (1 - 1) with 0. rewrite emaR_0. ring.
      - rewrite E2 by lia. rewrite (emaR_S' p y (i - 1)) by lia. replace (i - 1 - 1) with (i - 2) by lia. ring. }
    rewrite EE. split; [|split; [lia|intros _; f_equal; lia]]. replace (i + 1 - 1) with (i - 1 + 1) by lia. rewrite tab_snoc by lia. reflexivity.
  - cbn [bind snd] in *. subst o. unfold ema_list. rewrite Hy. do 3 f_equal. apply tab_eq; lia.
Qed.
Lemma fi_ref_fun size (c v : list R) p : zlen c = size -> zlen v = size -> 0 <= size <= INT_MAX -> 1 <= p <= INT_MAX ->
  @ti_fi_ref RA size [c; v] [IZR p] = Ok (OKAY, [ema_list p (tab 0 (size - 1) (force c v))]).
Proof.
  intros Hc Hv Hs Hp. unfold ti_fi_ref, ti_fi_start. cbn [bind]. assert (Ho : @to_int RA (IZR p) = Some p) by (apply (@to_int_of_Z RA RA_laws p); zl).
  destruct (size <=? 1) eqn:E.
  { unfold ema_list. rewrite (tab_nil 0 (zlen _)) by (rewrite zlen_tab; lia). reflexivity. }
  rewrite (@for_tab RA 1 size _ (force c v)).
  - cbn [bind]. rewrite (ema_list_fun (size - 1) _ _ p) by (try assumption; try lia; rewrite zlen_tab; lia). reflexivity.
  - intros i o Hi. rewrite !rdr by lia. cbn [bind]. unfold force. replace (i - 1 + 1) with i by lia. reflexivity.
Qed.

(** Weighted means of the last [p] prices at bar [i]; [w j] weighs the price [j] bars ago. *)

(** idwma *)
Lemma idwma_coeff p e : 0 <= p <= INT_MAX -> @idwma_coefficients RA p e = Ok (tab 0 p (idw e), zsum 0 p (idw e)).
Proof.
  intros Hp. unfold idwma_coefficients.
  apply (zind (fun m => m <= p -> for_ 0 m _ _ = Ok (tab 0 m (idw e), zsum 0 m (idw e))) 0 p); [lia| | |lia].
  - intros _. rewrite for_nil, tab_nil, zsum_nil by lia. reflexivity.
  - intros m Hm IH _. rewrite for_snoc by lia. rewrite IH by lia. cbn [bind]. rewrite ck_ok by zl. cbn [bind].
    rewrite tab_snoc, zsum_snoc by lia. reflexivity.
Qed.
Lemma idwma_fun size (x : list R) o e p : zlen x = size -> 0 <= size <= INT_MAX -> @to_int RA o = Some p -> 1 <= p <= INT_MAX -> (1 <= e <= 2)%R ->
  @ti_idwma RA size [x] [o; e] = Ok (OKAY, [tab 0 (size - p + 1) (fun k => lagavg (idw e) p x (k + p - 1))]).
Proof.
  intros Hx Hs Ho Hp He. unfold ti_idwma, cast. rewrite Ho. cbn [bind]. replace (p <? 1) with false by lia.
  replace (@flt RA e (@of_Z RA 1)) with false by (cbn; destruct (Rltb_spec e 1); [lra|reflexivity]).
  replace (@flt RA (@of_Z RA 2) e) with false by (cbn; destruct (Rltb_spec 2 e); [lra|reflexivity]).
  rewrite idwma_coeff by lia. cbn [bind]. rewrite (@for_tab RA (p - 1) size _ (fun k => lagavg (idw e) p x (k + p - 1))).
  - cbn [bind]. do 3 f_equal. apply tab_eq; lia.
  - intros i out Hi. rewrite (for_zsum 0 p _ (fun j => idw e j * zr x (i - j))%R); [|lia|].
    2:{ intros j s Hj. rewrite !rdr by (rewrite ?zlen_tab; lia). rewrite zr_tab by lia. cbn [bind]. toR. f_equal. ring. }
    cbn [bind]. unfold lagavg. replace (i - (p - 1) + p - 1) with i by lia. toR. rewrite Rplus_0_l. reflexivity.
Qed.
Lemma ceilto_IZR p : INT_MIN <= p <= INT_MAX -> @ceilto RA (IZR p) = Ok p.
Proof. intros. apply (@ceilto_of_Z RA RA_laws). zl. Qed.
Lemma cast_IZR p : INT_MIN <= p <= INT_MAX -> @cast RA (IZR p) = Ok p.
Proof. intros. apply (@cast_of_Z RA RA_laws). zl. Qed.
Lemma idwma_ref_fun size (x : list R) e p : zlen x = size -> 0 <= size <= INT_MAX -> 1 <= p <= INT_MAX -> (1 <= e <= 2)%R ->
  @ti_idwma_ref RA size [x] [IZR p; e] = Ok (OKAY, [tab 0 (size - p + 1) (fun k => lagavg (idw e) p x (k + p - 1))]).
Proof.
  intros Hx Hs Hp He. unfold ti_idwma_ref.
  replace (@flt RA (IZR p) (@of_Z RA 1)) with false by (cbn; destruct (Rltb_spec (IZR p) 1) as [C|]; [apply lt_IZR in C; lia|reflexivity]).
  replace (@flt RA e (@of_Z RA 1)) with false by (cbn; destruct (Rltb_spec e 1); [lra|reflexivity]).
  replace (@flt RA (@of_Z RA 2) e) with false by (cbn; destruct (Rltb_spec 2 e); [lra|reflexivity]).
  rewrite ceilto_IZR by zl. cbn [bind].
  rewrite (for_zsum 0 p _ (idw e)); [|lia|intros i s Hi; rewrite ck_ok by zl; reflexivity]. cbn [bind].
  replace (@fsub RA (IZR p) (@of_Z RA 1)) with (IZR (p - 1)) by (cbn; rewrite minus_IZR; reflexivity). rewrite !cast_IZR by zl. cbn [bind].
  replace (p - 1 - p + 1 =? 0) with true by lia. cbn [check bind].
  rewrite (@for_tab RA (p - 1) size _ (fun k => lagavg (idw e) p x (k + p - 1))).
  - cbn [bind]. do 3 f_equal. apply tab_eq; lia.
  - intros i out Hi. rewrite (for_zsum 0 p _ (fun j => idw e j * zr x (i - j))%R); [|lia|].
    2:{ intros j s Hj. rewrite !rdr by lia. cbn [bind]. rewrite ck_ok by zl. cbn [bind]. unfold idw. toR. f_equal. unfold Rdiv. ring. }
    cbn [bind]. unfold lagavg. replace (i - (p - 1) + p - 1) with i by lia. toR. rewrite !Rplus_0_l. reflexivity.
Qed.

(** pwma *)
Lemma zsum_rev p f : 0 <= p -> zsum 0 p f = zsum 0 p (fun j => f (p - 1 - j)).
Proof.
  intros Hp. enough (G : forall m, 0 <= m -> forall g, zsum 0 m g = zsum 0 m (fun j => g (m - 1 - j))) by (apply G; lia).
  apply (natlike_ind (fun m => forall g, zsum 0 m g = zsum 0 m (fun j => g (m - 1 - j)))).
  - intros g. rewrite !zsum_nil by lia. reflexivity.
  - intros m Hm IH g. unfold Z.succ. rewrite (zsum_cons 0 (m + 1) g) by lia. rewrite (zsum_snoc 0 m (fun j => g (m + 1 - 1 - j))) by lia.
    change 1 with (0 + 1) at 1. rewrite zsum_shift. rewrite IH. replace (m + 1 - 1 - m) with 0 by lia. rewrite Rplus_comm. f_equal.
    apply zsum_ext. intros i Hi. f_equal. lia.
Qed.
Lemma pwma_fun size (x : list R) o e p : zlen x = size -> 0 <= size <= INT_MAX -> @to_int RA o = Some p -> 1 <= p <= INT_MAX ->
  @ti_pwma RA size [x] [o; e] = Ok (OKAY, [tab 0 (size - p + 1) (fun k => lagavg (pw p e) p x (k + p - 1))]).
Proof.
  intros Hx Hs Ho Hp. unfold ti_pwma, cast. rewrite Ho. cbn [bind]. replace (p <? 1) with false by lia.
  rewrite (for_zsum 0 (Z.min p size) _ (fun i => @fpow RA (IZR (i + 1)) e)); [|lia|reflexivity]. cbn [bind].
  rewrite (@for_tab RA (p - 1) size _ (fun k => lagavg (pw p e) p x (k + p - 1))).
  - cbn [bind]. do 3 f_equal. apply tab_eq; lia.
  - intros i out Hi. rewrite (for_zsum 0 p _ (fun j => pw p e j * zr x (i - j))%R); [|lia|].
    2:{ intros j s Hj. rewrite !rdr by lia. cbn [bind]. unfold pw. toR. f_equal. ring. }
    cbn [bind]. unfold lagavg. replace (i - (p - 1) + p - 1) with i by lia. replace (Z.min p size) with p by lia.
    rewrite (zsum_rev p (pw p e)) by lia. rewrite (zsum_ext 0 p (fun j => pw p e (p - 1 - j)) (fun j => @fpow RA (IZR (j + 1)) e)) by (intros j Hj; unfold pw; f_equal; f_equal; lia).
    change (@of_Z RA 0) with 0%R. rewrite !Rplus_0_l. reflexivity.
Qed.

(** swma *)
Lemma RA_PI : @Arith.PI RA = PI.
Proof. unfold Arith.PI. cbn. rewrite acos_opp, acos_1. ring. Qed.
Lemma swma_same_R n : @swma_same RA n.
Proof.
  intros j Hj. rewrite RA_PI. pose proof (Z.rem_bound_pos j 12 ltac:(lia) ltac:(lia)) as Hr.
  pose proof (@swma_same_12 RA (Z.rem j 12) ltac:(lia)) as E. rewrite (Z.rem_small (Z.rem j 12) 12) in E by lia. rewrite E. f_equal. rewrite RA_PI. cbn.
  assert (Q : j = 12 * (j / 12) + Z.rem j 12) by (rewrite Z.rem_mod_nonneg by lia; apply Z.div_mod; lia).
  pose proof (Z.div_pos j 12 ltac:(lia) ltac:(lia)) as Hq. set (q := j / 12) in *. set (r := Z.rem j 12) in *. clearbody q r. subst j.
  rewrite <- (Z2Nat.id q) by lia. rewrite <- (sin_period (IZR (r + 1) * PI / 6) (Z.to_nat q)). f_equal.
  rewrite INR_IZR_INZ, !plus_IZR, mult_IZR. field.
Qed.
Lemma swma_fun size (x : list R) o p : zlen x = size -> 0 <= size <= INT_MAX -> @to_int RA o = Some p -> 1 <= p < INT_MAX -> p mod 6 <> 0 -> p mod 6 <> 5 ->
  @ti_swma RA size [x] [o] = Ok (OKAY, [tab 0 (size - p + 1) (fun k => lagavg sinew p x (k + p - 1))]).
Proof.
  intros Hx Hs Ho Hp H6 H7. unfold ti_swma, swma_reject, cast. rewrite Ho. cbn [bind].
  replace (p <? 1) with false by lia. replace (Z.rem p 6 =? 0) with false by (rewrite Z.rem_mod_nonneg by lia; lia). rewrite ck_ok by zl. cbn [bind].
  replace (Z.rem (p + 1) 6 =? 0) with false by (rewrite Z.rem_mod_nonneg by lia; rewrite Z.add_mod by lia; pose proof (Z.mod_pos_bound p 6);
    assert (Hc : p mod 6 = 1 \/ p mod 6 = 2 \/ p mod 6 = 3 \/ p mod 6 = 4) by lia; destruct Hc as [-> | [-> | [-> | ->]]]; reflexivity).
  assert (HT : forall j, 0 <= j < p -> rd (@swma_table RA) (Z.rem j 12) = Ok (sinew j)).
  { intros j Hj. rewrite (@swma_same_R p j Hj), RA_PI. reflexivity. }
  unfold swma_denom. rewrite (for_zsum 0 p _ sinew); [|lia|intros j s Hj; rewrite HT by lia; reflexivity]. cbn [bind].
  rewrite (@for_tab RA (p - 1) size _ (fun k => lagavg sinew p x (k + p - 1))).
  - cbn [bind]. do 3 f_equal. apply tab_eq; lia.
  - intros i out Hi. rewrite (for_zsum 0 p _ (fun j => sinew j * zr x (i - j))%R); [|lia|].
    2:{ intros j s Hj. rewrite HT, rdr by lia. reflexivity. }
    cbn [bind]. unfold lagavg. replace (i - (p - 1) + p - 1) with i by lia. change (@of_Z RA 0) with 0%R. rewrite !Rplus_0_l. reflexivity.
Qed.
Lemma swma_ref_fun size (x : list R) o p : zlen x = size -> 0 <= size <= INT_MAX -> @to_int RA o = Some p -> 1 <= p < INT_MAX -> p mod 6 <> 0 -> p mod 6 <> 5 ->
  @ti_swma_ref RA size [x] [o] = Ok (OKAY, [tab 0 (size - p + 1) (fun k => lagavg sinew p x (k + p - 1))]).
Proof.
  intros Hx Hs Ho Hp H6 H7. rewrite <- (swma_fun size x o p) by assumption.
  destruct (@swma_ref_eq RA size x o p Hx Hs Ho Hp) as (outs & E1 & E2); [| |apply swma_same_R|exact (eq_trans E2 (eq_sym E1))].
  - rewrite Z.rem_mod_nonneg by lia. exact H6.
  - rewrite Z.rem_mod_nonneg by lia. rewrite Z.add_mod by lia. pose proof (Z.mod_pos_bound p 6).
    assert (Hc : p mod 6 = 1 \/ p mod 6 = 2 \/ p mod 6 = 3 \/ p mod 6 = 4) by lia; destruct Hc as [-> | [-> | [-> | ->]]]; discriminate.
Qed.

(** pvt *)
Lemma truth_R (a : R) : @truth RA a = true <-> a <> 0%R.
Proof. unfold truth. toR. destruct (Reqb_spec a 0); split; cbn; congruence. Qed.
Lemma pvt_fun size (c v : list R) : zlen c = size -> zlen v = size -> 0 <= size <= INT_MAX -> (forall i, 0 <= i < size -> zr v i <> 0%R) ->
  @ti_pvt RA size [c; v] [] = Ok (OKAY, [tab 0 (size - 1) (pvt_at c v)]).
Proof.
  intros Hc Hv Hs Hn. unfold ti_pvt.
  apply (@batch_tab RA _ (fun i s => 2 <= i -> s = Some (pvt_at c v (i - 2))) [pvt_at c v] 1); [lia|lia|lia|].
  intros i s Hi HI. disp. assert (Ht : forall i, 0 <= i < size -> @truth RA (zr v i) = true) by (intros; apply truth_R; auto).
  destruct (i <? 1) eqn:E1; [|destruct (i <? 2) eqn:E2].
  - cbn [wp fst snd map]. split; [reflexivity|lia].
  - rewrite !rdr by lia. cbn [bind wp fst snd]. rewrite !Ht by lia. cbn [andb]. assert (i = 1) as -> by lia.
    assert (E : pvt_at c v 0 = (zr v 1 * (zr c 1 - zr c (1 - 1)) / zr c (1 - 1) + zr v (1 - 1))%R).
    { unfold pvt_at. change (0 + 2) with (1 + 1). rewrite zsum_one. change (1 - 1) with 0. ring. }
    split; [|intros _]; change (1 + 1 - 2) with 0; cbn [map]; change (1 - 1) with 0 in *; rewrite E; reflexivity.
  - rewrite !rdr by lia. rewrite HI by lia. cbn [bind val wp fst snd]. rewrite !Ht by lia. cbn [andb].
    assert (E : pvt_at c v (i - 1) = (pvt_at c v (i - 2) + zr v i * (zr c i - zr c (i - 1)) / zr c (i - 1))%R).
    { unfold pvt_at. replace (i - 1 + 2) with (i + 1) by lia. replace (i - 2 + 2) with i by lia. rewrite zsum_snoc by lia. ring. }
    split; [|intros _]; cbn [map]; replace (i + 1 - 2) with (i - 1) by lia; rewrite E; reflexivity.
Qed.
Lemma pvt_ref_fun size (c v : list R) : zlen c = size -> zlen v = size -> 2 <= size <= INT_MAX ->
  @ti_pvt_ref RA size [c; v] [] = Ok (OKAY, [tab 0 (size - 1) (pvt_at c v)]).
Proof.
  intros Hc Hv Hs. unfold ti_pvt_ref. rewrite !rdr by lia. cbn [bind].
  match goal with |- (let* (_, _) := for_ 2 size ?f ?s0 in _) = _ =>
    destruct (for_rel (fun i (s : @T RA * list (@T RA)) (_ : unit) => fst s = pvt_at c v (i - 2) /\ snd s = tab 0 (i - 1) (pvt_at c v)) 2 size f (fun _ s => Ok s) s0 tt) as ([e o] & [] & -> & _ & _ & Eo) end.
  - lia.
  - cbn [fst snd].
    assert (E : pvt_at c v 0 = (zr v 1 * (zr c 1 - zr c 0) / zr c 0 + zr v 0)%R).
    { unfold pvt_at. change (0 + 2) with (1 + 1). rewrite zsum_one. change (1 - 1) with 0. ring. }
    change (2 - 2) with 0. change (2 - 1) with (0 + 1). rewrite tab_snoc, tab_nil by lia. rewrite E. split; reflexivity.
  - intros i [e o] [] Hi (E1 & E2). cbn [fst snd] in *. subst e o. rewrite !rdr by lia. cbn [bind wp fst snd].
    assert (E : (pvt_at c v (i - 2) + zr v i * (zr c i - zr c (i - 1)) / zr c (i - 1))%R = pvt_at c v (i - 1)).
    { unfold pvt_at. replace (i - 1 + 2) with (i + 1) by lia. replace (i - 2 + 2) with i by lia. rewrite zsum_snoc by lia. ring. }
    toR. rewrite E. replace (i + 1 - 2) with (i - 1) by lia. split; [reflexivity|]. replace (i + 1 - 1) with (i - 1 + 1) by lia. rewrite tab_snoc by lia. reflexivity.
  - cbn [bind snd] in *. subst o. reflexivity.
Qed.

(** evwma *)
Lemma evwma_fun size (c v : list R) o g p : zlen c = size -> zlen v = size -> 0 <= size <= INT_MAX -> @to_int RA o = Some p -> 1 <= p ->
  (0 < g)%R -> (forall i, p <= i < size -> zsum (i - p + 1) (i + 1) (zr v) <> 0%R) ->
  @ti_evwma RA size [c; v] [o; g] = Ok (OKAY, [tab 0 (size - p + 1) (ev_at p g c v)]).
Proof.
  intros Hc Hv Hs Ho Hp Hg Hn. unfold ti_evwma, cast. rewrite Ho. cbn [bind]. replace (p <? 1) with false by lia.
  replace (@fle RA g (@of_Z RA 0)) with false by (cbn; destruct (Rleb_spec g 0); [lra|reflexivity]).
  etransitivity; [apply (@batch_tab RA _ (fun i s => snd s = zsum (Z.max 0 (i - p)) i (zr v) /\ (p <= i -> fst s = Some (ev_at p g c v (i - p)))) [ev_at p g c v] (p - 1)); [lia|lia| |]|].
  - cbn [fst snd]. split; [rewrite zsum_nil by lia; reflexivity|lia].
  - intros i [f N] Hi (E1 & E2). cbn [fst snd] in E1, E2. subst N. disp. destruct (i <? p - 1) eqn:Ep; [|destruct (i <? p) eqn:Ep2].
    + rewrite !rdr by lia. cbn [bind wp fst snd map]. split; [reflexivity|]. split; [|lia].
      replace (Z.max 0 (i + 1 - p)) with 0 by lia. replace (Z.max 0 (i - p)) with 0 by lia. rewrite zsum_snoc by lia. reflexivity.
    + rewrite !rdr by lia. cbn [bind wp fst snd map]. replace (i - (p - 1)) with 0 by lia. unfold ev_at at 1. rewrite trec_nil by lia. replace (p - 1) with i by lia.
      split; [reflexivity|]. split.
      * replace (Z.max 0 (i + 1 - p)) with 0 by lia. replace (Z.max 0 (i - p)) with 0 by lia. rewrite zsum_snoc by lia. reflexivity.
      * intros _. replace (i + 1 - p) with 0 by lia. unfold ev_at. rewrite trec_nil by lia. replace (p - 1) with i by lia. reflexivity.
    + rewrite !rdr by lia. rewrite E2 by lia. cbn [bind val wp fst snd map].
      replace (Z.max 0 (i - p)) with (i - p) by lia. replace (Z.max 0 (i + 1 - p)) with (i - p + 1) by lia.
      assert (EN : @fadd RA (zsum (i - p) i (zr v)) (@fsub RA (zr v i) (zr v (i - p))) = zsum (i - p + 1) (i + 1) (zr v)).
      { replace (i - p + 1) with (i + 1 - p) by lia. rewrite zsum_roll by lia. toR. ring. }
      rewrite EN. replace (@truth RA _) with true by (symmetry; apply truth_R, Hn; lia).
      assert (EV : ev_at p g c v (i - p + 1) = let s := (zr v i / (g * zsum (i - p + 1) (i + 1) (zr v)))%R in (ev_at p g c v (i - p) * (1 - s) + s * zr c i)%R).
      { unfold ev_at. replace (i - p + 1 + p) with (i + 1) by lia. rewrite trec_snoc by lia. replace (i - p + p) with i by lia. reflexivity. }
      cbv zeta in EV. replace (i - (p - 1)) with (i - p + 1) by lia. replace (i + 1 - p) with (i - p + 1) by lia. rewrite EV. repeat split.
  - cbn [map]. do 3 f_equal. apply tab_eq; lia.
Qed.
(** The reference sums the volumes in an int. *)
Lemma evwma_ref_fun size (c : list R) (n : list Z) o g p : zlen c = size -> zlen n = size -> 0 <= size <= INT_MAX -> @to_int RA o = Some p -> 1 <= p ->
  (0 < g)%R -> (forall i j, p <= i < size -> i - p + 1 <= j <= i + 1 -> INT_MIN <= fold_right Z.add 0 (tab (i - p + 1) j (zn 0 n)) <= INT_MAX) ->
  @ti_evwma_ref RA size [c; map IZR n] [o; g] = Ok (OKAY, [tab 0 (size - p + 1) (ev_at p g c (map IZR n))]).
Proof.
  intros Hc Hv Hs Ho Hp Hg Hn. set (v := map IZR n). assert (Lv : zlen v = size) by (unfold v; rewrite zlen_map; exact Hv).
  unfold ti_evwma_ref, cast. rewrite Ho. cbn [bind]. replace (p <? 1) with false by lia.
  replace (@fle RA g (@of_Z RA 0)) with false by (cbn; destruct (Rleb_spec g 0); [lra|reflexivity]).
  destruct (size <? p) eqn:E; [rewrite tab_nil by lia; reflexivity|]. rewrite !rdr by lia. cbn [bind].
  assert (Zv : forall j, zr v j = IZR (zn 0 n j)) by (intros j; unfold v, zn; rewrite (map_nth IZR); reflexivity).
  assert (ZS : forall lo hi, fold_right Z.add 0 (tab lo (hi + 1) (zn 0 n)) = fold_right Z.add 0 (tab lo hi (zn 0 n)) + (if lo <=? hi then zn 0 n hi else 0)).
  { intros lo hi. destruct (lo <=? hi) eqn:El; [|rewrite !tab_nil by lia; lia]. rewrite tab_snoc by lia.
    induction (tab lo hi (zn 0 n)) as [|a l IH]; cbn [app fold_right]; lia. }
  assert (SUM : forall i, p <= i < size -> for_ (i - p + 1) (i + 1) (fun j N => let* v0 := rd v j in @cast RA (@fadd RA (@of_Z RA N) v0)) 0 = Ok (fold_right Z.add 0 (tab (i - p + 1) (i + 1) (zn 0 n)))).
  { intros i Hi. apply (zind (fun m => m <= i + 1 -> for_ (i - p + 1) m _ 0 = Ok (fold_right Z.add 0 (tab (i - p + 1) m (zn 0 n)))) (i - p + 1) (i + 1)); [lia| | |lia].
    - intros _. rewrite for_nil, tab_nil by lia. reflexivity.
    - intros m Hm IH _. rewrite for_snoc by lia. rewrite IH by lia. cbn [bind]. rewrite rdr by lia. cbn [bind]. rewrite Zv. toR. rewrite <- plus_IZR.
      pose proof (Hn i (m + 1) Hi ltac:(lia)) as Hb. rewrite ZS in Hb. replace (i - p + 1 <=? m) with true in Hb by lia. rewrite cast_IZR by lia.
      rewrite ZS. replace (i - p + 1 <=? m) with true by lia. reflexivity. }
  assert (RS : forall lo hi, IZR (fold_right Z.add 0 (tab lo hi (zn 0 n))) = zsum lo hi (zr v)).
  { intros lo hi. unfold zsum, tab. induction (seq 0 (Z.to_nat (hi - lo))) as [|a l IH]; cbn; [reflexivity|]. rewrite plus_IZR, IH, Zv. reflexivity. }
  match goal with |- (let* (_, _) := for_ p size ?f ?s0 in _) = _ =>
    destruct (for_rel (fun i (s : @T RA * list (@T RA)) (_ : unit) => fst s = ev_at p g c v (i - p) /\ snd s = tab 0 (i - p + 1) (ev_at p g c v)) p size f (fun _ s => Ok s) s0 tt) as ([e o'] & [] & -> & _ & _ & Eo) end.
  - lia.
  - cbn [fst snd]. rewrite Z.sub_diag. rewrite tab_snoc, tab_nil by lia. unfold ev_at. rewrite !trec_nil by lia. split; reflexivity.
  - intros i [e o'] [] Hi (E1 & E2). cbn [fst snd] in *. subst e o'. rewrite SUM by lia. cbn [bind]. rewrite !rdr by lia. cbn [bind wp fst snd].
    toR. rewrite RS.
    assert (EV : ev_at p g c v (i - p + 1) = let s := (zr v i / (g * zsum (i - p + 1) (i + 1) (zr v)))%R in (ev_at p g c v (i - p) * (1 - s) + s * zr c i)%R).
    { unfold ev_at. replace (i - p + 1 + p) with (i + 1) by lia. rewrite trec_snoc by lia. replace (i - p + p) with i by lia. reflexivity. }
    cbv zeta in EV. rewrite <- EV. replace (i + 1 - p + 1) with (i - p + 1 + 1) by lia. replace (i + 1 - p) with (i - p + 1) by lia. split; [reflexivity|]. rewrite (tab_snoc 0 (i - p + 1)) by lia. reflexivity.
  - cbn [bind snd] in *. subst o'. reflexivity.
Qed.
End R.

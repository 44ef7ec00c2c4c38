(** mesastoch on real prices, and its long-run behaviour. *)
From Verif Require Export SpecR7 Fun_mesa XArith Fun_batch6 Settle2.
From Coq Require Import Reals Lra.
Open Scope Z_scope.

Lemma stoch_w_pos m : 1 <= m -> (0 < stoch_w m)%R.
Proof. intros H. unfold stoch_w. apply IZR_le in H. assert (0 < / IZR m)%R by (apply Rinv_0_lt_compat; lra). unfold Rdiv. repeat (apply Rmult_lt_0_compat; [|lra]). lra. Qed.
Lemma stoch_w_eq m : 1 <= m -> (stoch_w m * IZR m = 4442211088 / 1000000000)%R.
Proof. intros H. unfold stoch_w. apply IZR_le in H. field. lra. Qed.
Lemma stoch_w_1 : (PI < stoch_w 1 < 3 * (PI / 2))%R.
Proof. pose proof (stoch_w_eq 1 ltac:(lia)). pose proof PI2_3_2. pose proof PI_4. lra. Qed.
Lemma stoch_w_2 : (PI / 2 < stoch_w 2 < PI)%R.
Proof. pose proof (stoch_w_eq 2 ltac:(lia)). pose proof PI2_3_2. pose proof PI_4. lra. Qed.
Lemma stoch_w_3 m : 3 <= m -> (0 < stoch_w m < PI / 2)%R.
Proof. intros H. pose proof (stoch_w_pos m ltac:(lia)). split; [assumption|]. pose proof (stoch_w_eq m ltac:(lia)). pose proof PI2_3_2. apply IZR_le in H. nra. Qed.
Lemma stoch_cos m : 1 <= m -> cos (stoch_w m) <> 0%R.
Proof.
  intros H. destruct (Z.eq_dec m 1) as [->|N1]; [|destruct (Z.eq_dec m 2) as [->|N2]].
  - pose proof stoch_w_1. pose proof (cos_lt_0 (stoch_w 1)). lra.
  - pose proof stoch_w_2. pose proof (cos_lt_0 (stoch_w 2)). lra.
  - pose proof (stoch_w_3 m ltac:(lia)). pose proof (cos_gt_0 (stoch_w m)). lra.
Qed.
Lemma stoch_beta_eq m : 1 <= m -> (1 - stoch_alpha m = (1 - sin (stoch_w m)) / cos (stoch_w m))%R.
Proof. intros H. unfold stoch_alpha. field. apply stoch_cos, H. Qed.
(** The high-pass filter is stable for cycles of two bars and more, and unstable for one. *)
Lemma stoch_beta m : 2 <= m -> (Rabs (1 - stoch_alpha m) < 1)%R.
Proof.
  intros H. rewrite stoch_beta_eq by lia. pose proof (sin2_cos2 (stoch_w m)) as E. unfold Rsqr in E. destruct (Z.eq_dec m 2) as [->|N].
  - pose proof stoch_w_2 as W. assert (C : (cos (stoch_w 2) < 0)%R) by (apply cos_lt_0; lra). assert (S : (0 < sin (stoch_w 2))%R) by (apply sin_gt_0; lra).
    set (s := sin (stoch_w 2)) in *. set (c := cos (stoch_w 2)) in *. replace ((1 - s) / c)%R with (- ((1 - s) / - c))%R by (field; lra). rewrite Rabs_Ropp.
    assert (s <= 1)%R by nra. rewrite Rabs_pos_eq; [|unfold Rdiv; apply Rmult_le_pos; [lra|left; apply Rinv_0_lt_compat; lra]].
    apply Rmult_lt_reg_r with (- c)%R; [lra|]. unfold Rdiv. rewrite Rmult_assoc, Rinv_l, Rmult_1_l, Rmult_1_r by lra. nra.
  - pose proof (stoch_w_3 m ltac:(lia)) as W. assert (C : (0 < cos (stoch_w m))%R) by (apply cos_gt_0; lra). assert (S : (0 < sin (stoch_w m))%R) by (apply sin_gt_0; lra).
    set (s := sin (stoch_w m)) in *. set (c := cos (stoch_w m)) in *.
    assert (s <= 1)%R by nra. rewrite Rabs_pos_eq; [|unfold Rdiv; apply Rmult_le_pos; [lra|left; apply Rinv_0_lt_compat; lra]].
    apply Rmult_lt_reg_r with c; [lra|]. unfold Rdiv. rewrite Rmult_assoc, Rinv_l, Rmult_1_l, Rmult_1_r by lra. nra.
Qed.
Lemma stoch_beta_1 : (1 - stoch_alpha 1 < -1)%R.
Proof.
  rewrite stoch_beta_eq by lia. pose proof (sin2_cos2 (stoch_w 1)) as E. unfold Rsqr in E. pose proof stoch_w_1 as W. pose proof PI_RGT_0.
  assert (C : (cos (stoch_w 1) < 0)%R) by (apply cos_lt_0; lra). assert (S : (sin (stoch_w 1) < 0)%R) by (apply sin_lt_0; lra).
  set (s := sin (stoch_w 1)) in *. set (c := cos (stoch_w 1)) in *. apply Rmult_lt_reg_r with (- c)%R; [lra|]. replace ((1 - s) / c * - c)%R with (- (1 - s))%R by (field; lra). nra.
Qed.

(** ** From the equations over the reals to those over the extended reals *)
Definition fin4 (h f s r : Z -> R) : @mesa XR := @Mesa XR (fun i => Fin (h i)) (fun i => Fin (f i)) (fun i => Fin (s i)) (fun i => Fin (r i)).
Lemma consts_fin m : 1 <= m -> @mesa_consts XR m = (Fin (stoch_alpha m), Fin stoch_gain, Fin stoch_b, Fin (- (stoch_a * stoch_a))).
Proof.
  intros H. pose proof (stoch_cos m H) as C. assert (M : IZR m <> 0%R) by (apply not_0_IZR; lia). unfold mesa_consts, deg2rad. cbn -[IZR Z.pow]. 
  change (IZR (10 ^ 3)) with 1000%R. change (IZR (10 ^ 6)) with 1000000%R.
  repeat (match goal with |- context[Reqb (IZR ?z) 0] => destruct (Reqb_spec (IZR z) 0); [exfalso; lra|] end; cbn -[IZR Z.pow]).
  change (707 / 1000 * 360 / IZR m * (3141592 / 1000000) / 180)%R with (stoch_w m).
  change (1414 / 1000 * 180 / 10 * (3141592 / 1000000) / 180)%R with stoch_t.
  change (exp (- (1414 / 1000) * (3141459 / 1000000) / 10)) with stoch_a. destruct (Reqb_spec (cos (stoch_w m)) 0); [contradiction|].
  repeat apply f_equal2; f_equal; unfold stoch_alpha, stoch_gain, stoch_b; lra || (field; assumption) || idtac.
Qed.
Lemma fin_bar m n (x : list R) h f s r tst i : 1 <= m -> 1 <= n -> i < zlen x -> mesastoch_at m n (zr x) h f s r i ->
  (n + 2 <= i -> trough f (i - n + 1) i = peak f (i - n + 1) i -> tst = @stoc_tested XR) -> tst = @stoc_tested XR \/ tst = @stoc_plain XR ->
  @bar_of XR (@mesa_consts XR m) tst n (map Fin x) (fin4 h f s r) i.
Proof.
  intros Hm Hn Hi H Hflat Ht. unfold mesastoch_at in H. rewrite consts_fin by assumption. unfold bar_of, mesa_bar, fin4. cbn [q_hp q_filt q_stoc q_res]. destruct (i <? 2) eqn:E2.
  { destruct H as (-> & -> & -> & ->). repeat split. }
  assert (Zx : forall j, 0 <= j < zlen x -> @zf XR (map Fin x) j = Fin (zr x j)).
  { intros j Hj. unfold zf, zn, zr. change (@f0 XR) with (Fin 0). rewrite map_nth. reflexivity. }
  destruct H as (H1 & H2 & H3). rewrite !Zx by lia. cbv zeta.
  assert (D2 : Reqb 2 0 = false) by (destruct (Reqb_spec 2 0); [lra|reflexivity]).
  split; [|split].
  - cbn -[IZR]. rewrite !D2. cbn -[IZR]. f_equal. rewrite H1. unfold Rdiv. ring.
  - cbn -[IZR]. rewrite !D2. cbn -[IZR]. f_equal. rewrite H2. unfold stoch_smooth, Rdiv. ring.
  - destruct (i <? n + 2) eqn:En; [destruct H3 as [-> ->]; auto|]. destruct H3 as [H3 H4]. split.
    + destruct (peak_spec f (i - n + 1) i ltac:(lia)) as [P1 (a & Pa & P2)], (trough_spec f (i - n + 1) i ltac:(lia)) as [T1 (b & Tb & T2)].
      exists (Fin (peak f (i - n + 1) i)), (Fin (trough f (i - n + 1) i)). split; [|split].
      * split; [exists a; split; [lia|f_equal; exact P2]|]. intros j Hj. cbn. destruct (Rleb_spec (f j) (peak f (i - n + 1) i)) as [L|L]; [reflexivity|specialize (P1 j Hj); lra].
      * split; [exists b; split; [lia|f_equal; exact T2]|]. intros j Hj. cbn. destruct (Rleb_spec (trough f (i - n + 1) i) (f j)) as [L|L]; [reflexivity|specialize (T1 j Hj); lra].
      * rewrite H3. unfold stoch_pos. specialize (Hflat ltac:(lia)). specialize (P1 i ltac:(lia)). specialize (T1 i ltac:(lia)).
        set (lo := trough f (i - n + 1) i) in *. set (hi := peak f (i - n + 1) i) in *. clearbody lo hi.
        assert (Et : @stoc_tested XR (Fin (f i)) (Fin hi) (Fin lo) = Fin (if Reqb (f i) lo then 0 else (f i - lo) / (hi - lo))).
        { unfold stoc_tested. cbn -[IZR]. destruct (Reqb_spec (f i + - lo) 0), (Reqb_spec (f i) lo); cbn; try lra; [reflexivity|]. destruct (Reqb_spec (hi + - lo) 0); [lra|]. reflexivity. }
        destruct Ht as [-> | ->]; [symmetry; exact Et|]. destruct (Req_dec lo hi) as [Ef|Ef]; [rewrite (Hflat Ef); symmetry; exact Et|].
        unfold stoc_plain. cbn -[IZR]. destruct (Reqb_spec (hi + - lo) 0); [lra|]. f_equal. destruct (Reqb_spec (f i) lo) as [->|]; [field; lra|reflexivity].
    + cbn -[IZR]. rewrite !D2. cbn -[IZR]. f_equal. rewrite H4. unfold stoch_smooth, Rdiv. ring.
Qed.
Lemma zlen_map {X Y} (g : X -> Y) l : zlen (map g l) = zlen l.
Proof. unfold zlen. rewrite map_length. reflexivity. Qed.

Lemma mesastoch_R size (x : list R) n m h f s r : zlen x = size -> 3 <= n -> n + 2 <= INT_MAX -> 1 <= m <= INT_MAX ->
  (forall i, mesastoch_at m n (zr x) h f s r i) ->
  @ti_mesastoch XR size [map Fin x] [Fin (IZR n); Fin (IZR m)] = Ok (OKAY, [tab (n + 2) size (fun i => Fin (r i))]).
Proof.
  intros Hx Hn Hn' Hm H. apply (@mesastoch_fun XR finite XR_anti size (map Fin x) (Fin (IZR n)) (Fin (IZR m)) n m (fin4 h f s r)); try lia.
  - exact XR_inf.
  - apply (@to_int_of_Z RA RA_laws). zl.
  - apply (@to_int_of_Z RA RA_laws). zl.
  - rewrite zlen_map. exact Hx.
  - subst size. unfold zlen. lia.
  - intros i Hi. apply fin_bar; auto; lia.
  - intros i Hi. exists (f i). reflexivity.
Qed.
Lemma mesastoch_ref_R size (x : list R) n m h f s r : zlen x = size -> 3 <= n -> n + 2 <= INT_MAX -> n + 2 <= size -> 1 <= m <= INT_MAX ->
  (forall i, mesastoch_at m n (zr x) h f s r i) -> (forall i, n + 2 <= i < size -> exists j, i - n < j <= i /\ f j <> f i) ->
  @ti_mesastoch_ref XR size [map Fin x] [Fin (IZR n); Fin (IZR m)] = Ok (OKAY, [tab (n + 2) size (fun i => Fin (r i))]).
Proof.
  intros Hx Hn Hn' Hs Hm H Hf. apply (@mesastoch_ref_fun XR finite XR_anti size (map Fin x) (Fin (IZR n)) (Fin (IZR m)) n m (fin4 h f s r)); try lia.
  - apply (@to_int_of_Z RA RA_laws). zl.
  - apply (@to_int_of_Z RA RA_laws). zl.
  - rewrite zlen_map. exact Hx.
  - intros i Hi. apply fin_bar; auto; try lia. intros Hi2 E. exfalso. destruct (Hf i ltac:(lia)) as (j & Hj & N).
    destruct (peak_spec f (i - n + 1) i ltac:(lia)) as [P1 _], (trough_spec f (i - n + 1) i ltac:(lia)) as [T1 _].
    pose proof (P1 j ltac:(lia)). pose proof (P1 i ltac:(lia)). pose proof (T1 j ltac:(lia)). pose proof (T1 i ltac:(lia)). lra.
  - intros i Hi. exists (f i). reflexivity.
Qed.

(** ** Solutions *)
Lemma peak_ext f g a i : a <= i -> (forall j, a <= j <= i -> f j = g j) -> peak f a i = peak g a i.
Proof.
  intros Ha E. destruct (peak_spec f a i Ha) as [P1 (j & Hj & P2)]. apply peak_unique; [exact Ha| |].
  - intros k Hk. rewrite <- E by lia. apply P1, Hk.
  - exists j. split; [exact Hj|]. rewrite P2. apply E, Hj.
Qed.
Lemma trough_ext f g a i : a <= i -> (forall j, a <= j <= i -> f j = g j) -> trough f a i = trough g a i.
Proof.
  intros Ha E. destruct (trough_spec f a i Ha) as [P1 (j & Hj & P2)]. apply trough_unique; [exact Ha| |].
  - intros k Hk. rewrite <- E by lia. apply P1, Hk.
  - exists j. split; [exact Hj|]. rewrite P2. apply E, Hj.
Qed.
(** A rule for bars [lo] and later, 0 before. *)
Lemma solve_from lo (F : Z -> (Z -> R) -> R) : 0 <= lo -> (forall i g h, lo <= i -> (forall j, j < i -> g j = h j) -> F i g = F i h) ->
  exists f, (forall i, i < lo -> f i = 0%R) /\ forall i, lo <= i -> f i = F i f.
Proof.
  intros Hl HF. destruct (causal_solution (fun i g => if i <? lo then 0%R else F i (fun j => if j <? 0 then 0%R else g j))) as [g Hg].
  { intros i g h Hi E. destruct (i <? lo) eqn:El; [reflexivity|]. apply HF; [lia|]. intros j Hj. destruct (j <? 0) eqn:Ej; [reflexivity|apply E; lia]. }
  exists (fun j => if j <? 0 then 0%R else g j). split.
  - intros i Hi. destruct (i <? 0) eqn:E; [reflexivity|]. rewrite Hg by lia. replace (i <? lo) with true by lia. reflexivity.
  - intros i Hi. replace (i <? 0) with false by lia. rewrite Hg by lia. replace (i <? lo) with false by lia. reflexivity.
Qed.
Lemma mesastoch_exists m n x : 1 <= n -> exists h f s r, forall i, mesastoch_at m n x h f s r i.
Proof.
  intros Hn.
  destruct (solve_from 2 (fun i h => (1 - stoch_alpha m / 2) * (1 - stoch_alpha m / 2) * (x i - 2 * x (i - 1)%Z + x (i - 2)%Z)
        + 2 * (1 - stoch_alpha m) * h (i - 1)%Z - (1 - stoch_alpha m) * (1 - stoch_alpha m) * h (i - 2)%Z)%R) as (h & Zh & Hh); [lia|intros i g k Hi E; rewrite !E by lia; reflexivity|].
  destruct (solve_from 2 (fun i f => stoch_smooth h f i)) as (f & Zf & Hf); [lia|intros i g k Hi E; unfold stoch_smooth; rewrite !E by lia; reflexivity|].
  set (s := fun i => if i <? n + 2 then 0%R else stoch_pos f (i - n + 1) i).
  destruct (solve_from (n + 2) (fun i r => stoch_smooth s r i)) as (r & Zr & Hr); [lia|intros i g k Hi E; unfold stoch_smooth; rewrite !E by lia; reflexivity|].
  exists h, f, s, r. intros i. unfold mesastoch_at. destruct (i <? 2) eqn:E2.
  - split; [apply Zh; lia|]. split; [apply Zf; lia|]. unfold s. replace (i <? n + 2) with true by lia. split; [reflexivity|apply Zr; lia].
  - split; [apply Hh; lia|]. split; [apply Hf; lia|]. destruct (i <? n + 2) eqn:En.
    + unfold s. rewrite En. split; [reflexivity|apply Zr; lia].
    + split; [unfold s; rewrite En; reflexivity|apply Hr; lia].
Qed.

(** ** Ranges and limits *)
Lemma stoch_pos_range f a i : a <= i -> (0 <= stoch_pos f a i <= 1)%R.
Proof.
  intros Ha. unfold stoch_pos. destruct (peak_spec f a i Ha) as [P _], (trough_spec f a i Ha) as [T _]. specialize (P i ltac:(lia)). specialize (T i ltac:(lia)).
  destruct (Reqb_spec (f i) (trough f a i)); [lra|]. split.
  - unfold Rdiv. apply Rmult_le_pos; [lra|left; apply Rinv_0_lt_compat; lra].
  - apply Rmult_le_reg_r with (peak f a i - trough f a i)%R; [lra|]. unfold Rdiv. rewrite Rmult_assoc, Rinv_l by lra. lra.
Qed.
Lemma mesastoch_pos_range m n x h f s r : 1 <= n -> (forall i, mesastoch_at m n x h f s r i) -> forall i, (0 <= s i <= 1)%R.
Proof.
  intros Hn H i. specialize (H i). unfold mesastoch_at in H. destruct (i <? 2); [destruct H as (_ & _ & -> & _); lra|]. destruct H as (_ & _ & H).
  destruct (i <? n + 2); [destruct H as [-> _]; lra|]. destruct H as [-> _]. apply stoch_pos_range. lia.
Qed.
Lemma stoch_a_lt : (0 <= stoch_a < 1)%R.
Proof. unfold stoch_a. split; [left; apply exp_pos|]. rewrite <- exp_0. apply exp_increasing. lra. Qed.
Lemma stoch_smooth_tends x f c N : (forall i, N <= i -> f i = stoch_smooth x f i) -> tends x c -> tends f c.
Proof.
  intros Hf Hx. apply tends_minus. 
  apply (two_poles _ (fun i => stoch_gain / 2 * (x i - c) + stoch_gain / 2 * (x (i - 1)%Z - c))%R stoch_a (cos stoch_t) (sin stoch_t) N stoch_a_lt).
  - pose proof (sin2_cos2 stoch_t) as H. unfold Rsqr in H. lra.
  - assert (0 < stoch_t < PI)%R as W by (unfold stoch_t; pose proof PI2_1; lra). pose proof (sin_gt_0 stoch_t (proj1 W) (proj2 W)). lra.
  - intros i Hi. rewrite (Hf i Hi) at 1. unfold stoch_smooth, stoch_gain, stoch_b. field.
  - replace 0%R with (stoch_gain / 2 * 0 + stoch_gain / 2 * 0)%R by ring. apply tends_plus; apply tends_scal.
    + exact (proj1 (tends_minus x c) Hx).
    + exact (tends_shift 1 _ 0%R (proj1 (tends_minus x c) Hx)).
Qed.
Lemma mesastoch_follow m n x h f s r v : (forall i, mesastoch_at m n x h f s r i) -> tends s v -> tends r v.
Proof.
  intros H. apply (stoch_smooth_tends s r v (Z.max 2 (n + 2))). intros i Hi. specialize (H i). unfold mesastoch_at in H.
  replace (i <? 2) with false in H by lia. replace (i <? n + 2) with false in H by lia. tauto.
Qed.
(** The filters remove a trend: prices that approach a straight line give a filtered series that tends to 0. *)
Lemma mesastoch_filters m n x h f s r a b : 2 <= m -> (forall i, mesastoch_at m n x h f s r i) -> tends (fun i => x i - (a + b * IZR i))%R 0 -> tends h 0 /\ tends f 0.
Proof.
  intros Hm H Hx. pose proof (stoch_beta m Hm) as Hb. set (be := (1 - stoch_alpha m)%R) in *. set (k := ((1 - stoch_alpha m / 2) * (1 - stoch_alpha m / 2))%R).
  set (d := fun i => (x i - (a + b * IZR i))%R) in *.
  set (u := fun i => (k * d i + ((-2 * k) * d (i - 1)%Z + k * d (i - 2)%Z))%R).
  assert (Hu : tends u 0).
  { replace 0%R with (k * 0 + ((-2 * k) * 0 + k * 0))%R by ring.
    apply tends_plus; [|apply tends_plus]; apply tends_scal; [exact Hx|apply (tends_shift 1 _ 0%R Hx)|apply (tends_shift 2 _ 0%R Hx)]. }
  assert (Th : tends h 0).
  { apply (driven1 h (fun i => h i - be * h (i - 1)%Z)%R be 2); [assumption|intros i Hi; ring|].
    apply (driven1 _ u be 2); [assumption| |exact Hu].
    intros i Hi. pose proof (H i) as Hi'. unfold mesastoch_at in Hi'. replace (i <? 2) with false in Hi' by lia. destruct Hi' as (-> & _). unfold u, d. replace (i - 1 - 1) with (i - 2) by lia. fold be k. rewrite !minus_IZR. ring. }
  split; [exact Th|]. apply (stoch_smooth_tends h f 0 2); [|exact Th]. intros i Hi. specialize (H i). unfold mesastoch_at in H. replace (i <? 2) with false in H by lia. tauto.
Qed.
(** A straight line gives 0. *)
Lemma mesastoch_line m n x h f s r a b : 1 <= n -> (forall i, mesastoch_at m n x h f s r i) -> (forall i, 0 <= i -> x i = (a + b * IZR i)%R) -> forall i, h i = 0%R /\ f i = 0%R /\ s i = 0%R /\ r i = 0%R.
Proof.
  intros Hn H Hx.
  assert (Zn : forall i, i < 2 -> h i = 0%R /\ f i = 0%R /\ s i = 0%R /\ r i = 0%R) by (intros i Hi; specialize (H i); unfold mesastoch_at in H; replace (i <? 2) with true in H by lia; exact H).
  assert (Hf : forall i, (h i = 0%R /\ f i = 0%R) /\ h (i - 1) = 0%R /\ f (i - 1) = 0%R).
  { intros i. destruct (Z.lt_ge_cases i 2) as [L|L]; [pose proof (Zn i L); pose proof (Zn (i - 1) ltac:(lia)); tauto|].
    apply (zind (fun i => (h i = 0%R /\ f i = 0%R) /\ h (i - 1) = 0%R /\ f (i - 1) = 0%R) 1 i); [lia|pose proof (Zn 1 ltac:(lia)); pose proof (Zn (1 - 1) ltac:(lia)); tauto|].
    intros j Hj [[E1 E2] [E3 E4]]. specialize (H (j + 1)). unfold mesastoch_at, stoch_smooth in H. replace (j + 1 <? 2) with false in H by lia. destruct H as (H1 & H2 & _).
    replace (j + 1 - 1) with j in * by lia. replace (j + 1 - 2) with (j - 1) in * by lia. rewrite E1, E3 in H1. rewrite !Hx in H1 by lia. rewrite plus_IZR, minus_IZR in H1.
    assert (F1 : h (j + 1) = 0%R) by (rewrite H1; ring). split; [|auto]. split; [exact F1|]. rewrite H2, F1, E1, E2, E4. field. }
  assert (Hs : forall i, s i = 0%R).
  { intros i. specialize (H i). unfold mesastoch_at in H. destruct (i <? 2); [tauto|]. destruct H as (_ & _ & H). destruct (i <? n + 2); [tauto|]. destruct H as [-> _].
    unfold stoch_pos. destruct (trough_spec f (i - n + 1) i ltac:(lia)) as [_ (j & _ & ->)]. rewrite (proj2 (proj1 (Hf i))), (proj2 (proj1 (Hf j))). destruct (Reqb_spec 0 0); [reflexivity|lra]. }
  intros i. split; [apply Hf|]. split; [apply Hf|]. split; [apply Hs|].
  enough (r i = 0%R /\ r (i - 1) = 0%R) by tauto. destruct (Z.lt_ge_cases i 2) as [L|L]; [pose proof (Zn i L); pose proof (Zn (i - 1) ltac:(lia)); tauto|].
  apply (zind (fun i => r i = 0%R /\ r (i - 1) = 0%R) 1 i); [lia|pose proof (Zn 1 ltac:(lia)); pose proof (Zn (1 - 1) ltac:(lia)); tauto|].
  intros j Hj [E1 E2]. specialize (H (j + 1)). unfold mesastoch_at, stoch_smooth in H. replace (j + 1 <? 2) with false in H by lia. replace (j + 1 - 1) with j in * by lia. split; [|exact E1].
  destruct H as (_ & _ & H). destruct (j + 1 <? n + 2); [tauto|]. destruct H as [_ ->]. replace (j + 1 - 2) with (j - 1) by lia. rewrite !Hs, E1, E2. field.
Qed.
(** With a cycle of one bar a single price of 1 makes the high-pass filter pass every bound. *)
Lemma mesastoch_unstable n x h f s r : (forall i, mesastoch_at 1 n x h f s r i) -> (forall i, x i = if i =? 2 then 1%R else 0%R) -> forall M, exists i, 0 <= i /\ (M < Rabs (h i))%R.
Proof.
  intros H Hx M. pose proof stoch_beta_1 as Hb. set (be := (1 - stoch_alpha 1)%R) in *.
  assert (Hk : ((1 - stoch_alpha 1 / 2) * (1 - stoch_alpha 1 / 2) = (1 + be) / 2 * ((1 + be) / 2))%R) by (unfold be; field). set (k := ((1 + be) / 2 * ((1 + be) / 2))%R) in *.
  assert (Pk : (0 < k)%R) by (unfold k; nra).
  assert (Z0 : forall i, i < 2 -> h i = 0%R) by (intros i Hi; specialize (H i); unfold mesastoch_at in H; replace (i <? 2) with true in H by lia; tauto).
  assert (Hh : forall i, 2 <= i -> h i = (k * (x i - 2 * x (i - 1)%Z + x (i - 2)%Z) + 2 * be * h (i - 1)%Z - be * be * h (i - 2)%Z)%R).
  { intros i Hi. specialize (H i). unfold mesastoch_at in H. replace (i <? 2) with false in H by lia. rewrite Hk in H. tauto. }
  set (g := fun i => (h i - be * h (i - 1)%Z)%R).
  assert (G4 : g 4 = (k * ((be - 1) * (be - 1)))%R).
  { assert (E2 : h 2 = k) by (rewrite (Hh 2 ltac:(lia)), !Hx, (Z0 (2 - 1) ltac:(lia)), (Z0 (2 - 2) ltac:(lia)); cbn; ring).
    assert (E3 : h 3 = (k * (2 * be - 2))%R) by (rewrite (Hh 3 ltac:(lia)), !Hx, (Z0 (3 - 2) ltac:(lia)); change (3 - 1) with 2; rewrite E2; cbn; ring).
    unfold g. rewrite (Hh 4 ltac:(lia)), !Hx. change (4 - 1) with 3. change (4 - 2) with 2. rewrite E2, E3. cbn. ring. }
  assert (Gk : forall j, g (4 + Z.of_nat j) = (be ^ j * g 4%Z)%R).
  { induction j as [|j IH]; [cbn; ring|]. replace (4 + Z.of_nat (S j)) with (4 + Z.of_nat j + 1) by lia. cbn [pow]. rewrite Rmult_assoc, <- IH. set (i := 4 + Z.of_nat j). unfold g. rewrite (Hh (i + 1)) by lia.
    replace (i + 1 - 1) with i by lia. replace (i + 1 - 2) with (i - 1) by lia. rewrite !Hx. replace (i + 1 =? 2) with false by lia. replace (i =? 2) with false by lia. replace (i - 1 =? 2) with false by lia. ring. }
  assert (Pg : (0 < g 4%Z)%R) by (rewrite G4; apply Rmult_lt_0_compat; nra).
  destruct (Pow_x_infinity be ltac:(rewrite Rabs_left; lra) ((1 + Rabs be) * Rabs M / g 4%Z + 1)) as [j Hj]. specialize (Hj j (le_n j)). specialize (Gk j). set (i := 4 + Z.of_nat j) in *.
  destruct (Rlt_dec M (Rabs (h i))) as [L|L]; [exists i; split; [lia|exact L]|]. destruct (Rlt_dec M (Rabs (h (i - 1)%Z))) as [L'|L']; [exists (i - 1); split; [lia|exact L']|]. exfalso.
  assert (B1 : (Rabs (g i) <= (1 + Rabs be) * Rabs M)%R).
  { unfold g. eapply Rle_trans; [apply Rabs_triang|]. rewrite Rabs_Ropp, Rabs_mult. pose proof (Rle_abs M). pose proof (Rabs_pos be). nra. }
  rewrite Gk, Rabs_mult, (Rabs_pos_eq (g 4)) in B1 by lra.
  assert (B2 : ((1 + Rabs be) * Rabs M / g 4%Z * g 4%Z = (1 + Rabs be) * Rabs M)%R) by (field; lra).
  apply Rge_le in Hj. apply (Rmult_le_compat_r (g 4)) in Hj; [|lra]. rewrite Rmult_plus_distr_r in Hj. lra.
Qed.
(** The bars after [i] do not matter for bar [i]. *)
Lemma mesastoch_line_out size (x : list R) n m a b : zlen x = size -> 3 <= n -> n + 2 <= INT_MAX -> 1 <= m <= INT_MAX ->
  (forall i, 0 <= i < size -> zr x i = (a + b * IZR i)%R) ->
  @ti_mesastoch XR size [map Fin x] [Fin (IZR n); Fin (IZR m)] = Ok (OKAY, [tab (n + 2) size (fun _ => Fin 0)]).
Proof.
  intros Hx Hn Hn' Hm Hl. destruct (mesastoch_exists m n (zr x) ltac:(lia)) as (h & f & s & r & H). rewrite (mesastoch_R size x n m h f s r Hx Hn Hn' Hm H). do 3 f_equal.
  apply tab_ext. intros i Hi. f_equal.
  set (y := fun j => if j <? size then zr x j else (a + b * IZR j)%R).
  destruct (mesastoch_exists m n y ltac:(lia)) as (h' & f' & s' & r' & H').
  assert (E : forall j, 0 <= j -> forall k, k <= j -> k < size -> h k = h' k /\ f k = f' k /\ s k = s' k /\ r k = r' k).
  { intros j0 Hj0. apply (zind (fun j => forall k, k <= j -> k < size -> h k = h' k /\ f k = f' k /\ s k = s' k /\ r k = r' k) 0 j0); [lia| |].
    - intros k Hk _. pose proof (H k) as G. pose proof (H' k) as G'. unfold mesastoch_at in G, G'. replace (k <? 2) with true in * by lia. destruct G as (-> & -> & -> & ->), G' as (-> & -> & -> & ->). repeat split.
    - intros j Hj IH k Hk Hks. destruct (Z.eq_dec k (j + 1)) as [->|N]; [|apply IH; lia]. clear Hk. pose proof (H (j + 1)) as G. pose proof (H' (j + 1)) as G'. unfold mesastoch_at in G, G'.
      destruct (j + 1 <? 2) eqn:E2; [destruct G as (-> & -> & -> & ->), G' as (-> & -> & -> & ->); repeat split|].
      destruct G as (G1 & G2 & G3), G' as (G1' & G2' & G3'). unfold stoch_smooth in *.
      assert (Q : forall k, k < j + 1 -> h k = h' k /\ f k = f' k /\ s k = s' k /\ r k = r' k) by (intros k Hk; apply IH; lia).
      assert (E1 : h (j + 1) = h' (j + 1)). { rewrite G1, G1'. unfold y. replace (j + 1 <? size) with true by lia. replace (j + 1 - 1 <? size) with true by lia. replace (j + 1 - 2 <? size) with true by lia.
        destruct (Q (j + 1 - 1) ltac:(lia)) as (-> & _). destruct (Q (j + 1 - 2) ltac:(lia)) as (-> & _). reflexivity. }
      assert (F1 : f (j + 1) = f' (j + 1)). { rewrite G2, G2', E1. destruct (Q (j + 1 - 1) ltac:(lia)) as (-> & -> & _). destruct (Q (j + 1 - 2) ltac:(lia)) as (_ & -> & _). reflexivity. }
      split; [exact E1|]. split; [exact F1|]. destruct (j + 1 <? n + 2) eqn:En; [destruct G3 as [-> ->], G3' as [-> ->]; split; reflexivity|].
      destruct G3 as [G3 G4], G3' as [G3' G4'].
      assert (S1 : s (j + 1) = s' (j + 1)).
      { rewrite G3, G3'. assert (W : forall k, j + 1 - n + 1 <= k <= j + 1 -> f k = f' k) by (intros k Hk; destruct (Z.eq_dec k (j + 1)) as [->|N]; [exact F1|apply Q; lia]).
        unfold stoch_pos. rewrite (trough_ext f f' (j + 1 - n + 1) (j + 1) ltac:(lia) W), (peak_ext f f' (j + 1 - n + 1) (j + 1) ltac:(lia) W), F1. reflexivity. }
      split; [exact S1|]. rewrite G4, G4', S1. destruct (Q (j + 1 - 1) ltac:(lia)) as (_ & _ & -> & ->). destruct (Q (j + 1 - 2) ltac:(lia)) as (_ & _ & _ & ->). reflexivity. }
  destruct (E i ltac:(lia) i ltac:(lia) ltac:(lia)) as (_ & _ & _ & ->).
  apply (mesastoch_line m n y h' f' s' r' a b ltac:(lia) H'). intros j Hj. unfold y. destruct (j <? size) eqn:Ej; [apply Hl; lia|reflexivity].
Qed.

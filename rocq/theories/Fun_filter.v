(** What the recursive filters compute, in exact real arithmetic. *)
From Verif Require Export Fun_batch6 Fun_exact C_stream1 SpecR5.
From Coq Require Import Reals Lra.
Open Scope Z_scope.

Lemma at0_neg f i : i < 0 -> at0 f i = 0%R.
Proof. intros H. unfold at0. replace (i <? 0) with true by lia. reflexivity. Qed.
Lemma at0_pos f i : 0 <= i -> at0 f i = f i.
Proof. intros H. unfold at0. replace (i <? 0) with false by lia. reflexivity. Qed.

Section R.
Local Existing Instance RA.

(** One output, first written at bar [st]. *)
Lemma batch1 {S1} (I : Z -> S1 -> Prop) (F : Z -> R) st lp size s0 : 0 <= size -> 0 <= st -> I 0 s0 ->
  (forall i s, 0 <= i < size -> I i s -> wp (dispatch lp i s) (fun r => snd r = (if i <? st then [[]] else [[F i]]) /\ I (i + 1) (fst r))) ->
  @batch_loops RA _ 1 size lp s0 = Ok (OKAY, [tab st size F]).
Proof.
  intros Hs Ht H0 Hst. pose proof (@batch_tab RA _ I [(fun k => F (k + st))] st lp size s0) as B. cbn [length map] in B.
  rewrite B; [|lia|lia|exact H0|].
  - do 3 f_equal. unfold tab. rewrite Z.sub_0_r. apply map_ext. intros k. f_equal. lia.
  - intros i s Hi HI. rewrite Z.sub_add. apply Hst; assumption.
Qed.

Lemma ssmooth_fun size (x : list R) f : zlen x = size -> 0 <= size <= INT_MAX ->
  (forall i, 0 <= i < size -> ssmooth_at (zr x) f i) -> @ti_ssmooth RA size [x] [] = Ok (OKAY, [tab 0 size f]).
Proof.
  intros Hx Hs Hf. unfold ti_ssmooth, ssmooth_constants.
  apply (batch1 (fun i s => s = (at0 (zr x) (i - 1), at0 f (i - 1), at0 f (i - 2)))); [lia|lia| |].
  - rewrite !at0_neg by lia. reflexivity.
  - intros i s Hi ->. disp. rewrite !rdr by lia. cbn [bind wp fst snd]. replace (i <? 0) with false by lia.
    assert (E : f i = @fadd RA (@fadd RA (@fdiv RA (@fmul RA (@fsub RA (@fsub RA (@of_Z RA 1) smooth_b) (- smooth_a * smooth_a)%R) (zr x i + at0 (zr x) (i - 1))%R) (@of_Z RA 2)) (@fmul RA smooth_b (at0 f (i - 1)))) (- smooth_a * smooth_a * at0 f (i - 2))%R).
    { rewrite (Hf i Hi). unfold smooth_gain. toR. field. }
    split; [rewrite E; reflexivity|]. rewrite Z.add_simpl_r. replace (i + 1 - 2) with (i - 1) by lia. rewrite (at0_pos _ i), (at0_pos _ i) by lia.
    rewrite E. reflexivity.
Qed.

Lemma roof_fun size (x : list R) h f : zlen x = size -> 0 <= size <= INT_MAX ->
  (forall i, 0 <= i < size -> highpass_at (zr x) h i) -> (forall i, 0 <= i < size -> ssmooth_at h f i) ->
  @ti_roof RA size [x] [] = Ok (OKAY, [tab 0 size f]).
Proof.
  intros Hx Hs Hh Hf. unfold ti_roof, roof_constants.
  apply (batch1 (fun i s => s = (at0 (zr x) (i - 1), at0 (zr x) (i - 2), at0 h (i - 1), at0 h (i - 2), at0 f (i - 1), at0 f (i - 2)))); [lia|lia| |].
  - rewrite !at0_neg by lia. reflexivity.
  - intros i s Hi ->. disp. rewrite !rdr by lia. cbn [bind]. cbv zeta. cbn [wp fst snd]. replace (i <? 0) with false by lia.
    change (@fdiv RA (@fsub RA (@fadd RA _ _) _) _) with roof_alpha.
    lazymatch goal with |- context[@fadd RA (@fadd RA (@fdiv RA (@fmul RA _ (@fadd RA ?H _)) _) _) _] => assert (Eh : H = h i) end.
    { rewrite (Hh i Hi). toR. ring. }
    rewrite Eh.
    lazymatch goal with |- [[?g]] = _ /\ _ => assert (Ef : g = f i) end.
    { rewrite (Hf i Hi). unfold smooth_gain, smooth_b, smooth_a. toR. cbn [Rlibm]. change (1414 / IZR (10 ^ 3))%R with (1414 / 1000)%R. change (314159 / IZR (10 ^ 5))%R with (314159 / 100000)%R. field. }
    rewrite Ef. split; [reflexivity|]. rewrite !Z.add_simpl_r. replace (i + 1 - 2) with (i - 1) by lia. rewrite !(at0_pos _ i) by lia. reflexivity.
Qed.

Lemma lf_fun size (x : list R) g l0 l1 l2 l3 : zlen x = size -> 0 <= size <= INT_MAX -> (0 <= g)%R ->
  (forall i, 0 <= i < size -> laguerre0_at g (zr x) l0 i /\ laguerre_at g l0 l1 i /\ laguerre_at g l1 l2 i /\ laguerre_at g l2 l3 i) ->
  @ti_lf RA size [x] [g] = Ok (OKAY, [tab 0 size (fun i => (l0 i + 2 * l1 i + 2 * l2 i + l3 i) / 6)%R]).
Proof.
  intros Hx Hs Hg Hl. unfold ti_lf. replace (@flt RA g (@of_Z RA 0)) with false by (toR; destruct (Rltb_spec g 0); [lra|reflexivity]).
  apply (batch1 (fun i s => s = (at0 l0 (i - 1), at0 l1 (i - 1), at0 l2 (i - 1), at0 l3 (i - 1)))); [lia|lia| |].
  - rewrite !at0_neg by lia. reflexivity.
  - intros i s Hi ->. disp. rewrite !rdr by lia. cbn [bind]. cbv zeta. destruct (Hl i Hi) as (H0 & H1 & H2 & H3).
    replace (@fadd RA (@fmul RA (@fsub RA (@of_Z RA 1) g) (zr x i)) (@fmul RA g (at0 l0 (i - 1)))) with (l0 i) by (rewrite H0; toR; ring).
    replace (@fadd RA (@fadd RA (@fmul RA (@fopp RA g) (l0 i)) (at0 l0 (i - 1))) (@fmul RA g (at0 l1 (i - 1)))) with (l1 i) by (rewrite H1; toR; ring).
    replace (@fadd RA (@fadd RA (@fmul RA (@fopp RA g) (l1 i)) (at0 l1 (i - 1))) (@fmul RA g (at0 l2 (i - 1)))) with (l2 i) by (rewrite H2; toR; ring).
    replace (@fadd RA (@fadd RA (@fmul RA (@fopp RA g) (l2 i)) (at0 l2 (i - 1))) (@fmul RA g (at0 l3 (i - 1)))) with (l3 i) by (rewrite H3; toR; ring).
    cbn [wp fst snd]. replace (i <? 0) with false by lia. split; [reflexivity|]. rewrite !Z.add_simpl_r. rewrite !(at0_pos _ i) by lia. reflexivity.
Qed.

Lemma mgdyn_fun size (x : list R) N f : zlen x = size -> 0 <= size <= INT_MAX ->
  (forall i, 0 <= i < size -> mgdyn_at N (zr x) f i) -> (forall i, 1 <= i < size -> (0 < zr x i / f (i - 1)%Z)%R) ->
  @ti_mgdyn RA size [x] [N] = Ok (OKAY, [tab 0 size f]).
Proof.
  intros Hx Hs Hf Hp. unfold ti_mgdyn.
  apply (batch1 (fun i s => 0 < i -> s = Some (f (i - 1)))); [lia|lia|lia|].
  intros i s Hi Is. disp. replace (i <? 0) with false by lia. pose proof (Hf i Hi) as E. unfold mgdyn_at in E. rewrite !rdr by lia. cbn [bind].
  destruct (i <? 1) eqn:E1.
  - replace (i =? 0) with true in E by lia. cbn [wp fst snd]. rewrite <- E. split; [reflexivity|]. intros _. rewrite Z.add_simpl_r. reflexivity.
  - replace (i =? 0) with false in E by lia. rewrite (Is ltac:(lia)). cbn [val bind wp fst snd].
    assert (Ep : @fpow RA (@fdiv RA (zr x i) (f (i - 1))) (@of_Z RA 4) = ((zr x i / f (i - 1)%Z) ^ 4)%R).
    { toR. destruct (Req_EM_T 4 2); [lra|]. replace (Rpower (zr x i / f (i - 1)) 4) with (Rpower (zr x i / f (i - 1)) (INR 4)) by (f_equal; cbn; lra). rewrite Rpower_pow; [reflexivity|apply Hp; lia]. }
    rewrite Ep. lazymatch goal with |- [[?g]] = _ /\ _ => assert (Ef : g = f i) by (rewrite E; toR; reflexivity) end.
    rewrite Ef. split; [reflexivity|]. intros _. rewrite Z.add_simpl_r. reflexivity.
Qed.

Lemma rema_fun size (x : list R) p lam f : zlen x = size -> 0 <= size <= INT_MAX -> (1 <= p)%R -> (0 <= lam)%R ->
  (forall i, 0 <= i < size -> rema_at p lam (zr x) f i) -> @ti_rema RA size [x] [p; lam] = Ok (OKAY, [tab 0 size f]).
Proof.
  intros Hx Hs Hp Hl Hf. unfold ti_rema.
  replace (@flt RA p (@of_Z RA 1)) with false by (toR; destruct (Rltb_spec p 1); [lra|reflexivity]).
  replace (@flt RA lam (@of_Z RA 0)) with false by (toR; destruct (Rltb_spec lam 0); [lra|reflexivity]). cbv zeta.
  apply (batch1 (fun i s => (0 < i -> fst s = Some (f (i - 1))) /\ (1 < i -> snd s = Some (f (i - 2))))); [lia|lia|split; lia|].
  intros i [s1 s2] Hi [I1 I2]. disp. replace (i <? 0) with false by lia. pose proof (Hf i Hi) as E. unfold rema_at in E. cbv zeta in E. rewrite !rdr by lia. cbn [bind].
  cbn [fst snd] in I1, I2. destruct (i <? 1) eqn:E1; [|destruct (i <? 2) eqn:E2].
  - replace (i =? 0) with true in E by lia. cbn [wp fst snd]. rewrite <- E. split; [reflexivity|]. split; [|lia]. intros _. rewrite Z.add_simpl_r. reflexivity.
  - replace (i =? 0) with false in E by lia. replace (i =? 1) with true in E by lia. rewrite (I1 ltac:(lia)). cbn [val bind wp fst snd]. replace (i - 1) with 0 by lia.
    lazymatch goal with |- [[?g]] = _ /\ _ => assert (Ef : g = f i) by (rewrite E; toR; ring) end.
    rewrite Ef. split; [reflexivity|]. rewrite Z.add_simpl_r. replace (i + 1 - 2) with 0 by lia. split; reflexivity.
  - replace (i =? 0) with false in E by lia. replace (i =? 1) with false in E by lia. rewrite (I1 ltac:(lia)), (I2 ltac:(lia)). cbn [val bind wp fst snd].
    lazymatch goal with |- [[?g]] = _ /\ _ => assert (Ef : g = f i) by (rewrite E; toR; f_equal; ring) end.
    rewrite Ef. split; [reflexivity|]. rewrite Z.add_simpl_r. replace (i + 1 - 2) with (i - 1) by lia. split; reflexivity.
Qed.

(** *** Tables *)
Lemma micro_R l n : zlen l = 20 -> even40 n = true -> rd (@micro RA l) (Z.quot n 2 - 1) = Ok (entry l n).
Proof.
  intros Hl Hn. pose proof (even40_idx n Hn) as Hi. assert (0 < n) by (unfold even40 in Hn; lia). rewrite Z.quot_div_nonneg in * by lia.
  rewrite (@rd_zf RA) by (unfold micro; rewrite zlen_map; lia). f_equal. unfold zf, zn, micro, entry. rewrite (nth_indep _ _ ((fun m => @lit RA m 6) 0%Z)) by (rewrite map_length; unfold zlen in Hl; lia).
  etransitivity; [exact (map_nth (fun m => @lit RA m 6) l 0%Z _)|]. reflexivity.
Qed.

Lemma ceil_R (x : R) s : (IZR s - 1 < x <= IZR s)%R -> @libm RA Lceil x = IZR s.
Proof.
  intros H. toR. cbn [Rlibm]. assert (Int_part (- x) = - s).
  { pose proof (Int_part_bounds (- x)) as [H1 H2]. assert (IZR (Int_part (- x)) < IZR (- s + 1))%R as A1 by (rewrite plus_IZR, opp_IZR; lra).
    assert (IZR (- s - 1) < IZR (Int_part (- x)))%R as A2 by (rewrite minus_IZR, opp_IZR; lra). apply lt_IZR in A1, A2. lia. }
  rewrite H0, opp_IZR. ring.
Qed.
Lemma even40_R o n : @to_int RA o = Some n -> even40 n = true -> (1 <= o < 41)%R.
Proof.
  intros Ho He. assert (1 <= n <= 40) by (unfold even40 in He; lia). cbn [to_int RA] in Ho. unfold Rto_int in Ho. destruct (_ && _); [|discriminate]. injection Ho as Ho.
  pose proof (Rtrunc_pos o ltac:(lia)) as [E1 E2]. split; [exact E2|]. pose proof (Int_part_bounds o) as [_ H2]. rewrite <- E1, Ho in H2.
  assert (IZR n <= 40)%R by (apply IZR_le; lia). lra.
Qed.

Lemma bf_start_R k o n s : 2 <= k <= 3 -> @to_int RA o = Some n -> even40 n = true -> (IZR s - 1 < IZR k * o / (31415 / 10000 * (31415 / 10000)) <= IZR s)%R ->
  cast (@libm RA Lceil (@fdiv RA (@fmul RA (@of_Z RA k) o) (@fmul RA (@lit RA 31415 4) (@lit RA 31415 4)))) = Ok s /\ 0 <= s.
Proof.
  intros Hk Ho He Hs. pose proof (even40_R o n Ho He) as Hb. set (y := (IZR k * o / (31415 / 10000 * (31415 / 10000)))%R) in *.
  change (@fdiv RA _ _) with y. rewrite (ceil_R y s Hs). assert (2 <= IZR k <= 3)%R by (split; apply IZR_le; lia).
  assert (0 < y)%R. { unfold y. apply Rdiv_lt_0_compat; nra. }
  assert (y < 1000)%R. { unfold y. apply Rmult_lt_reg_r with (31415 / 10000 * (31415 / 10000))%R; [lra|]. unfold Rdiv at 1. rewrite Rmult_assoc, Rinv_l by lra. nra. }
  assert (0 <= s) by (apply le_IZR; lra). assert (s < 1001) by (apply lt_IZR; lra).
  split; [|assumption]. unfold cast. replace (@to_int RA (IZR s)) with (Some s) by (symmetry; apply (@to_int_of_Z RA RA_laws); zl). reflexivity.
Qed.

Lemma bf2_fun size (x : list R) o n s f : zlen x = size -> 0 <= size <= INT_MAX -> @to_int RA o = Some n -> even40 n = true ->
  (IZR s - 1 < 2 * o / (31415 / 10000 * (31415 / 10000)) <= IZR s)%R -> (forall i, 0 <= i < size -> bf2_at n (zr x) f i) ->
  @ti_bf2 RA size [x] [o] = Ok (OKAY, [tab s size f]).
Proof.
  intros Hx Hs Ho He Hst Hf. destruct (bf_start_R 2 o n s ltac:(lia) Ho He Hst) as [Es Hs0]. unfold ti_bf2. rewrite (bf_period_ok o n Ho), He. cbn [bind].
  unfold bf2_constants, bf2_B0, bf2_B1, bf2_B2, bf2_A1, bf2_A2. rewrite !micro_R by (reflexivity || assumption). cbn [bind]. unfold ti_bf2_start. rewrite Es. cbn [bind].
  fold bf2_B0_tbl bf2_B1_tbl bf2_B2_tbl bf2_A1_tbl bf2_A2_tbl. cbv zeta.
  apply (batch1 (fun i s => s = (at0 f (i - 1), at0 f (i - 2), at0 (zr x) (i - 1), at0 (zr x) (i - 2)))); [lia|lia| |].
  - rewrite !at0_neg by lia. reflexivity.
  - intros i st Hi ->. disp. replace (i <? 0 - - s) with (i <? s) by lia. rewrite !rdr by lia. cbn [bind]. pose proof (Hf i Hi) as E. unfold bf2_at in E.
    assert (En : (at0 f (i + 1 - 1), at0 f (i + 1 - 2), at0 (zr x) (i + 1 - 1), at0 (zr x) (i + 1 - 2)) = (f i, at0 f (i - 1), zr x i, at0 (zr x) (i - 1))).
    { rewrite !Z.add_simpl_r. replace (i + 1 - 2) with (i - 1) by lia. rewrite !(at0_pos _ i) by lia. reflexivity. }
    rewrite En. destruct (i <? s); cbn [wp fst snd]; rewrite E; split; reflexivity.
Qed.
Lemma bf3_fun size (x : list R) o n s f : zlen x = size -> 0 <= size <= INT_MAX -> @to_int RA o = Some n -> even40 n = true ->
  (IZR s - 1 < 3 * o / (31415 / 10000 * (31415 / 10000)) <= IZR s)%R -> (forall i, 0 <= i < size -> bf3_at n (zr x) f i) ->
  @ti_bf3 RA size [x] [o] = Ok (OKAY, [tab s size f]).
Proof.
  intros Hx Hs Ho He Hst Hf. destruct (bf_start_R 3 o n s ltac:(lia) Ho He Hst) as [Es Hs0]. unfold ti_bf3. rewrite (bf_period_ok o n Ho), He. cbn [bind].
  unfold bf3_constants, bf3_B0, bf3_B1, bf3_B2, bf3_B3, bf3_A1, bf3_A2, bf3_A3. rewrite !micro_R by (reflexivity || assumption). cbn [bind]. unfold ti_bf3_start. rewrite Es. cbn [bind].
  fold bf3_B0_tbl bf3_B1_tbl bf3_B2_tbl bf3_B3_tbl bf3_A1_tbl bf3_A2_tbl bf3_A3_tbl. cbv zeta.
  apply (batch1 (fun i s => s = (at0 f (i - 1), at0 f (i - 2), at0 f (i - 3), at0 (zr x) (i - 1), at0 (zr x) (i - 2), at0 (zr x) (i - 3)))); [lia|lia| |].
  - rewrite !at0_neg by lia. reflexivity.
  - intros i st Hi ->. disp. replace (i <? 0 - - s) with (i <? s) by lia. rewrite !rdr by lia. cbn [bind]. pose proof (Hf i Hi) as E. unfold bf3_at in E.
    assert (En : (at0 f (i + 1 - 1), at0 f (i + 1 - 2), at0 f (i + 1 - 3), at0 (zr x) (i + 1 - 1), at0 (zr x) (i + 1 - 2), at0 (zr x) (i + 1 - 3)) = (f i, at0 f (i - 1), at0 f (i - 2), zr x i, at0 (zr x) (i - 1), at0 (zr x) (i - 2))).
    { rewrite !Z.add_simpl_r. replace (i + 1 - 2) with (i - 1) by lia. replace (i + 1 - 3) with (i - 2) by lia. rewrite !(at0_pos _ i) by lia. reflexivity. }
    rewrite En. destruct (i <? s); cbn [wp fst snd]; rewrite E; split; reflexivity.
Qed.

Lemma gf1_fun size (x : list R) o n f : zlen x = size -> 0 <= size <= INT_MAX -> @to_int RA o = Some n -> even40 n = true ->
  (forall i, 0 <= i < size -> gf1_at n (zr x) f i) -> @ti_gf1 RA size [x] [o] = Ok (OKAY, [tab 0 size f]).
Proof.
  intros Hx Hs Ho He Hf. unfold ti_gf1, cast. rewrite Ho. cbn [bind]. rewrite gf_reject_ok, He. cbn [negb].
  unfold gf1_B0, gf1_A1. rewrite !micro_R by (reflexivity || assumption). cbn [bind]. fold gf1_B0_tbl gf1_A1_tbl.
  apply (batch1 (fun i s => s = at0 f (i - 1))); [lia|lia| |].
  - rewrite !at0_neg by lia. reflexivity.
  - intros i st Hi ->. disp. replace (i <? 0) with false by lia. rewrite !rdr by lia. cbn [bind wp fst snd]. rewrite Z.add_simpl_r, (at0_pos f i) by lia.
    pose proof (Hf i Hi) as E. unfold gf1_at in E. rewrite E. split; reflexivity.
Qed.

(** A ring holding the last outputs: offset k is the output of k bars ago. *)
Definition holds (f : Z -> R) (M i : Z) (r : ring) : Prop := exists h, ring_ok r M h /\ forall k, 1 <= k < M -> h k = at0 f (i - k).
Lemma holds_new f M : 0 < M -> exists r, @ring_new RA M = Ok r /\ holds f M 0 r.
Proof.
  intros H. destruct (@ring_new_ok RA M H) as (r & E & Hr). exists r. split; [exact E|]. eexists. split; [exact Hr|]. intros k Hk. cbn beta. rewrite at0_neg by lia. reflexivity.
Qed.
Lemma holds_get f M i r k : holds f M i r -> 1 <= k < M -> @ring_get RA r k = Ok (at0 f (i - k)).
Proof. intros (h & Hr & E) Hk. rewrite (ring_get_ok r M h k Hr) by lia. rewrite E by lia. reflexivity. Qed.
Lemma holds_set f M i r v : 1 < M -> 0 <= i -> holds f M i r -> v = f i ->
  exists r', @ring_set RA r v = Ok r' /\ @ring_cur RA r' = Ok (f i) /\ holds f M (i + 1) (ring_step r').
Proof.
  intros HM Hi (h & Hr & E) ->. destruct (ring_set_ok r M h (f i) Hr) as (r' & E1 & Hr'). exists r'. split; [exact E1|]. split.
  - rewrite (ring_cur_ok r' M _ Hr'). reflexivity.
  - eexists. split; [apply ring_step_ok; exact Hr'|]. intros k Hk. cbn beta. replace (k =? 0) with false by lia. destruct (k - 1 =? 0) eqn:Ek.
    + replace (i + 1 - k) with i by lia. rewrite at0_pos by lia. reflexivity.
    + rewrite E by lia. f_equal. lia.
Qed.
Ltac ringput Hh := lazymatch goal with |- context[@ring_set RA ?r ?v] =>
  let r' := fresh "r'" in let E1 := fresh in let E2 := fresh in let Hn := fresh "Hn" in
  lazymatch type of Hh with holds ?f ?M ?i _ =>
  destruct (holds_set f M i r v ltac:(lia) ltac:(lia) Hh) as (r' & E1 & E2 & Hn); [|rewrite E1; cbn [bind]; rewrite E2; cbn [bind wp fst snd]; split; [reflexivity|exact Hn]] end end.

Lemma gf2_fun size (x : list R) o n f : zlen x = size -> 0 <= size <= INT_MAX -> @to_int RA o = Some n -> even40 n = true ->
  (forall i, 0 <= i < size -> gf2_at n (zr x) f i) -> @ti_gf2 RA size [x] [o] = Ok (OKAY, [tab 0 size f]).
Proof.
  intros Hx Hs Ho He Hf. unfold ti_gf2, cast. rewrite Ho. cbn [bind]. rewrite gf_reject_ok, He. cbn [negb].
  destruct (holds_new f 3 ltac:(lia)) as (r0 & E0 & H0). rewrite E0. cbn [bind].
  unfold gf2_constants, gf2_B0, gf2_A1, gf2_A2. rewrite !micro_R by (reflexivity || assumption). cbn [bind]. fold gf2_B0_tbl gf2_A1_tbl gf2_A2_tbl.
  apply (batch1 (holds f 3)); [lia|lia|exact H0|].
  intros i r Hi Hr. disp. replace (i <? 0) with false by lia. rewrite !rdr by lia. cbn [bind]. rewrite !(holds_get f 3 i r) by (assumption || lia). cbn [bind].
  ringput Hr. pose proof (Hf i Hi) as E. unfold gf2_at in E. rewrite E. unfold Rdiv. toR. unfold Rdiv. rewrite Rmult_1_l. reflexivity.
Qed.

Lemma gf3_nonzero n : even40 n = true -> (entry gf3_B0_tbl n <> 0)%R.
Proof.
  intros He. pose proof (even40_idx n He) as Hi. assert (0 < n) by (unfold even40 in He; lia). rewrite Z.quot_div_nonneg in Hi by lia. unfold entry.
  assert (Forall (fun z => z <> 0) gf3_B0_tbl) as F by (repeat constructor; discriminate). rewrite Forall_forall in F.
  specialize (F (nth (Z.to_nat (n / 2 - 1)) gf3_B0_tbl 0) ltac:(apply nth_In; cbn [length gf3_B0_tbl]; lia)).
  intros E. apply F. apply eq_IZR. lra.
Qed.
Lemma gf3_fun size (x : list R) o n f : zlen x = size -> 0 <= size <= INT_MAX -> @to_int RA o = Some n -> even40 n = true ->
  (forall i, 0 <= i < size -> gf3_at (zr x) f i) -> @ti_gf3 RA size [x] [o] = Ok (OKAY, [tab 0 size f]).
Proof.
  intros Hx Hs Ho He Hf. unfold ti_gf3, cast. rewrite Ho. cbn [bind]. rewrite gf_reject_ok, He. cbn [negb].
  destruct (holds_new f 4 ltac:(lia)) as (r0 & E0 & H0). rewrite E0. cbn [bind].
  unfold gf3_constants, gf3_B0. rewrite !micro_R by (reflexivity || assumption). cbn [bind]. fold gf3_B0_tbl.
  apply (batch1 (holds f 4)); [lia|lia|exact H0|].
  intros i r Hi Hr. disp. replace (i <? 0) with false by lia. rewrite !rdr by lia. cbn [bind]. rewrite !(holds_get f 4 i r) by (assumption || lia). cbn [bind].
  ringput Hr. pose proof (Hf i Hi) as E. unfold gf3_at in E. rewrite E. toR. pose proof (gf3_nonzero n He). field. lra.
Qed.

Lemma gf4_fun size (x : list R) o n f : zlen x = size -> 5 <= size <= INT_MAX -> @to_int RA o = Some n -> even40 n = true ->
  (forall i, 0 <= i < size -> gf4_at n (zr x) f i) -> @ti_gf4 RA size [x] [o] = Ok (OKAY, [tab 0 size f]).
Proof.
  intros Hx Hs Ho He Hf. unfold ti_gf4, cast. rewrite Ho. cbn [bind]. rewrite gf_reject_ok, He. cbn [negb].
  destruct (holds_new f 5 ltac:(lia)) as (r0 & E0 & H0). rewrite E0. cbn [bind].
  unfold gf4_constants, gf4_B0, gf4_A1, gf4_A2, gf4_A3, gf4_A4. rewrite !micro_R by (reflexivity || assumption). cbn [bind]. fold gf4_B0_tbl gf4_A1_tbl gf4_A2_tbl gf4_A3_tbl gf4_A4_tbl.
  lazymatch goal with |- bind (emits 0 5 ?b1 _) (fun fo => bind (emits 5 size ?b2 fo) _) = _ =>
    transitivity (@batch_loops RA _ 1 size {| Stream.bounded := [(5, b1)]; final := b2 |} r0) end.
  { unfold batch_loops, run_loops. cbn [Stream.bounded final phases]. replace (Z.max 0 (Z.min 5 size)) with 5 by lia. rewrite bind_assoc. reflexivity. }
  apply (batch1 (holds f 5)); [lia|lia|exact H0|].
  intros i r Hi Hr. disp. replace (i <? 0) with false by lia. pose proof (Hf i Hi) as E. unfold gf4_at in E. destruct (i <? 5) eqn:E5; rewrite !rdr by lia; cbn [bind].
  - ringput Hr. symmetry. exact E.
  - rewrite !(holds_get f 5 i r) by (assumption || lia). cbn [bind]. rewrite !at0_pos by lia. ringput Hr. rewrite E. toR. unfold Rdiv. rewrite Rmult_1_l. reflexivity.
Qed.
End R.

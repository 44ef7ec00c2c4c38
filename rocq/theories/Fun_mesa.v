(** What mesastoch and its reference implementation compute, in any arithmetic. *)
From Verif Require Export SpecM M_ref2 C_stream7 Fun_exact4.
From Verif Require C_vi.
From Coq Require Import Lia ZifyBool.
Open Scope Z_scope.

Section F.
Context {A : Arith} {IL : IntLaws A} (good : T -> Prop) (AL : AntiLaws A good).
Let Lmax := max_laws good AL.
Let Lmin := min_laws good AL.
Let G0 := anti_zero _ _ AL.

Definition bar_of (k : T * T * T * T) := let '(alpha1, c1, c2, c3) := k in mesa_bar alpha1 c1 c2 c3.

Section Q.
Context (k : T * T * T * T) (st : T -> T -> T -> T) (n : Z) (x : list T) (q : mesa).
Hypothesis Hq : forall i, i < zlen x -> bar_of k st n x q i.
Lemma bar_zero i : i < zlen x -> i < 2 -> q_hp q i = #0 /\ q_filt q i = #0 /\ q_stoc q i = #0 /\ q_res q i = #0.
Proof. intros H1 H2. pose proof (Hq i H1) as H. destruct k as [[[a b] c] d]. unfold bar_of, mesa_bar in H. replace (i <? 2) with true in H by lia. exact H. Qed.
Lemma bar_filt i : 2 <= i < zlen x -> q_hp q i = mesa_hp k (zf x i) (zf x (i - 1)) (zf x (i - 2)) (q_hp q (i - 1)) (q_hp q (i - 2)) /\
  q_filt q i = mesa_super k (q_hp q i) (q_hp q (i - 1)) (q_filt q (i - 1)) (q_filt q (i - 2)).
Proof. intros H1. pose proof (Hq i ltac:(lia)) as H. destruct k as [[[a b] c] d]. unfold bar_of, mesa_bar in H. replace (i <? 2) with false in H by lia. cbv zeta in H. destruct H as (H & H' & _). split; [exact H|exact H']. Qed.
Lemma bar_early i : i < zlen x -> 1 <= n -> i < n + 2 -> q_stoc q i = #0 /\ q_res q i = #0.
Proof.
  intros H1 Hn H2. pose proof (Hq i H1) as H. destruct k as [[[a b] c] d]. unfold bar_of, mesa_bar in H. destruct (i <? 2) eqn:E; [tauto|]. cbv zeta in H.
  replace (i <? n + 2) with true in H by lia. tauto.
Qed.
Lemma bar_late i : 1 <= n -> n + 2 <= i < zlen x -> (exists hi lo, largest (q_filt q) (i - n + 1) i hi /\ smallest (q_filt q) (i - n + 1) i lo /\ q_stoc q i = st (q_filt q i) hi lo) /\
  q_res q i = mesa_super k (q_stoc q i) (q_stoc q (i - 1)) (q_res q (i - 1)) (q_res q (i - 2)).
Proof.
  intros Hn H1. pose proof (Hq i ltac:(lia)) as H. destruct k as [[[a b] c] d]. unfold bar_of, mesa_bar in H. replace (i <? 2) with false in H by lia. cbv zeta in H.
  replace (i <? n + 2) with false in H by lia. tauto.
Qed.
Lemma mesa_match : forall i, i < zlen x -> zp (mesa_hps k x) (i - 2) = q_hp q i /\ zp (mesa_filts k x) (i - 2) = q_filt q i.
Proof.
  intros i. destruct (Z.lt_ge_cases i 2) as [L|L].
  - intros Hi. destruct (bar_zero i Hi L) as (-> & -> & _). rewrite !zp_neg by lia. auto.
  - assert (P : i < zlen x -> (zp (mesa_hps k x) (i - 2) = q_hp q i /\ zp (mesa_filts k x) (i - 2) = q_filt q i) /\ (zp (mesa_hps k x) (i - 3) = q_hp q (i - 1) /\ zp (mesa_filts k x) (i - 3) = q_filt q (i - 1))).
    2: { intros Hi. apply P, Hi. }
    apply (zind (fun i => i < zlen x -> (zp (mesa_hps k x) (i - 2) = q_hp q i /\ zp (mesa_filts k x) (i - 2) = q_filt q i) /\ (zp (mesa_hps k x) (i - 3) = q_hp q (i - 1) /\ zp (mesa_filts k x) (i - 3) = q_filt q (i - 1))) 1 i); [lia| |].
    + intros H1. destruct (bar_zero 1 H1 ltac:(lia)) as (-> & -> & _), (bar_zero 0 ltac:(lia) ltac:(lia)) as (Z1 & Z2 & _). change (1 - 1) with 0. rewrite Z1, Z2, !zp_neg by lia. auto.
    + intros m Hm IH H. destruct (IH ltac:(lia)) as [[E1 E2] [E3 E4]].
      destruct (mesa_rec good k x (m + 1) ltac:(lia)) as [R1 R2], (bar_filt (m + 1) ltac:(lia)) as [B1 B2].
      replace (m + 1 - 1) with m in * by lia. replace (m + 1 - 2) with (m - 1) in * by lia. replace (m + 1 - 3) with (m - 2) in * by lia. replace (m + 1 - 4) with (m - 3) in * by lia.
      assert (P1 : zp (mesa_hps k x) (m - 1) = q_hp q (m + 1)) by (rewrite R1, B1, E1, E3; reflexivity).
      split; [|auto]. split; [exact P1|]. rewrite R2, B2, P1, E1, E2, E4. reflexivity.
Qed.
Lemma match_filt i : 0 <= i -> i + 2 < zlen x -> zf (mesa_filts k x) i = q_filt q (i + 2).
Proof. intros H0 H. destruct (mesa_match (i + 2) H) as [_ E]. replace (i + 2 - 2) with i in E by lia. rewrite zp_pos in E by lia. exact E. Qed.
Hypothesis G : forall i, 2 <= i < zlen x -> good (q_filt q i).
Lemma filts_good j : 2 <= zlen x -> 0 <= j < zlen (mesa_filts k x) -> good (zf (mesa_filts k x) j).
Proof. intros Hl H. rewrite mesa_filts_len in H by lia. rewrite match_filt by lia. apply G. lia. Qed.
(** Any value found as an extreme is the one of the equation. *)
Lemma ext_largest i s v : 1 <= n -> n + 2 <= i < zlen x -> is_ext lessf (zf (mesa_filts k x)) (i - 2 - n + 1) (i - 2) 2 s -> largest (q_filt q) (i - n + 1) i v -> fst s = v.
Proof.
  intros Hn Hi (b & _ & Hb & E & D) ((b' & Hb' & ->) & M). rewrite E in *. rewrite match_filt in * by lia.
  apply (el_anti _ _ _ Lmax); [apply G; lia|apply G; lia| |].
  - specialize (D (b' - 2) ltac:(lia)). rewrite match_filt in D by lia. rewrite Z.sub_add in D. exact D.
  - specialize (M (b + 2) ltac:(lia)). unfold lessf. rewrite (ord_lt_le _ _ (anti_ord _ _ AL)) by (apply G; lia). rewrite M. reflexivity.
Qed.
Lemma ext_smallest i s v : 1 <= n -> n + 2 <= i < zlen x -> is_ext moref (zf (mesa_filts k x)) (i - 2 - n + 1) (i - 2) 2 s -> smallest (q_filt q) (i - n + 1) i v -> fst s = v.
Proof.
  intros Hn Hi (b & _ & Hb & E & D) ((b' & Hb' & ->) & M). rewrite E in *. rewrite match_filt in * by lia.
  apply (el_anti _ _ _ Lmin); [apply G; lia|apply G; lia| |].
  - specialize (D (b' - 2) ltac:(lia)). rewrite match_filt in D by lia. rewrite Z.sub_add in D. exact D.
  - specialize (M (b + 2) ltac:(lia)). unfold moref. rewrite (ord_lt_le _ _ (anti_ord _ _ AL)) by (apply G; lia). rewrite M. reflexivity.
Qed.
End Q.

Lemma mesastoch_fun size x o0 o1 n mcc q : InfLaw A good -> to_int o0 = Some n -> to_int o1 = Some mcc -> zlen x = size -> 0 <= size -> 3 <= n -> n + 2 <= INT_MAX -> 1 <= mcc ->
  (forall i, i < size -> bar_of (mesa_consts mcc) stoc_tested n x q i) -> (forall i, 2 <= i < size -> good (q_filt q i)) ->
  ti_mesastoch size [x] [o0; o1] = Ok (OKAY, [tab (n + 2) size (q_res q)]).
Proof.
  intros IF Ho0 Ho1 Hx Hs Hn Hn' Hc Hq G. subst size. unfold ti_mesastoch, ti_mesastoch_start, cast. rewrite Ho0, Ho1. cbn [bind].
  replace (n <? 1) with false by lia. replace (mcc <? 1) with false by lia. rewrite ck_ok by zl. cbn [bind].
  destruct (ring_new_ok n ltac:(lia)) as (rf & -> & Hrf). destruct (ring_new_ok 3 ltac:(lia)) as (r3 & -> & Hr3). cbn [bind].
  set (k := mesa_consts mcc) in *. set (X := mesa_filts k x).
  pose proof (fun j H => filts_good k stoc_tested n x q Hq G j H) as GX. fold X in GX.
  assert (Zr : forall j, j < zlen x -> j < n + 2 -> q_stoc q j = #0 /\ q_res q j = #0) by (intros; apply (bar_early k stoc_tested n x q Hq); lia).
  etransitivity; [apply (batch_tab (fun i '(hi, lo, filt, HP, stoc, result) =>
    (i <= 2 -> filt = rf /\ HP = r3 /\ hi = (.- finf, None) /\ lo = (finf, None)) /\
    (2 <= i -> hist filt n (zp X) (i - 2) /\ hist HP 3 (zp (mesa_hps k x)) (i - 2)) /\
    (3 <= i -> exists h l, trk_opt hi h /\ trk_opt lo l /\ is_ext lessf (zf X) (Z.max 0 (i - 2 - n)) (i - 3) 2 h /\ is_ext moref (zf X) (Z.max 0 (i - 2 - n)) (i - 3) 2 l) /\
    (i <= n + 2 -> stoc = ring2_new /\ result = r3) /\
    (n + 2 < i -> stoc = {| ra1 := q_stoc q (i - 2); ra2 := q_stoc q (i - 1) |} /\ hist result 3 (q_res q) i))
    [(fun j => q_res q (j + (n + 2)))] (n + 2)); [lia|lia| |]|].
  - split; [auto|]. split; [lia|]. split; [lia|]. split; [auto|lia].
  - intros i [[[[[hi lo] filt] HP] stoc] result] Hi (I1 & I2 & I3 & I4 & I5). disp. destruct (i <? 2) eqn:Ei2.
    { destruct (I1 ltac:(lia)) as (-> & -> & -> & ->). destruct (I4 ltac:(lia)) as (-> & ->). unfold skip. cbn [wp fst snd map]. replace (i <? n + 2) with true by lia. split; [reflexivity|].
      split; [auto|]. split; [|split; [lia|split; [auto|lia]]]. intros _. split; (apply hist_of_ok'; [eassumption|lia|intros; apply zp_neg; lia]). }
    destruct (I2 ltac:(lia)) as [Hf Hh].
    destruct (mesa_filter_ok good k x i HP filt n ltac:(lia) ltac:(lia) Hh Hf) as (HP' & filt' & EF & Fh & Ff). fold X in Ff.
    assert (Hm : zlen X = zlen x - 2) by (apply mesa_filts_len; lia).
    assert (Ef : ring_cur filt' = Ok (zf X (i - 2))) by (rewrite (full_cur _ _ _ _ Ff), zp_pos by lia; reflexivity).
    assert (N2 : hist (ring_step filt') n (zp X) (i + 1 - 2) /\ hist (ring_step HP') 3 (zp (mesa_hps k x)) (i + 1 - 2)) by (replace (i + 1 - 2) with (i - 2 + 1) by lia; split; apply hist_step; assumption).
    rewrite !rd_zf by lia. cbn [bind]. rewrite EF. cbn [bind]. rewrite Ef. cbn [bind].
    destruct (i <? n + 2) eqn:Ein.
    + cbn [wp fst snd map]. split; [reflexivity|]. split; [lia|]. split; [auto|]. split; [|split; [intros; apply I4; lia|lia]].
      intros _. replace (Z.max 0 (i + 1 - 2 - n)) with 0 by lia. replace (i + 1 - 3) with (i - 2) by lia.
      destruct (Z.eq_dec i 2) as [->|N].
      * destruct (I1 ltac:(lia)) as (_ & _ & -> & ->). change (2 - 2) with 0. unfold mesa_push. cbn [fst].
        destruct (IF (zf X 0)) as [J1 J2]; [apply GX; lia|].
        change (le_f (.- finf) (zf X 0)) with (.- finf .<= zf X 0). change (ge_f finf (zf X 0)) with (zf X 0 .<= finf). rewrite J1, J2.
        exists (zf X 0, 2), (zf X 0, 2). split; [split; reflexivity|]. split; [split; reflexivity|].
        split; [apply (ext_one good _ _ Lmax)|apply (ext_one good _ _ Lmin)]; (apply GX; lia) || lia.
      * destruct (I3 ltac:(lia)) as ([h kh] & [l kl] & [P1 P2] & [P3 P4] & Q1 & Q3).
        destruct hi as [pv pk], lo as [qv qk]. cbn [fst snd] in *. subst. rewrite !mesa_push_eq.
        exists (trk_push le_f (zf X (i - 2)) i (h, kh)), (trk_push ge_f (zf X (i - 2)) i (l, kl)).
        split; [split; reflexivity|]. split; [split; reflexivity|].
        replace (Z.max 0 (i - 2 - n)) with 0 in * by lia. replace (i - 3) with (i - 2 - 1) in * by lia.
        split; [apply (push_ext good _ _ Lmax)|apply (push_ext good _ _ Lmin)]; try lia; try assumption; intros; apply GX; lia.
    + destruct (I3 ltac:(lia)) as ([h kh] & [l kl] & [P1 P2] & [P3 P4] & Q1 & Q3).
      destruct hi as [pv pk], lo as [qv qk]. cbn [fst snd] in *. subst pv pk qv qk.
      replace (Z.max 0 (i - 2 - n)) with (i - 2 - n) in * by lia. replace (i - 3) with (i - 2 - 1) in * by lia.
      assert (GG : forall j, 0 <= j <= i - 2 -> good (zf X j)) by (intros; apply GX; lia).
      assert (GA : forall j, 0 <= j < zlen X -> good (zf X j)) by (intros; apply GX; lia).
      destruct (mesa_next_ext good _ _ Lmax (zf X) n 2 (i - 2) i (rescan_phys lessf filt' i) (h, kh)) as (h1 & Eh1 & Xh1); [lia|lia|exact GG|exact Q1|apply (rescan_phys_ok good _ _ Lmax X filt' n); [exact G0|exact GA|exact Ff|lia|lia|lia]|].
      destruct (mesa_next_ext good _ _ Lmin (zf X) n 2 (i - 2) i (rescan_phys moref filt' i) (l, kl)) as (l1 & El1 & Xl1); [lia|lia|exact GG|exact Q3|apply (rescan_phys_ok good _ _ Lmin X filt' n); [exact G0|exact GA|exact Ff|lia|lia|lia]|].
      rewrite (mesa_next_opt_eq _ _ _ _ _ _ _ _ Eh1). cbn [bind]. rewrite (mesa_next_opt_eq _ _ _ _ _ _ _ _ El1). cbn [bind fst].
      destruct (bar_late k stoc_tested n x q Hq i ltac:(lia) ltac:(lia)) as ((hv & lv & Bh & Bl & Bs) & Br).
      pose proof (ext_largest k stoc_tested n x q Hq G i h1 hv ltac:(lia) ltac:(lia) Xh1 Bh) as Vh. pose proof (ext_smallest k stoc_tested n x q Hq G i l1 lv ltac:(lia) ltac:(lia) Xl1 Bl) as Vl. rewrite Vh, Vl.
      assert (HS : stoc = {| ra1 := q_stoc q (i - 2); ra2 := q_stoc q (i - 1) |} /\ hist result 3 (q_res q) i).
      { destruct (Z.eq_dec i (n + 2)) as [->|N]; [|apply I5; lia]. destruct (I4 ltac:(lia)) as [-> ->]. split.
        - unfold ring2_new. rewrite (proj1 (Zr (n + 2 - 2) ltac:(lia) ltac:(lia))), (proj1 (Zr (n + 2 - 1) ltac:(lia) ltac:(lia))). reflexivity.
        - eexists. split; [exact Hr3|]. intros j Hj. cbn beta. rewrite (proj2 (Zr (n + 2 - j) ltac:(lia) ltac:(lia))). reflexivity. }
      destruct HS as [-> HR]. unfold mesa_out. change (if truth (zf X (i - 2) .- lv) then (zf X (i - 2) .- lv) ./ (hv .- lv) else #0) with (stoc_tested (zf X (i - 2)) hv lv).
      replace (zf X (i - 2)) with (q_filt q i) by (unfold X; rewrite (match_filt k stoc_tested n x q Hq) by lia; f_equal; lia). rewrite <- Bs.
      rewrite ring2_get1. unfold ring2_set. cbn [ra1 ra2 bind ring2_cur]. rewrite !(hist_get _ _ _ _ _ HR) by lia. cbn [bind].
      destruct (hist_set _ _ _ _ _ HR (eq_sym Br)) as (r' & Er & Fr). rewrite Er. cbn [bind]. rewrite (full_cur _ _ _ _ Fr). cbn [bind wp fst snd map].
      split; [repeat f_equal; lia|]. split; [lia|]. split; [auto|]. split; [|split; [lia|]].
      * intros _. exists h1, l1. split; [split; [symmetry; exact Vh|reflexivity]|]. split; [split; [symmetry; exact Vl|reflexivity]|].
        replace (Z.max 0 (i + 1 - 2 - n)) with (i - 2 - n + 1) by lia. replace (i + 1 - 3) with (i - 2) by lia. auto.
      * intros _. split; [unfold ring2_step; cbn [ra1 ra2]; replace (i + 1 - 2) with (i - 1) by lia; replace (i + 1 - 1) with i by lia; reflexivity|]. apply hist_step. exact Fr.
  - cbn [map]. unfold tab. rewrite Z.sub_0_r. do 3 f_equal. apply map_ext. intros j. f_equal. lia.
Qed.
(** ** The reference implementation *)
(** The last [m] values before bar [i], the latest first. *)
Definition dq (F : Z -> T) (i m : Z) : list T := tab 0 m (fun j => F (i - 1 - j)).
Lemma dq_shift F i m : 1 <= m -> deque_shift (dq F i m) = #0 :: dq F i (m - 1).
Proof. intros H. unfold deque_shift, dq. f_equal. replace m with (m - 1 + 1) at 1 by lia. rewrite tab_snoc by lia. apply removelast_last. Qed.
Lemma dq_cons F i m v : 1 <= m -> v = F i -> v :: dq F i (m - 1) = dq F (i + 1) m.
Proof.
  intros H ->. unfold dq. rewrite (C_vi.tab_cons 0 m) by lia. f_equal; [f_equal; lia|].
  unfold tab. replace (Z.to_nat (m - 1 - 0)) with (Z.to_nat (m - (0 + 1))) by lia. apply map_ext. intros j. f_equal. lia.
Qed.
Lemma dq_rd F i m j : 0 <= j < m -> rd (dq F i m) j = Ok (F (i - 1 - j)).
Proof. intros H. unfold dq. rewrite C_vi.rd_tab by lia. reflexivity. Qed.
Lemma dq_rd1 F i m j y : 1 <= j < m -> rd (y :: dq F i (m - 1)) j = Ok (F (i - j)).
Proof.
  intros H. assert (E : y :: dq F i (m - 1) = dq (fun a => if a =? i then y else F a) (i + 1) m).
  { rewrite <- dq_cons with (v := y) by (try rewrite Z.eqb_refl; reflexivity || lia). f_equal. unfold dq. apply tab_ext. intros a Ha. replace (i - 1 - a =? i) with false by lia. reflexivity. }
  rewrite E, dq_rd by lia. replace (i + 1 - 1 - j =? i) with false by lia. do 2 f_equal. lia.
Qed.
Lemma dq_upd F i m y v : upd (y :: dq F i m) 0 v = Ok (v :: dq F i m).
Proof. unfold upd. replace ((0 <=? 0) && (0 <? zlen (y :: dq F i m))) with true by (rewrite zlen_cons; unfold zlen; lia). reflexivity. Qed.
Lemma dq_rd0 F i m v : rd (v :: dq F i m) 0 = Ok v.
Proof. unfold rd. replace ((0 <=? 0) && (0 <? zlen (v :: dq F i m))) with true by (rewrite zlen_cons; unfold zlen; lia). reflexivity. Qed.
Lemma dq_zero F i m : 0 <= m -> (forall j, j < i -> F j = #0) -> repeat #0 (Z.to_nat m) = dq F i m.
Proof.
  intros Hm H. unfold dq. apply list_is_tab.
  - rewrite zlen_repeat. lia.
  - intros j Hj. rewrite zf_repeat0 by lia. symmetry. apply H. lia.
Qed.
Lemma dq_len F i m : 0 <= m -> zlen (dq F i m) = m.
Proof. intros H. unfold dq. rewrite zlen_tab. lia. Qed.
Lemma dq_zf F i m j : 0 <= j < m -> zf (dq F i m) j = F (i - 1 - j).
Proof. intros H. unfold dq, zf. rewrite zn_tab by lia. reflexivity. Qed.

Section R.
Context (k : T * T * T * T) (n : Z) (x : list T) (q : mesa).
Hypothesis Hq : forall i, i < zlen x -> bar_of k stoc_plain n x q i.
Hypothesis G : forall i, 2 <= i < zlen x -> good (q_filt q i).
Lemma ref_filter i : 3 <= n -> 2 <= i < zlen x -> mesa_ref_filter k x i (dq (q_filt q) i n) (dq (q_hp q) i 3) = Ok (dq (q_filt q) (i + 1) n, dq (q_hp q) (i + 1) 3).
Proof.
  intros Hn Hi. destruct (bar_filt k stoc_plain n x q Hq i Hi) as [B1 B2]. unfold mesa_ref_filter. rewrite !dq_shift by lia. rewrite !rd_zf by lia. cbn [bind]. rewrite !(dq_rd1 _ _ 3) by lia. cbn [bind].
  rewrite dq_upd. cbn [bind]. rewrite dq_rd0. cbn [bind]. rewrite (dq_rd1 _ _ 3), !(dq_rd1 _ _ n) by lia. cbn [bind]. rewrite dq_upd. cbn [bind].
  rewrite <- B1, <- B2. rewrite !dq_cons by (lia || reflexivity). reflexivity.
Qed.
End R.
Lemma mesastoch_ref_fun size x o0 o1 n mcc q : to_int o0 = Some n -> to_int o1 = Some mcc -> zlen x = size -> 3 <= n -> n + 2 <= INT_MAX -> n + 2 <= size -> 1 <= mcc ->
  (forall i, i < size -> bar_of (mesa_consts mcc) stoc_plain n x q i) -> (forall i, 2 <= i < size -> good (q_filt q i)) ->
  ti_mesastoch_ref size [x] [o0; o1] = Ok (OKAY, [tab (n + 2) size (q_res q)]).
Proof.
  intros Ho0 Ho1 Hx Hn Hn' Hs Hc Hq G. subst size. unfold ti_mesastoch_ref, ti_mesastoch_start, cast. rewrite Ho0, Ho1. cbn [bind].
  replace (n <? 1) with false by lia. replace (mcc <? 1) with false by lia. rewrite ck_ok by zl. cbn [bind]. set (k := mesa_consts mcc) in *.
  assert (Zr : forall j, j < zlen x -> j < n + 2 -> q_stoc q j = #0 /\ q_res q j = #0) by (intros; apply (bar_early k stoc_plain n x q Hq); lia).
  assert (Z2 : forall j, j < 2 -> q_filt q j = #0 /\ q_hp q j = #0) by (intros j Hj; destruct (bar_zero k stoc_plain n x q Hq j ltac:(lia) Hj); tauto).
  apply wp_eq. eapply wp_bind.
  apply (wp_for (fun i s => s = (dq (q_filt q) i n, dq (q_hp q) i 3, dq (q_stoc q) i 2, dq (q_res q) i 3))); [lia| | |].
  { change 3%nat with (Z.to_nat 3). change 2%nat with (Z.to_nat 2).
    repeat apply f_equal2; apply dq_zero; try lia; intros; try (apply Z2; lia); apply Zr; lia. }
  { intros i s Hi ->. rewrite (ref_filter k n x q Hq G) by lia. cbn [bind wp]. rewrite !dq_shift by lia. destruct (Zr i ltac:(lia) ltac:(lia)) as [E1 E2].
    rewrite (dq_cons (q_stoc q) i 2), (dq_cons (q_res q) i 3) by (lia || congruence). reflexivity. }
  intros s ->. eapply wp_bind. replace (Z.max 2 (n + 2)) with (n + 2) by lia.
  apply (wp_for (fun i s => s = (dq (q_filt q) i n, dq (q_hp q) i 3, dq (q_stoc q) i 2, dq (q_res q) i 3, tab (n + 2) i (q_res q)))); [lia| | |].
  { rewrite tab_nil by lia. reflexivity. }
  { intros i s Hi ->. rewrite !(dq_shift (q_stoc q)), !(dq_shift (q_res q)) by lia. rewrite (ref_filter k n x q Hq G) by lia. cbn [bind wp]. rewrite dq_len by lia.
    assert (GF : forall j, 0 <= j < n -> good (zf (dq (q_filt q) (i + 1) n) j)) by (intros; rewrite dq_zf by lia; apply G; lia).
    destruct (bar_late k stoc_plain n x q Hq i ltac:(lia) ltac:(lia)) as ((hv & lv & ((bh & Hbh & ->) & Mh) & ((bl & Hbl & ->) & Ml) & Bs) & Br).
    destruct (max_elem_ok good _ _ Lmax (dq (q_filt q) (i + 1) n) 0 n) as (b & -> & Hb & D); [exact GF|lia|rewrite dq_len by lia; lia|]. cbn [bind]. rewrite dq_rd by lia. cbn [bind].
    destruct (max_elem_ok good _ _ Lmin (dq (q_filt q) (i + 1) n) 0 n) as (b' & -> & Hb' & D'); [exact GF|lia|rewrite dq_len by lia; lia|]. cbn [bind]. rewrite !dq_rd by lia. cbn [bind].
    assert (Eh : q_filt q (i + 1 - 1 - b) = q_filt q bh).
    { apply (el_anti _ _ _ Lmax); [apply G; lia|apply G; lia| |].
      - specialize (D (i - bh) ltac:(lia)). rewrite !dq_zf in D by lia. replace (i + 1 - 1 - (i - bh)) with bh in D by lia. exact D.
      - unfold lessf. rewrite (ord_lt_le _ _ (anti_ord _ _ AL)) by (apply G; lia). rewrite Mh by lia. reflexivity. }
    assert (El : q_filt q (i + 1 - 1 - b') = q_filt q bl).
    { apply (el_anti _ _ _ Lmin); [apply G; lia|apply G; lia| |].
      - specialize (D' (i - bl) ltac:(lia)). rewrite !dq_zf in D' by lia. replace (i + 1 - 1 - (i - bl)) with bl in D' by lia. exact D'.
      - unfold moref. rewrite (ord_lt_le _ _ (anti_ord _ _ AL)) by (apply G; lia). rewrite Ml by lia. reflexivity. }
    rewrite Eh, El. replace (i + 1 - 1 - 0) with i by lia. unfold stoc_plain in Bs. rewrite <- Bs. rewrite dq_upd. cbn [bind]. rewrite dq_rd0, (dq_rd1 _ _ 2), !(dq_rd1 _ _ 3) by lia. cbn [bind].
    rewrite <- Br. rewrite dq_upd. cbn [bind wp]. rewrite !dq_cons by (lia || reflexivity). rewrite tab_snoc by lia. reflexivity. }
  intros s ->. reflexivity.
Qed.
End F.

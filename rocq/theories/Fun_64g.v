(** Sums of four: rnd(rnd(3H) + H) = 4H, so avgprice and wcprice stay between the low and the high. *)
From Verif Require Import F64Laws M_basic Spec Tactics Fun_any.
From Coq Require Import Floats.SpecFloat ZifyBool Reals Lra.
From Flocq Require Import Core.Core IEEE754.BinarySingleNaN Mult_error.
From Verif Require Import F64Range Fun_64 Fun_64b Fun_64c Fun_64d.
Open Scope Z_scope.
#[local] Existing Instance Hprec.
#[local] Existing Instance Hmax.
#[local] Notation "x ⊕ y" := (SFadd prec64 emax64 x y) (at level 50, left associativity).
#[local] Notation "x ⊗ y" := (SFmul prec64 emax64 x y) (at level 40, left associativity).
#[local] Notation P2 := (bpow radix2).

Lemma rnd_int N k e : -1074 <= e -> 0 <= k -> 2 ^ (52 + k) <= N < 2 ^ (53 + k) -> rnd (IZR N * P2 e) = (IZR (ZnearestE (IZR N * P2 (- k))) * P2 (e + k))%R.
Proof.
  intros He Hk HN. unfold rnd, round, scaled_mantissa, cexp.
  assert (M : mag radix2 (IZR N * P2 e) = (53 + k + e) :> Z).
  { apply mag_unique_pos. replace (53 + k + e - 1) with (52 + k + e) by lia. rewrite !(bpow_plus radix2 _ e). rewrite <- (IZR_Zpower radix2 (52 + k)), <- (IZR_Zpower radix2 (53 + k)) by lia. pose proof (bpow_gt_0 radix2 e).
    split; [apply Rmult_le_compat_r; [lra|apply IZR_le; cbn [radix_val radix2]; lia]|apply Rmult_lt_compat_r; [lra|apply IZR_lt; cbn [radix_val radix2]; lia]]. }
  rewrite M. replace (fexp64 (53 + k + e)) with (e + k) by (unfold fexp64, SpecFloat.fexp, SpecFloat.emin, prec64, emax64; lia).
  unfold F2R. cbn [Fnum Fexp]. rewrite Rmult_assoc, <- bpow_plus. replace (e + - (e + k)) with (- k) by lia. reflexivity.
Qed.
Lemma near_half j : ZnearestE (IZR j + / 2) = if Z.even j then j else j + 1.
Proof.
  unfold Znearest. assert (Fl : Zfloor (IZR j + / 2) = j) by (apply Zfloor_imp; rewrite plus_IZR; lra). rewrite Fl.
  assert (Ce : Zceil (IZR j + / 2) = j + 1) by (apply Zceil_imp; rewrite plus_IZR, minus_IZR, plus_IZR; lra). rewrite Ce.
  replace (IZR j + / 2 - IZR j)%R with (/ 2)%R by ring. rewrite Rcompare_Eq by reflexivity. destruct (Z.even j); reflexivity.
Qed.
Lemma near_in j d : (Rabs d < / 2)%R -> ZnearestE (IZR j + d) = j.
Proof. intros H. apply Znearest_imp. replace (IZR j + d - IZR j)%R with d by ring. exact H. Qed.
(** one bit to drop *)
Lemma rnd_even1 j e : -1074 <= e -> 2 ^ 53 <= 2 * j < 2 ^ 54 -> rnd (IZR (2 * j) * P2 e) = (IZR (2 * j) * P2 e)%R.
Proof.
  intros He Hj. rewrite (rnd_int _ 1) by lia. replace (IZR (2 * j) * P2 (- (1)))%R with (IZR j + 0)%R by (rewrite mult_IZR; cbn; lra).
  rewrite near_in by (rewrite Rabs_R0; lra). rewrite bpow_plus, mult_IZR. cbn. lra.
Qed.
Lemma rnd_odd1 j e : -1074 <= e -> 2 ^ 53 <= 2 * j + 1 < 2 ^ 54 -> rnd (IZR (2 * j + 1) * P2 e) = (IZR (2 * if Z.even j then j else j + 1) * P2 e)%R.
Proof.
  intros He Hj. rewrite (rnd_int _ 1) by lia. replace (IZR (2 * j + 1) * P2 (- (1)))%R with (IZR j + / 2)%R by (rewrite plus_IZR, mult_IZR; cbn; lra).
  rewrite near_half. rewrite bpow_plus, mult_IZR. cbn. lra.
Qed.
(** two bits to drop *)
Lemma rnd_near2 j d e : -1074 <= e -> -1 <= d <= 1 -> 2 ^ 54 <= 4 * j + d < 2 ^ 55 -> rnd (IZR (4 * j + d) * P2 e) = (IZR (4 * j) * P2 e)%R.
Proof.
  intros He Hd Hj. rewrite (rnd_int _ 2) by lia. replace (IZR (4 * j + d) * P2 (- (2)))%R with (IZR j + IZR d / 4)%R by (rewrite plus_IZR, mult_IZR; cbn; lra).
  rewrite near_in; [rewrite bpow_plus, mult_IZR; cbn; lra|]. assert (-1 <= IZR d <= 1)%R by (split; apply IZR_le; lia). apply Rabs_def1; lra.
Qed.
Lemma rnd_half2 j e : -1074 <= e -> 2 ^ 54 <= 4 * j + 2 < 2 ^ 55 -> rnd (IZR (4 * j + 2) * P2 e) = (IZR (4 * if Z.even j then j else j + 1) * P2 e)%R.
Proof.
  intros He Hj. rewrite (rnd_int _ 2) by lia. replace (IZR (4 * j + 2) * P2 (- (2)))%R with (IZR j + / 2)%R by (rewrite plus_IZR, mult_IZR; cbn; lra).
  rewrite near_half. rewrite bpow_plus, mult_IZR. cbn. lra.
Qed.
Lemma fmt_small N e : -1074 <= e -> Z.abs N < 2 ^ 53 -> fmt (IZR N * P2 e).
Proof. intros He HN. apply generic_format_FLT. exists (Float radix2 N e); [reflexivity|exact HN|exact He]. Qed.

Lemma quad_pos M e : -1074 <= e -> 0 < M < 2 ^ 53 -> rnd (rnd (IZR (3 * M) * P2 e) + IZR M * P2 e) = (IZR (4 * M) * P2 e)%R.
Proof.
  intros He HM.
  assert (F4 : rnd (IZR (4 * M) * P2 e) = (IZR (4 * M) * P2 e)%R).
  { apply rnd_fmt. replace (IZR (4 * M) * P2 e)%R with (IZR M * P2 (2 + e))%R by (rewrite bpow_plus, mult_IZR; cbn; lra). apply fmt_small; lia. }
  assert (Sum : forall d, rnd (IZR (3 * M) * P2 e) = (IZR (3 * M + d) * P2 e)%R -> rnd (IZR (4 * M + d) * P2 e) = (IZR (4 * M) * P2 e)%R -> rnd (rnd (IZR (3 * M) * P2 e) + IZR M * P2 e) = (IZR (4 * M) * P2 e)%R).
  { intros d -> <-. f_equal. rewrite <- Rmult_plus_distr_r, <- plus_IZR. f_equal. f_equal. lia. }
  destruct (Z_lt_le_dec (3 * M) (2 ^ 53)) as [L|L].
  { apply (Sum 0); rewrite Z.add_0_r; [apply rnd_fmt, fmt_small; lia|exact F4]. }
  destruct (Z_lt_le_dec (3 * M) (2 ^ 54)) as [L2|L2].
  - destruct (Z.Even_or_Odd M) as [[a ->]|[a Ea]].
    + apply (Sum 0); rewrite Z.add_0_r; [|exact F4]. replace (3 * (2 * a)) with (2 * (3 * a)) by lia. apply rnd_even1; lia.
    + assert (R3 : rnd (IZR (3 * M) * P2 e) = (IZR (2 * if Z.even (3 * a + 1) then 3 * a + 1 else 3 * a + 1 + 1) * P2 e)%R).
      { replace (3 * M) with (2 * (3 * a + 1) + 1) by lia. apply rnd_odd1; lia. }
      destruct (Z.even (3 * a + 1)).
      * apply (Sum (-1)); [rewrite R3; do 2 f_equal; lia|]. destruct (Z_lt_le_dec (4 * M) (2 ^ 54)) as [L3|L3]; [|apply rnd_near2; lia].
        replace (4 * M + -1) with (2 * (2 * M - 1) + 1) by lia. rewrite rnd_odd1 by lia. replace (Z.even (2 * M - 1)) with false by (replace (2 * M - 1) with (2 * (M - 1) + 1) by lia; rewrite Z.even_add_mul_2 || (rewrite Z.even_add, Z.even_mul; reflexivity)).
        do 2 f_equal. lia.
      * apply (Sum 1); [rewrite R3; do 2 f_equal; lia|]. destruct (Z_lt_le_dec (4 * M) (2 ^ 54)) as [L3|L3]; [|apply rnd_near2; lia].
        replace (4 * M + 1) with (2 * (2 * M) + 1) by lia. rewrite rnd_odd1 by lia. rewrite Z.even_mul. cbn [Z.even orb]. do 2 f_equal. lia.
  - assert (L4 : 2 ^ 54 <= 4 * M - 2) by lia.
    destruct (Z.Even_or_Odd M) as [[a Ea]|[a Ea]]; [destruct (Z.Even_or_Odd a) as [[b Eb]|[b Eb]]|].
    + apply (Sum 0); rewrite Z.add_0_r; [|exact F4]. replace (3 * M) with (4 * (3 * b) + 0) at 1 by lia. rewrite rnd_near2 by lia. do 2 f_equal. lia.
    + assert (R3 : rnd (IZR (3 * M) * P2 e) = (IZR (4 * if Z.even (3 * b + 1) then 3 * b + 1 else 3 * b + 1 + 1) * P2 e)%R).
      { replace (3 * M) with (4 * (3 * b + 1) + 2) by lia. apply rnd_half2; lia. }
      destruct (Z.even (3 * b + 1)).
      * apply (Sum (-2)); [rewrite R3; do 2 f_equal; lia|]. replace (4 * M + -2) with (4 * (M - 1) + 2) by lia. rewrite rnd_half2 by lia.
        replace (M - 1) with (1 + 2 * (2 * b)) at 1 by lia. rewrite Z.even_add_mul_2. cbn [Z.even]. do 2 f_equal. lia.
      * apply (Sum 2); [rewrite R3; do 2 f_equal; lia|]. rewrite rnd_half2 by lia. replace M with (0 + 2 * a) at 1 by lia. rewrite Z.even_add_mul_2. reflexivity.
    + destruct (Z.Even_or_Odd a) as [[b Eb]|[b Eb]].
      * apply (Sum 1); [|apply rnd_near2; lia]. replace (3 * M) with (4 * (3 * b + 1) + -1) at 1 by lia. rewrite rnd_near2 by lia. do 2 f_equal. lia.
      * apply (Sum (-1)); [|apply rnd_near2; lia]. replace (3 * M) with (4 * (3 * b + 2) + 1) at 1 by lia. rewrite rnd_near2 by lia. do 2 f_equal. lia.
Qed.
Lemma quad H : fmt H -> rnd (rnd (3 * H) + H) = (4 * H)%R.
Proof.
  intros G. apply FLT_format_generic in G; [|exact _]. destruct G as [[M e] E B B2]. cbn [Fnum Fexp] in B, B2. unfold F2R in E. cbn [Fnum Fexp] in E.
  assert (K : forall M, 0 < M < 2 ^ 53 -> rnd (rnd (3 * (IZR M * P2 e)) + IZR M * P2 e) = (4 * (IZR M * P2 e))%R).
  { intros N HN. pose proof (quad_pos N e B2 HN) as Q. rewrite !mult_IZR, !Rmult_assoc in Q. exact Q. }
  destruct (Z.lt_trichotomy M 0) as [L|[->|L]].
  - assert (Q := K (- M) ltac:(cbn in B; lia)). replace H with (- (IZR (- M) * P2 e))%R by (rewrite E, opp_IZR; ring). set (h := (IZR (- M) * P2 e)%R) in *.
    replace (3 * - h)%R with (- (3 * h))%R by ring. rewrite rnd_opp. replace (- rnd (3 * h) + - h)%R with (- (rnd (3 * h) + h))%R by ring. rewrite rnd_opp, Q. ring.
  - rewrite E, Rmult_0_l, !Rmult_0_r, rnd_0, Rplus_0_r. apply rnd_0.
  - rewrite E. apply K. cbn in B. lia.
Qed.
Definition quarter64 : spec_float := SFdiv prec64 emax64 (f64_of_Z 25) (f64_of_Z 100).
Lemma quarter_ev : fin quarter64 /\ ev quarter64 = (1 / 4)%R.
Proof.
  replace quarter64 with (S754_finite false 4503599627370496 (-54)) by (vm_compute; reflexivity).
  split; [split; [reflexivity|exact I]|]. unfold ev, SF2R, F2R. cbn [Fnum Fexp cond_Zopp].
  change (IZR (Z.pos 4503599627370496)) with (P2 52). rewrite <- bpow_plus. cbn. lra.
Qed.
Lemma clamp_rnd t : (- P2 910 <= t <= P2 910)%R -> rd64 t = rnd t /\ (- P2 910 <= rnd t <= P2 910)%R.
Proof.
  intros H. pose proof (rnd_abs_le t 910 ltac:(lia) H) as B. pose proof (bpow_Bnd 910 ltac:(lia)). split; [|exact B]. unfold rd64. apply clamp_id. lra.
Qed.
Lemma quad_rd v : ord64 v -> rd64 (3 * ev v) = rnd (3 * ev v) /\ rd64 (rnd (3 * ev v) + ev v) = (4 * ev v)%R /\ rd64 (2 * ev v) = (2 * ev v)%R.
Proof.
  intros Hv. destruct (ord_fin v Hv) as [Fv Bv]. pose proof (fin_format v Fv) as G. pose proof (bpow_gt_0 radix2 900) as P0.
  assert (T : (P2 910 = P2 900 * 1024)%R) by (change 1024%R with (P2 10); rewrite <- bpow_plus; reflexivity).
  assert (T2 : (P2 902 = P2 900 * 4)%R) by (change 4%R with (P2 2); rewrite <- bpow_plus; reflexivity).
  assert (B3 : (- P2 902 <= rnd (3 * ev v) <= P2 902)%R) by (apply rnd_abs_le; [lia|lra]).
  split; [apply clamp_rnd; lra|]. split.
  - destruct (clamp_rnd (rnd (3 * ev v) + ev v) ltac:(lra)) as [-> _]. apply quad, G.
  - destruct (clamp_rnd (2 * ev v) ltac:(lra)) as [-> _]. rewrite Rmult_comm. apply rnd_fmt, fmt_twice, G.
Qed.
Lemma sum4_64 l h a b c d : ord64 l -> ord64 h -> is_double a -> is_double b -> is_double c -> is_double d ->
  SFleb l a = true -> SFleb a h = true -> SFleb l b = true -> SFleb b h = true -> SFleb l c = true -> SFleb c h = true -> SFleb l d = true -> SFleb d h = true ->
  SFleb l ((a ⊕ b ⊕ c ⊕ d) ⊗ quarter64) = true /\ SFleb ((a ⊕ b ⊕ c ⊕ d) ⊗ quarter64) h = true.
Proof.
  intros Hl Hh Da Db Dc Dd A1 A2 B1 B2 C1 C2 D1 D2. destruct (ord_fin l Hl) as [Fl Bl], (ord_fin h Hh) as [Fh Bh].
  apply (le_num _ _ (proj1 Fl) Da) in A1 as (_ & Na & A1). apply (le_num _ _ Da (proj1 Fh)) in A2 as (_ & _ & A2).
  apply (le_num _ _ (proj1 Fl) Db) in B1 as (_ & Nb & B1). apply (le_num _ _ Db (proj1 Fh)) in B2 as (_ & _ & B2).
  apply (le_num _ _ (proj1 Fl) Dc) in C1 as (_ & Nc & C1). apply (le_num _ _ Dc (proj1 Fh)) in C2 as (_ & _ & C2).
  apply (le_num _ _ (proj1 Fl) Dd) in D1 as (_ & Nd & D1). apply (le_num _ _ Dd (proj1 Fh)) in D2 as (_ & _ & D2).
  pose proof (bpow_gt_0 radix2 900) as P0. pose proof (bpow_Bnd 910 ltac:(lia)) as LB. assert (T : (P2 910 = P2 900 * 1024)%R) by (change 1024%R with (P2 10); rewrite <- bpow_plus; reflexivity).
  assert (Fa : fin a) by (apply lt_fin; [exact Na|lra]). assert (Fb : fin b) by (apply lt_fin; [exact Nb|lra]). assert (Fc : fin c) by (apply lt_fin; [exact Nc|lra]). assert (Fd : fin d) by (apply lt_fin; [exact Nd|lra]).
  destruct (quad_rd l Hl) as (L3 & L4 & L2), (quad_rd h Hh) as (H3 & H4 & H2).
  assert (T2 : (P2 902 = P2 900 * 4)%R) by (change 4%R with (P2 2); rewrite <- bpow_plus; reflexivity).
  assert (Bl3 : (- P2 902 <= rnd (3 * ev l) <= P2 902)%R) by (apply rnd_abs_le; [lia|lra]). assert (Bh3 : (- P2 902 <= rnd (3 * ev h) <= P2 902)%R) by (apply rnd_abs_le; [lia|lra]).
  destruct (add_rounds a b Fa Fb) as [N1 E1]. set (s1 := a ⊕ b) in *.
  assert (S1 : (2 * ev l <= ev s1 <= 2 * ev h)%R) by (rewrite E1, <- L2, <- H2; split; apply rd64_mono; lra). assert (F1 : fin s1) by (apply lt_fin; [exact N1|lra]).
  destruct (add_rounds s1 c F1 Fc) as [N2 E2]. set (s2 := s1 ⊕ c) in *.
  assert (S2 : (rnd (3 * ev l) <= ev s2 <= rnd (3 * ev h))%R) by (rewrite E2, <- L3, <- H3; split; apply rd64_mono; lra). assert (F2 : fin s2) by (apply lt_fin; [exact N2|lra]).
  destruct (add_rounds s2 d F2 Fd) as [N3 E3]. set (s3 := s2 ⊕ d) in *.
  assert (S3 : (4 * ev l <= ev s3 <= 4 * ev h)%R) by (rewrite E3, <- L4, <- H4; split; apply rd64_mono; lra). assert (F3 : fin s3) by (apply lt_fin; [exact N3|lra]).
  destruct quarter_ev as [Fq Eq]. destruct (mul_rounds s3 _ F3 Fq) as [N4 E4]. set (m := s3 ⊗ quarter64) in *. rewrite Eq in E4.
  split; (apply le_ev; [first [exact N4|apply fin_num; assumption]..|]); rewrite E4; [apply rd64_ge|apply rd64_le]; try assumption; lra.
Qed.

Section F.
Variable lm : libm1 -> spec_float -> spec_float.
Variable pw : spec_float -> spec_float -> spec_float.
Notation F := (F64 lm pw).
#[local] Existing Instance F64_laws.
Lemma avgprice_64 size o h l c : zlen o = size -> zlen h = size -> zlen l = size -> zlen c = size -> 0 <= size <= INT_MAX ->
  Forall is_double o -> Forall ord64 h -> Forall ord64 l -> Forall is_double c ->
  (forall j, 0 <= j < size -> SFleb (@zf F l j) (@zf F o j) = true /\ SFleb (@zf F o j) (@zf F h j) = true /\ SFleb (@zf F l j) (@zf F c j) = true /\ SFleb (@zf F c j) (@zf F h j) = true) ->
  exists out, @ti_avgprice F size [o; h; l; c] [] = Ok (OKAY, [out]) /\ zlen out = size /\
    forall j, 0 <= j < size -> SFleb (@zf F l j) (@zf F out j) = true /\ SFleb (@zf F out j) (@zf F h j) = true.
Proof.
  intros Ho Hh Hl Hc Hs Do Dh Dl Dc HB. eexists. split; [apply (@avgprice_fun F size o h l c); assumption|]. rewrite zlen_tab. split; [lia|].
  intros j Hj. destruct (HB j Hj) as (A & B & C & D). assert (Z : @zf F (tab 0 size (fun i => @fmul F (@fadd F (@fadd F (@fadd F (@zf F o i) (@zf F h i)) (@zf F l i)) (@zf F c i)) (@lit F 25 2))) j = (@zf F o j ⊕ @zf F h j ⊕ @zf F l j ⊕ @zf F c j) ⊗ quarter64) by (unfold zf at 1; rewrite zn_tab by lia; rewrite Z.add_0_l; reflexivity).
  rewrite Z. clear Z.
  pose proof (zf_at lm pw o j _ Do ltac:(lia)) as Zo. pose proof (zf_at lm pw h j _ Dh ltac:(lia)) as Zh. pose proof (zf_at lm pw l j _ Dl ltac:(lia)) as Zl. pose proof (zf_at lm pw c j _ Dc ltac:(lia)) as Zc.
  assert (LH : SFleb (@zf F l j) (@zf F h j) = true).
  { pose proof A as A'. pose proof B as B'. apply (le_num _ _ (proj1 Zl) Zo) in A' as (Nl & _ & A'). apply (le_num _ _ Zo (proj1 Zh)) in B' as (_ & Nh & B'). apply le_ev; [exact Nl|exact Nh|lra]. }
  assert (RF : forall v, ord64 v -> SFleb v v = true) by (intros v Hv; destruct (ord_fin v Hv) as [Fv _]; apply le_ev; [apply fin_num; exact Fv..|lra]).
  apply (sum4_64 _ _ _ _ _ _ Zl Zh Zo (proj1 Zh) (proj1 Zl) Zc A B LH (RF _ Zh) (RF _ Zl) LH C D).
Qed.
Lemma wcprice_64 size h l c : zlen h = size -> zlen l = size -> zlen c = size -> 0 <= size <= INT_MAX ->
  Forall ord64 h -> Forall ord64 l -> Forall is_double c ->
  (forall j, 0 <= j < size -> SFleb (@zf F l j) (@zf F c j) = true /\ SFleb (@zf F c j) (@zf F h j) = true) ->
  exists out, @ti_wcprice F size [h; l; c] [] = Ok (OKAY, [out]) /\ zlen out = size /\
    forall j, 0 <= j < size -> SFleb (@zf F l j) (@zf F out j) = true /\ SFleb (@zf F out j) (@zf F h j) = true.
Proof.
  intros Hh Hl Hc Hs Dh Dl Dc HB. eexists. split; [apply (@wcprice_fun F size h l c); assumption|]. rewrite zlen_tab. split; [lia|].
  intros j Hj. destruct (HB j Hj) as (C & D). assert (Z : @zf F (tab 0 size (fun i => @fmul F (@fadd F (@fadd F (@fadd F (@zf F h i) (@zf F l i)) (@zf F c i)) (@zf F c i)) (@lit F 25 2))) j = (@zf F h j ⊕ @zf F l j ⊕ @zf F c j ⊕ @zf F c j) ⊗ quarter64) by (unfold zf at 1; rewrite zn_tab by lia; rewrite Z.add_0_l; reflexivity).
  rewrite Z. clear Z.
  pose proof (zf_at lm pw h j _ Dh ltac:(lia)) as Zh. pose proof (zf_at lm pw l j _ Dl ltac:(lia)) as Zl. pose proof (zf_at lm pw c j _ Dc ltac:(lia)) as Zc.
  assert (LH : SFleb (@zf F l j) (@zf F h j) = true).
  { pose proof C as A. pose proof D as B. apply (le_num _ _ (proj1 Zl) Zc) in A as (Nl & _ & A). apply (le_num _ _ Zc (proj1 Zh)) in B as (_ & Nh & B). apply le_ev; [exact Nl|exact Nh|lra]. }
  assert (RF : forall v, ord64 v -> SFleb v v = true) by (intros v Hv; destruct (ord_fin v Hv) as [Fv _]; apply le_ev; [apply fin_num; exact Fv..|lra]).
  apply (sum4_64 _ _ _ _ _ _ Zl Zh (proj1 Zh) (proj1 Zl) Zc Zc LH (RF _ Zh) (RF _ Zl) LH C D C D).
Qed.
End F.

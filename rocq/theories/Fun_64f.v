(** aroon and aroonosc in binary64: one unit in the last place above 100 is the most they reach. *)
From Verif Require Import F64Laws StreamOut M_basic M_osc M_window M_stream1 M_stream4 Spec Tactics Fun_any Fun_window2.
From Coq Require Import Floats.SpecFloat ZifyBool Reals Lra.
From Flocq Require Import Core.Core IEEE754.BinarySingleNaN Mult_error.
From Verif Require Import F64Range Fun_64 Fun_64b Fun_64c Fun_64d Fun_64e Properties_window.
Open Scope Z_scope.
#[local] Existing Instance Hprec.
#[local] Existing Instance Hmax.
#[local] Notation "x ⊕ y" := (SFadd prec64 emax64 x y) (at level 50, left associativity).
#[local] Notation "x ⊖ y" := (SFsub prec64 emax64 x y) (at level 50, left associativity).
#[local] Notation "x ⊗ y" := (SFmul prec64 emax64 x y) (at level 40, left associativity).
#[local] Notation "x ⊘ y" := (SFdiv prec64 emax64 x y) (at level 40, left associativity).
#[local] Notation nan := S754_nan.
#[local] Notation P2 := (bpow radix2).

(** the double after 100, 100 + 2^-46 *)
Definition next100 : spec_float := S754_finite false 7036874417766401 (-46).
Lemma next100_ev : fin next100 /\ ev next100 = (100 + P2 (-46))%R.
Proof.
  split; [split; [reflexivity|exact I]|]. unfold next100, ev, SF2R, F2R. cbn [Fnum Fexp cond_Zopp].
  change (Z.pos 7036874417766401) with (100 * 2 ^ 46 + 1). rewrite plus_IZR, mult_IZR. change (IZR (2 ^ 46)) with (P2 46).
  rewrite Rmult_plus_distr_r, Rmult_assoc, <- bpow_plus, Rmult_1_l. change (46 + -46) with 0. change (P2 0) with 1%R. ring.
Qed.
(** a double between minus the double after 100 and the double after 100; between 0 and the double after 100 *)
Definition osc_ok (v : spec_float) : Prop := is_double v /\ SFleb (SFopp next100) v = true /\ SFleb v next100 = true.
Definition aroon_ok (v : spec_float) : Prop := is_double v /\ SFleb (f64_of_Z 0) v = true /\ SFleb v next100 = true.
Lemma opp100_ev : fin (SFopp next100) /\ ev (SFopp next100) = (- (100 + P2 (-46)))%R.
Proof.
  destruct next100_ev as [_ E]. split; [split; [reflexivity|exact I]|]. rewrite <- E. unfold next100, ev, SFopp, SF2R, F2R. cbn [Fnum Fexp cond_Zopp negb]. change (IZR (- Z.pos 7036874417766401)) with (- IZR (Z.pos 7036874417766401))%R. rewrite Ropp_mult_distr_l_reverse. reflexivity.
Qed.
Lemma aroon_scale p m : 1 <= p <= INT_MAX -> - p <= m <= p -> let v := f64_of_Z m ⊗ (f64_of_Z 100 ⊘ f64_of_Z p) in
  num v /\ (- (100 + P2 (-46)) <= ev v <= 100 + P2 (-46))%R /\ (0 <= m -> (0 <= ev v)%R).
Proof.
  intros Hp Hm v. destruct (Zpos_fin p Hp) as (Fp & Ep & P1 & _). destruct (fin_of_Z 100 ltac:(unfold BIG; lia)) as [Fa Ea].
  destruct (fin_of_Z m ltac:(unfold BIG, INT_MAX in *; lia)) as [Fm Em].
  destruct (div_rounds _ _ Fa Fp ltac:(lra)) as [Ns Es]. set (s := f64_of_Z 100 ⊘ f64_of_Z p) in *. rewrite Ea, Ep in Es.
  assert (PU : (IZR p <= P2 31)%R) by (change (P2 31) with (IZR (2 ^ 31)); apply IZR_le; unfold INT_MAX in *; lia).
  assert (T : (0 < 100 / IZR p <= 100)%R).
  { split; [apply Rdiv_lt_0_compat; lra|]. apply Rmult_le_reg_r with (IZR p); [lra|]. unfold Rdiv. rewrite Rmult_assoc, Rinv_l by lra. nra. }
  assert (TP : (100 / IZR p * IZR p = 100)%R) by (field; lra). set (t := (100 / IZR p)%R) in *.
  assert (S0 : (0 <= ev s <= 100)%R).
  { rewrite Es. split; [apply Rle_trans with (rd64 0); [rewrite rd64_0; lra|apply rd64_mono; lra]|]. apply Rle_trans with (rd64 (IZR 100)); [apply rd64_mono; lra|rewrite rd64_Z by (unfold BIG; lia); lra]. }
  assert (Fs : fin s).
  { apply lt_fin; [exact Ns|]. destruct (fin_of_Z 100 ltac:(unfold BIG; lia)) as [F1 E1]. pose proof (fin_lt _ F1). rewrite E1 in *. lra. }
  destruct (mul_rounds _ _ Fm Fs) as [Nv Ev]. fold v in Nv, Ev. rewrite Em in Ev. destruct next100_ev as [Fn En].
  assert (M : (- IZR p <= IZR m <= IZR p)%R) by (rewrite <- opp_IZR; split; apply IZR_le; lia).
  assert (B : (IZR p * ev s <= 100 + P2 (-46))%R).
  { assert (X : (ev s <= t + t * P2 (-53) + P2 (-1075))%R).
    { rewrite Es. apply Rle_trans with (rnd t).
      - unfold rd64. assert (0 <= rnd t)%R by (rewrite <- rnd_0; apply rnd_mono; lra). pose proof Bnd_pos. unfold Rmax, Rmin. repeat destruct Rle_dec; lra.
      - destruct (rnd_err t) as (e & n & He & Hn & ->). apply Rabs_le_inv in He, Hn. nra. }
    pose proof (bpow_gt_0 radix2 (-53)). pose proof (bpow_gt_0 radix2 (-1075)).
    assert (Y : (IZR p * P2 (-1075) <= P2 (-53))%R) by (apply Rle_trans with (P2 31 * P2 (-1075))%R; [apply Rmult_le_compat_r; lra|rewrite <- bpow_plus; apply bpow_le; lia]).
    assert (Z : (101 * P2 (-53) <= P2 (-46))%R) by (replace (P2 (-46)) with (128 * P2 (-53))%R; [lra|change 128%R with (P2 7); rewrite <- bpow_plus; reflexivity]).
    apply Rle_trans with (IZR p * (t + t * P2 (-53) + P2 (-1075)))%R; [apply Rmult_le_compat_l; lra|].
    replace (IZR p * (t + t * P2 (-53) + P2 (-1075)))%R with (t * IZR p + t * IZR p * P2 (-53) + IZR p * P2 (-1075))%R by ring. rewrite TP. lra. }
  split; [exact Nv|]. split.
  - rewrite Ev, <- En. split; [apply rd64_gen|apply rd64_le]; try assumption; rewrite En; nra.
  - intros G. apply (IZR_le 0) in G. rewrite Ev. apply Rle_trans with (rd64 0); [rewrite rd64_0; lra|apply rd64_mono; nra].
Qed.
Lemma scale_osc p m : 1 <= p <= INT_MAX -> - p <= m <= p -> osc_ok (f64_of_Z m ⊗ (f64_of_Z 100 ⊘ f64_of_Z p)).
Proof.
  intros Hp Hm. destruct (aroon_scale p m Hp Hm) as (N & B & _). destruct next100_ev as [Fn En], opp100_ev as [Fo Eo].
  split; [apply N|]. split; (apply le_ev); [apply fin_num, Fo|exact N|rewrite Eo; lra|exact N|apply fin_num, Fn|rewrite En; lra].
Qed.
Lemma scale_aroon p m : 1 <= p <= INT_MAX -> 0 <= m <= p -> aroon_ok (f64_of_Z m ⊗ (f64_of_Z 100 ⊘ f64_of_Z p)).
Proof.
  intros Hp Hm. destruct (aroon_scale p m Hp ltac:(lia)) as (N & B & G). destruct next100_ev as [Fn En]. destruct (fin_of_Z 0 ltac:(unfold BIG; lia)) as [F0 E0]. specialize (G ltac:(lia)).
  split; [apply N|]. split; apply le_ev; [apply fin_num, F0|exact N|rewrite E0; lra|exact N|apply fin_num, Fn|rewrite En; lra].
Qed.

Section F.
Variable lm : libm1 -> spec_float -> spec_float.
Variable pw : spec_float -> spec_float -> spec_float.
Notation F := (F64 lm pw).
#[local] Existing Instance F64_laws.
Lemma aroon_64 size h l o p : zlen h = size -> zlen l = size -> 0 <= size <= INT_MAX -> @to_int F o = Some p -> 1 <= p ->
  Forall not_nan h -> Forall not_nan l ->
  exists down up osc, @ti_aroon F size [h; l] [o] = Ok (OKAY, [down; up]) /\ @ti_aroonosc F size [h; l] [o] = Ok (OKAY, [osc]) /\
    zlen down = Z.max 0 (size - p) /\ zlen up = Z.max 0 (size - p) /\ zlen osc = Z.max 0 (size - p) /\
    Forall aroon_ok down /\ Forall aroon_ok up /\ Forall osc_ok osc.
Proof.
  intros Hh Hl Hs Ho Hp Gh Gl. apply (Forall_allgood (A := F)) in Gh, Gl. pose proof (F64_ord lm pw) as OL.
  do 3 eexists. split; [apply (@aroon_fun F _ not_nan OL); eauto|]. split; [apply (@aroonosc_fun F _ not_nan OL); eauto|]. rewrite !zlen_tab. do 3 (split; [lia|]).
  assert (Ed : forall k, 0 <= k < size - p -> k <= @lo_at F l k (k + p) <= k + p) by (intros k Hk; assert (X : k + p < zlen l) by lia; destruct (@lo_latest F not_nan OL l k (k + p) ltac:(lia) X Gl) as (R1 & _); exact R1).
  assert (Eu : forall k, 0 <= k < size - p -> k <= @hi_at F h k (k + p) <= k + p) by (intros k Hk; assert (X : k + p < zlen h) by lia; destruct (@hi_latest F not_nan OL h k (k + p) ltac:(lia) X Gh) as (R1 & _); exact R1).
  split; [|split]; apply Forall_tab; intros k Hk; specialize (Ed k Hk); specialize (Eu k Hk).
  - rewrite (@fsub_of_Z F _) by (unfold BIG, INT_MAX in *; lia). apply scale_aroon; lia.
  - rewrite (@fsub_of_Z F _) by (unfold BIG, INT_MAX in *; lia). apply scale_aroon; lia.
  - apply scale_osc; lia.
Qed.
End F.

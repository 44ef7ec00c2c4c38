(** Series of ordinary size, continued: adx, rmi, willr, bop. *)
From Verif Require Import F64Laws StreamOut M_basic M_osc M_window M_stream1 M_stream4 Spec Tactics Fun_any Properties_window.
From Coq Require Import Floats.SpecFloat ZifyBool Reals Lra.
From Flocq Require Import Core.Core IEEE754.BinarySingleNaN Mult_error.
From Verif Require Import F64Range Fun_64 Fun_64b Fun_64c Fun_64d.
Open Scope Z_scope.
#[local] Existing Instance Hprec.
#[local] Existing Instance Hmax.
#[local] Notation "x ⊕ y" := (SFadd prec64 emax64 x y) (at level 50, left associativity).
#[local] Notation "x ⊖ y" := (SFsub prec64 emax64 x y) (at level 50, left associativity).
#[local] Notation "x ⊗ y" := (SFmul prec64 emax64 x y) (at level 40, left associativity).
#[local] Notation "x ⊘ y" := (SFdiv prec64 emax64 x y) (at level 40, left associativity).
#[local] Notation nan := S754_nan.
#[local] Notation P2 := (bpow radix2).

(** small multiples of 1/1024 are doubles *)
Lemma okb_frac i : 0 <= i <= 2 ^ 52 -> okb (IZR i * P2 (-10)).
Proof.
  intros Hi. destruct (fin_of_Z i ltac:(unfold BIG; lia)) as [F E]. pose proof (bpow_gt_0 radix2 (-10)) as Pk. pose proof Bnd_pos as PB.
  assert (Pi : (0 <= IZR i <= P2 52)%R) by (change (P2 52) with (IZR (2 ^ 52)); split; apply IZR_le; lia).
  assert (U : (IZR i * P2 (-10) < Bnd)%R).
  { apply Rle_lt_trans with (P2 52 * P2 (-10))%R; [apply Rmult_le_compat_r; lra|]. rewrite <- bpow_plus. apply bpow_Bnd. lia. }
  assert (N : (0 <= IZR i * P2 (-10))%R) by (apply Rmult_le_pos; lra). split; [|split; assumption]. unfold rd64.
  rewrite rnd_fmt; [apply clamp_id; lra|]. destruct (Z.eq_dec i 0) as [->|Z]; [rewrite Rmult_0_l; apply generic_format_0|].
  apply (mult_bpow_exact_FLT radix2 (-1074) 53); [pose proof (fin_format _ F) as G; rewrite E in G; exact G|].
  assert (0 < mag radix2 (IZR i)); [|lia]. apply (mag_gt_bpow radix2 (IZR i) 0). rewrite Rabs_pos_eq by lra. cbn. apply (IZR_le 1). lia.
Qed.
(** upper bounds on the two factors of adx *)
Lemma quot_up a p : 0 <= a <= INT_MAX -> 1 <= p <= INT_MAX -> (ev (f64_of_Z a ⊘ f64_of_Z p) <= IZR a / IZR p + (IZR a / IZR p + 1) * P2 (-53))%R.
Proof.
  intros Ha Hp. destruct (Zpos_fin p Hp) as (Fp & Ep & P1 & _). destruct (fin_of_Z a ltac:(unfold BIG, INT_MAX in *; lia)) as [Fa Ea].
  destruct (div_rounds _ _ Fa Fp ltac:(lra)) as [_ ->]. rewrite Ea, Ep. set (t := (IZR a / IZR p)%R).
  assert (A0 : (0 <= IZR a)%R) by (apply (IZR_le 0); lia). assert (T : (0 <= t)%R) by (unfold t, Rdiv; apply Rmult_le_pos; [exact A0|left; apply Rinv_0_lt_compat; lra]).
  apply Rle_trans with (rnd t).
  - unfold rd64. assert (0 <= rnd t)%R by (rewrite <- rnd_0; apply rnd_mono, T). pose proof Bnd_pos. unfold Rmax, Rmin. repeat destruct Rle_dec; lra.
  - destruct (rnd_err t) as (e & n & He & Hn & ->). apply Rabs_le_inv in He, Hn. assert (P2 (-1075) <= P2 (-53))%R by (apply bpow_le; lia). nra.
Qed.
(** the value 100 + 1/512 *)
Definition adx_top : spec_float := S754_finite false 7037011856719872 (-46).
Lemma adx_top_ev : fin adx_top /\ ev adx_top = (IZR 102402 * P2 (-10))%R.
Proof.
  split; [split; [reflexivity|exact I]|]. unfold adx_top, ev, SF2R, F2R. cbn [Fnum Fexp cond_Zopp].
  change (Z.pos 7037011856719872) with (102402 * 2 ^ 36). rewrite mult_IZR. change (IZR (2 ^ 36)) with (P2 36). rewrite Rmult_assoc, <- bpow_plus. reflexivity.
Qed.

Section F.
Variable lm : libm1 -> spec_float -> spec_float.
Variable pw : spec_float -> spec_float -> spec_float.
Notation F := (F64 lm pw).
#[local] Existing Instance F64_laws.
Tactic Notation "ppq" constr(H) ident(a) ident(Da) := eapply pp_bind; [apply (pp_rdP ord64), H|intros a Da].
Lemma within_bd v : within64 0 100 v -> bd 100 v.
Proof. intros H. apply within_fin in H; try (unfold BIG; lia). destruct H as [Fv B]. split; [exact Fv|lra]. Qed.
Definition adx_ok (v : spec_float) : Prop := is_double v /\ SFleb (f64_of_Z 0) v = true /\ SFleb v adx_top = true.
Lemma bd_adx v : bd (IZR 102402 * P2 (-10)) v -> adx_ok v.
Proof.
  intros [Fv B]. destruct adx_top_ev as [Ft Et]. destruct (fin_of_Z 0 ltac:(unfold BIG; lia)) as [F0 E0].
  split; [apply Fv|]. split; (apply le_ev; [apply fin_num; assumption..|]); [rewrite E0|rewrite Et]; lra.
Qed.
Lemma adx_ord size h l o : Forall ord64 h -> Forall ord64 l -> pp (@ti_adx F size [h; l] [o]) (fun r => Forall (Forall adx_ok) (snd r)).
Proof.
  intros Hh Hl. unfold ti_adx. eapply pp_bind; [apply (pp_cast lm pw o (fun n => n <= INT_MAX)); auto|]. intros p Hp. cbv beta in Hp. cbv zeta.
  destruct (p <? 2) eqn:E1; [apply pp_ok; repeat constructor|]. eapply pp_bind; [apply pp_any|intros st _]. destruct (size <=? _); [apply pp_ok; repeat constructor|].
  destruct (frac_fin p ltac:(lia)) as [Fk Hk]. pose proof (frac_le p ltac:(lia)) as Hk2. destruct (inv_fin p ltac:(lia)) as [Fi Hi]. eapply pp_bind; [apply dm_init_bd; assumption|]. intros [u v] [Hu Hv]. cbn [fst snd] in *.
  assert (Kp : f64_of_Z p ⊖ f64_of_Z 1 = f64_of_Z (p - 1)) by (apply f64_sub; unfold BIG, INT_MAX in *; lia).
  assert (P53 : (P2 (-53) = P2 (-41) * P2 (-12))%R) by (rewrite <- bpow_plus; reflexivity). pose proof (bpow_gt_0 radix2 (-41)) as Q41. pose proof (bpow_gt_0 radix2 (-53)) as Q53.
  assert (E12 : P2 (-12) = (/ 4096)%R) by reflexivity. assert (E10 : P2 (-10) = (/ 1024)%R) by reflexivity.
  assert (Pp : (2 <= IZR p <= P2 31)%R) by (change (P2 31) with (IZR (2 ^ 31)); split; apply IZR_le; unfold INT_MAX in *; lia).
  assert (S31 : (IZR p * P2 (-53) <= P2 (-22))%R) by (apply Rle_trans with (P2 31 * P2 (-53))%R; [apply Rmult_le_compat_r; lra|rewrite <- bpow_plus; apply Rle_refl]).
  assert (E22 : P2 (-22) = (/ 4194304)%R) by reflexivity.
  set (A := (IZR (102401 * p) * P2 (-10))%R).
  assert (EA : A = ((100 + / 1024) * IZR p)%R) by (unfold A; rewrite mult_IZR, E10; field).
  assert (OA : okb A) by (apply okb_frac; unfold INT_MAX in *; lia).
  (** one more bar *)
  assert (Step : forall a d, bd A a -> bd 100 d -> bd A (a ⊗ ((f64_of_Z p ⊖ f64_of_Z 1) ⊘ f64_of_Z p) ⊕ d)).
  { intros a d [Fa Ba] Hd. eapply add_bd; [|exact Hd| |exact OA].
    - apply (rounds_bd _ _ (IZR (102401 * (p - 1) + 1) * P2 (-10)) (mul_rounds a _ Fa Fk)); [apply okb_frac; unfold INT_MAX in *; lia|]. split; [apply Rmult_le_pos; lra|].
      apply Rle_trans with (A * (IZR (p - 1) / IZR p + (IZR (p - 1) / IZR p + 1) * P2 (-53)))%R.
      + apply Rmult_le_compat; try lra. rewrite Kp. apply quot_up; unfold INT_MAX in *; lia.
      + rewrite EA, plus_IZR, mult_IZR, minus_IZR, E10. replace ((100 + / 1024) * IZR p * ((IZR p - 1) / IZR p + ((IZR p - 1) / IZR p + 1) * P2 (-53)))%R with ((100 + / 1024) * (IZR p - 1) + (100 + / 1024) * (2 * (IZR p * P2 (-53)) - P2 (-53)))%R by (field; lra).
        rewrite E22 in S31. lra.
    - rewrite EA, plus_IZR, mult_IZR, minus_IZR, E10. lra. }
  assert (Out : forall a, bd A a -> adx_ok (a ⊗ (f64_of_Z 1 ⊘ f64_of_Z p))).
  { intros a [Fa Ba]. apply bd_adx. apply (rounds_bd _ _ _ (mul_rounds a _ Fa Fi)); [apply okb_frac; lia|]. split; [apply Rmult_le_pos; lra|].
    apply Rle_trans with (A * (IZR 1 / IZR p + (IZR 1 / IZR p + 1) * P2 (-53)))%R; [apply Rmult_le_compat; try lra; apply quot_up; unfold INT_MAX in *; lia|].
    rewrite EA, E10. replace ((100 + / 1024) * IZR p * (1 / IZR p + (1 / IZR p + 1) * P2 (-53)))%R with ((100 + / 1024) * (1 + P2 (-53) + IZR p * P2 (-53)))%R by (field; lra).
    assert (P2 (-53) <= IZR p * P2 (-53))%R by nra. rewrite E22 in S31. lra. }
  assert (Dx0 : bd 100 (@dx_val F u v)) by (apply within_bd, dx_within; assumption).
  assert (Oj : forall j, 0 <= j <= p -> okb (100 * IZR j)%R).
  { intros j Hj. replace (100 * IZR j)%R with (IZR (102400 * j) * P2 (-10))%R by (rewrite mult_IZR, E10; field). apply okb_frac. unfold INT_MAX in *; lia. }
  set (C := fun i => if i <=? 2 * p - 2 then (100 * IZR (i - p + 1))%R else A).
  eapply (pp_bind _ _ (fun s => Forall adx_ok (snd s))).
  { eapply pp_mono; [apply (pp_fori (fun i s => let '(u, v, a, out) := s in bd (P2 935) u /\ bd (P2 935) v /\ bd (C i) a /\ Forall adx_ok out))|intros [[[a b] x] out] (_ & _ & _ & Ho); exact Ho].
    { split; [exact Hu|split; [exact Hv|split; [|constructor]]]. unfold C. replace (p <=? 2 * p - 2) with true by lia. replace (p - p + 1) with 1 by lia.
      eapply add_bd; [apply (bd_0 0); lra|exact Dx0|lra|apply Oj; lia]. }
    intros i [[[a b] x] out] Hi2 (Ha & Hb & Hx & Ho). eapply pp_bind; [apply direction_bd; assumption|]. intros [d1 d2] [H1 H2]. cbn [fst snd] in *.
    pose proof (decay_bd a d1 _ Ha H1 Fk (conj Hk Hk2)) as G1. pose proof (decay_bd b d2 _ Hb H2 Fk (conj Hk Hk2)) as G2.
    pose proof (within_bd _ (dx_within lm pw _ _ G1 G2)) as G3.
    destruct (i - p <? p - 2) eqn:E2; [|destruct (i - p =? p - 2) eqn:E3]; apply pp_ok.
    - split; [exact G1|split; [exact G2|split; [|exact Ho]]]. unfold C in *. replace (i <=? 2 * p - 2) with true in Hx by lia. replace (i + 1 <=? 2 * p - 2) with true by lia.
      eapply add_bd; [exact Hx|exact G3| |apply Oj; lia]. rewrite (plus_IZR (i + 1 - p)), minus_IZR, plus_IZR. rewrite plus_IZR, minus_IZR. lra.
    - assert (G4 : bd (100 * IZR p) (x ⊕ (@dx_val F (a ⊗ ((f64_of_Z p ⊖ f64_of_Z 1) ⊘ f64_of_Z p) ⊕ d1) (b ⊗ ((f64_of_Z p ⊖ f64_of_Z 1) ⊘ f64_of_Z p) ⊕ d2)))).
      { unfold C in Hx. replace (i <=? 2 * p - 2) with true in Hx by lia. eapply add_bd; [exact Hx|exact G3| |apply Oj; lia]. replace (i - p + 1) with (p - 1) by lia. rewrite minus_IZR. lra. }
      apply (bd_le _ A) in G4; [|rewrite EA; lra]. split; [exact G1|split; [exact G2|split]].
      + unfold C. replace (i + 1 <=? 2 * p - 2) with false by lia. exact G4.
      + apply Forall_snoc; [exact Ho|]. apply Out, G4.
    - unfold C in Hx. replace (i <=? 2 * p - 2) with false in Hx by lia. pose proof (Step x _ Hx G3) as G5.
      split; [exact G1|split; [exact G2|split]].
      + unfold C. replace (i + 1 <=? 2 * p - 2) with false by lia. exact G5.
      + apply Forall_snoc; [exact Ho|]. apply Out, G5. }
  intros [[[a b] x] out] Ho. cbn [snd] in Ho. eapply pp_bind; [apply pp_any|intros ? _]. apply pp_ok. repeat constructor. exact Ho.
Qed.

(** *** rmi *)
Lemma rmi_step_bd B u g q : bd B u -> bd (B * 2) g -> fin q -> (2 <= ev q)%R -> okb (B * 2) -> okb (B * 2 * 2) -> bd (B * 2) ((u ⊖ g) ⊗ f64_of_Z 2 ⊘ q ⊕ g).
Proof.
  intros [Fu Bu] [Fg Bg] Fq Hq [HB [H0 H1]] [HB2 [H02 H12]]. destruct (fin_of_Z 2 ltac:(unfold BIG; lia)) as [F2 E2].
  destruct (sub_rounds u g Fu Fg) as [Nd Ed]. set (d := u ⊖ g) in *.
  assert (Hd : (- ev g <= ev d <= ev u)%R) by (rewrite Ed; split; [apply rd64_gen|apply rd64_le]; try assumption; lra).
  pose proof (fin_lt u Fu). pose proof (fin_lt g Fg). assert (Fd : fin d) by (apply lt_fin; [exact Nd|lra]).
  destruct (mul_rounds d (f64_of_Z 2) Fd F2) as [Ne Ee]. set (e := d ⊗ f64_of_Z 2) in *. rewrite E2 in Ee.
  assert (Ee2 : ev e = (ev d * 2)%R) by (rewrite Ee; unfold rd64; rewrite (rnd_fmt _ (fmt_twice _ (fin_format d Fd))); apply clamp_id; lra).
  assert (Fe : fin e) by (apply lt_fin; [exact Ne|lra]).
  destruct (div_rounds e q Fe Fq ltac:(lra)) as [Nm Em]. set (m := e ⊘ q) in *. rewrite Ee2 in Em.
  assert (P : (0 < / ev q <= / 2)%R) by (split; [apply Rinv_0_lt_compat; lra|apply Rinv_le; lra]).
  assert (Hm : (- ev g <= ev m <= ev u)%R) by (rewrite Em; unfold Rdiv; split; [apply rd64_gen|apply rd64_le]; try assumption; nra).
  assert (Fm : fin m) by (apply lt_fin; [exact Nm|lra]).
  assert (Hs : (ev m + ev g <= B * 2)%R).
  { destruct (Rle_dec (ev g) (ev u)) as [L|L]; [lra|]. assert (Pd : (ev d <= 0)%R) by (rewrite Ed, <- rd64_0; apply rd64_mono; lra).
    assert (ev m <= 0)%R; [|lra]. rewrite Em. apply Rle_trans with (rd64 0); [apply rd64_mono; unfold Rdiv; nra|rewrite rd64_0; lra]. }
  apply (rounds_bd _ _ _ (add_rounds m g Fm Fg)); [split; auto|]. lra.
Qed.
Lemma rmi_out_within B a b : bd B a -> bd B b -> okb (B + B) -> within64 0 100 (@rmi_out F a b).
Proof.
  intros Hu Hd HB. apply in64_within; [apply rmi_out_64; left; eapply bd_nn; eassumption|]. unfold rmi_out, truth. destruct (@feq F a (@of_Z F 0)) eqn:E; cbn [negb]; [discriminate|].
  assert (Pu : (0 < ev a)%R).
  { destruct Hu as [Fu Bu]. destruct (fin_of_Z 0 ltac:(unfold BIG; lia)) as [F0 E0]. destruct (Req_dec (ev a) 0) as [Z|Z]; [|lra]. exfalso.
    assert (X : SFeqb a (f64_of_Z 0) = true) by (apply eq_ev; [apply fin_num; assumption..|rewrite E0; exact Z]). change (@feq F a (@of_Z F 0)) with (SFeqb a (f64_of_Z 0)) in E. congruence. }
  apply (scale_num 100); [lia|apply share_in64; eapply bd_nn; eassumption|]. apply (share_num B); assumption.
Qed.
Lemma MAX0_bd a b : ord64 a -> ord64 b -> bd (P2 901) (@MAXf F (@of_Z F 0) (@fsub F a b)).
Proof.
  intros Ha Hb. destruct (ord_fin a Ha) as [Fa Ba], (ord_fin b Hb) as [Fb Bb]. pose proof (MAX0_nn lm pw _ (sub_double a b (proj1 Ha) (proj1 Hb))) as NN.
  destruct (sub_rounds a b Fa Fb) as [N E]. destruct (okb_P 901 ltac:(lia)) as [O [_ O1]]. assert (T : (P2 901 = P2 900 * 2)%R) by (change 901 with (900 + 1); rewrite bpow_plus; reflexivity).
  assert (L1 : (ev (a ⊖ b) <= P2 901)%R) by (rewrite E, <- O; apply rd64_mono; lra). assert (L2 : (- P2 901 <= ev (a ⊖ b))%R) by (rewrite E, <- O, <- rd64_opp; apply rd64_mono; lra).
  unfold MAXf in *. change (@fsub F a b) with (a ⊖ b) in *. destruct (@flt F _ _); [apply bd_0, bpow_ge_0|].
  assert (Fs : fin (a ⊖ b)) by (apply lt_fin; [exact N|lra]). split; [exact Fs|]. split; [|exact L1]. destruct NN as [_ [X|[_ X]]]; [rewrite X in Fs; destruct Fs as [_ []]|exact X].
Qed.
Lemma rmi_ord size x p o : Forall ord64 x -> ord64 p -> 0 <= size -> pp (@ti_rmi F size [x] [p; o]) (fun r => Forall (Forall (within64 0 100)) (snd r)).
Proof.
  intros Hx Dp Hs. unfold ti_rmi. destruct (@flt F p (@of_Z F 1)) eqn:E1; [apply pp_ok; repeat constructor|].
  destruct (@flt F o (@of_Z F 1)); [apply pp_ok; repeat constructor|]. destruct (@flt F (@of_Z F size) _); [apply pp_ok; repeat constructor|].
  eapply pp_bind; [apply pp_any|intros n _].
  assert (O1 : okb (P2 901)) by (apply okb_P; lia). assert (O2 : okb (P2 901 * 2)) by (change 2%R with (P2 1); rewrite <- bpow_plus; apply okb_P; lia). pose proof (bpow_gt_0 radix2 901) as Q1.
  assert (O22 : okb (P2 901 * 2 * 2)) by (change 2%R with (P2 1); rewrite <- !bpow_plus; apply okb_P; lia).
  assert (O4 : okb (P2 901 * 2 + P2 901 * 2)) by (replace (P2 901 * 2 + P2 901 * 2)%R with (P2 901 * P2 2)%R by (change (P2 2) with 4%R; ring); rewrite <- bpow_plus; apply okb_P; lia).
  assert (Q : fin (f64_of_Z 1 ⊕ p) /\ (2 <= ev (f64_of_Z 1 ⊕ p))%R).
  { destruct (fin_of_Z 1 ltac:(unfold BIG; lia)) as [F1 V1]. destruct (ord_fin p Dp) as [Fp Bp].
    assert (L : (1 <= ev p)%R).
    { apply Rnot_lt_le. intros L. rewrite <- V1 in L. apply (lt_ev p _ (fin_num _ Fp) (fin_num _ F1)) in L. change (@flt F p (@of_Z F 1)) with (SFltb p (f64_of_Z 1)) in E1. congruence. }
    destruct (add_rounds _ p F1 Fp) as [N E]. rewrite V1 in E.
    assert (G : (2 <= ev (f64_of_Z 1 ⊕ p))%R) by (rewrite E; apply Rle_trans with (rd64 (IZR 2)); [rewrite rd64_Z by (unfold BIG; lia); lra|apply rd64_mono; lra]).
    split; [|exact G]. assert (1 <= P2 900)%R by (apply (bpow_le radix2 0 900); lia). assert (T : (P2 901 = P2 900 * 2)%R) by (change 901 with (900 + 1); rewrite bpow_plus; reflexivity).
    eapply (rounds_bd _ _ _ (add_rounds _ p F1 Fp) O1). rewrite V1. lra. }
  destruct Q as [Fq Pq]. unfold batch_loops. intros r E.
  match type of E with (bind ?m _ = _) => destruct m as [[s' outs]|u] eqn:R; cbn [bind] in E; [|discriminate E] end. injection E as <-.
  apply (@loops_outs F _ (fun i (s : option spec_float * option spec_float) => (forall g, fst s = Some g -> bd (P2 901 * 2) g) /\ (forall l, snd s = Some l -> bd (P2 901 * 2) l)) [within64 0 100]) in R;
    [inversion R; subst; match goal with H : Forall2 _ [] _ |- _ => inversion H; subst end; repeat constructor; assumption|exact Hs|split; discriminate|].
  clear R. intros i [g l] r Hi [Hg Hl]. unfold dispatch. cbn [dispatch' Stream.bounded Stream.final fst snd] in *.
  assert (B1 : forall a b : spec_float, ord64 a -> ord64 b -> bd (P2 901 * 2) (@MAXf F (@of_Z F 0) (a ⊖ b))) by (intros; eapply bd_le; [|apply MAX0_bd; assumption]; lra).
  destruct (i <? n) eqn:E2; [|destruct (i <? n + 1) eqn:E3].
  - intros H. injection H; intros <-. split; [repeat constructor|]. split; assumption.
  - match goal with |- ?m = Ok r -> ?C => enough (K : pp m (fun r => @outs_ok F [within64 0 100] (snd r) /\ (forall g, fst (fst r) = Some g -> bd (P2 901 * 2) g) /\ (forall l, snd (fst r) = Some l -> bd (P2 901 * 2) l))) by (apply K) end.
    ppq Hx a Da. ppq Hx b Db. apply pp_ok. cbn [fst snd]. split.
    + constructor; [|constructor]. constructor; [|constructor]. eapply rmi_out_within; [apply B1; assumption..|exact O4].
    + split; intros q E; injection E; intros <-; apply B1; assumption.
  - match goal with |- ?m = Ok r -> ?C => enough (K : pp m (fun r => @outs_ok F [within64 0 100] (snd r) /\ (forall g, fst (fst r) = Some g -> bd (P2 901 * 2) g) /\ (forall l, snd (fst r) = Some l -> bd (P2 901 * 2) l))) by (apply K) end.
    ppq Hx a Da. ppq Hx b Db. destruct g as [g|]; [|apply pp_ub]. destruct l as [l|]; [|apply pp_ub]. cbn [val bind]. apply pp_ok. cbn [fst snd].
    pose proof (rmi_step_bd _ _ g _ (MAX0_bd a b Da Db) (Hg g eq_refl) Fq Pq O2 O22) as G1. pose proof (rmi_step_bd _ _ l _ (MAX0_bd b a Db Da) (Hl l eq_refl) Fq Pq O2 O22) as G2.
    split.
    + constructor; [|constructor]. constructor; [|constructor]. eapply rmi_out_within; [exact G1|exact G2|exact O4].
    + split; intros q E; injection E; intros <-; assumption.
Qed.

(** *** willr, bop *)
Lemma ratio_num a b c d : ord64 a -> ord64 b -> ord64 c -> ord64 d -> SFeqb (c ⊖ d) (f64_of_Z 0) = false -> num ((a ⊖ b) ⊘ (c ⊖ d)).
Proof.
  intros Ha Hb Hc Hd E. assert (K : forall a b, ord64 a -> ord64 b -> fin (a ⊖ b)).
  { intros x y Hx Hy. destruct (ord_fin x Hx) as [Fx Bx], (ord_fin y Hy) as [Fy By]. destruct (sub_rounds x y Fx Fy) as [N Es]. destruct (okb_P 901 ltac:(lia)) as [O [_ O1]].
    assert (T : (P2 901 = P2 900 * 2)%R) by (change 901 with (900 + 1); rewrite bpow_plus; reflexivity).
    assert (L1 : (ev (x ⊖ y) <= P2 901)%R) by (rewrite Es, <- O; apply rd64_mono; lra). assert (L2 : (- P2 901 <= ev (x ⊖ y))%R) by (rewrite Es, <- O, <- rd64_opp; apply rd64_mono; lra).
    apply lt_fin; [exact N|lra]. }
  destruct (fin_of_Z 0 ltac:(unfold BIG; lia)) as [F0 E0]. pose proof (K c d Hc Hd) as Fd. apply (div_rounds _ _ (K a b Ha Hb) Fd). intros Z. assert (SFeqb (c ⊖ d) (f64_of_Z 0) = true); [|congruence].
  apply eq_ev; [apply fin_num; assumption..|]. rewrite E0. exact Z.
Qed.
Lemma bop_ord size o h l c : zlen o = size -> zlen h = size -> zlen l = size -> zlen c = size -> 0 <= size <= INT_MAX ->
  Forall ord64 o -> Forall ord64 h -> Forall ord64 l -> Forall ord64 c ->
  (forall j, 0 <= j < size -> SFleb (@zf F l j) (@zf F o j) = true /\ SFleb (@zf F o j) (@zf F h j) = true /\ SFleb (@zf F l j) (@zf F c j) = true /\ SFleb (@zf F c j) (@zf F h j) = true) ->
  exists out, @ti_bop F size [o; h; l; c] [] = Ok (OKAY, [out]) /\ zlen out = size /\ Forall (within64 (-1) 1) out.
Proof.
  intros Ho Hh Hl Hc Hs Do Dh Dl Dc HB. destruct (bop_64 lm pw size o h l c) as (out & E & Z & G); try assumption; try (apply ord_double; assumption).
  exists out. split; [exact E|split; [exact Z|]]. pose proof (@bop_fun F size o h l c Ho Hh Hl Hc Hs) as E2. pose proof (eq_trans (eq_sym E) E2) as X. injection X as ->. clear E E2. apply Forall_tab. intros i Hi.
  assert (Gi := G). rewrite Forall_forall in Gi. apply in64_within.
  - apply Gi. unfold tab. apply in_map_iff. exists (Z.to_nat i). split; [cbv beta; replace (0 + Z.of_nat (Z.to_nat i)) with i by lia; reflexivity|apply in_seq; lia].
  - match goal with |- (if ?b then _ else _) <> _ => destruct b eqn:EL; [discriminate|] end. pose proof (zf_at lm pw o i _ Do ltac:(lia)) as Zo. pose proof (zf_at lm pw h i _ Dh ltac:(lia)) as Zh. pose proof (zf_at lm pw l i _ Dl ltac:(lia)) as Zl. pose proof (zf_at lm pw c i _ Dc ltac:(lia)) as Zc.
    apply (ratio_num _ _ _ _ Zc Zo Zh Zl). change (SFleb (@zf F h i ⊖ @zf F l i) (f64_of_Z 0) = false) in EL. unfold SFleb, SFeqb in *. destruct (SFcompare _ _) as [[]|]; congruence.
Qed.
Lemma willr_ord size h l c o p : zlen h = size -> zlen l = size -> zlen c = size -> 0 <= size <= INT_MAX ->
  @to_int F o = Some p -> 1 <= p -> Forall ord64 h -> Forall ord64 l -> Forall ord64 c ->
  (forall j, 0 <= j < size -> SFleb (@zf F l j) (@zf F c j) = true /\ SFleb (@zf F c j) (@zf F h j) = true) ->
  exists out, @ti_willr F size [h; l; c] [o] = Ok (OKAY, [out]) /\ zlen out = Z.max 0 (size - p + 1) /\ Forall (within64 (-100) 0) out.
Proof.
  intros Hh Hl Hc Hs Ho Hp Dh Dl Dc HB.
  destruct (willr_64 lm pw size h l c o p) as (out & E & Z & G); try assumption; try (apply ord_double; assumption).
  exists out. split; [exact E|split; [exact Z|]].
  assert (NN : forall x : list spec_float, Forall ord64 x -> Forall not_nan x).
  { intros x. apply Forall_impl. intros v Hv. destruct (ord_fin v Hv) as [Fv _]. intros ->. destruct Fv as [_ []]. }
  destruct (@C15_willr F _ not_nan (F64_ord lm pw) size h l c o p) as (out2 & E2 & Zo & H); try assumption; try (apply NN; assumption).
  pose proof (eq_trans (eq_sym E) E2) as X. injection X as <-. clear E2 Zo. rewrite Forall_forall in G. apply Forall_forall. intros v Hv. apply in64_within; [apply G, Hv|].
  apply (In_nth _ _ (@f0 F)) in Hv as (n & Hn & <-). specialize (H (Z.of_nat n)). unfold zf at 1, zn in H. rewrite Nat2Z.id in H.
  assert (Hn2 : Z.of_nat n < Z.max 0 (size - p + 1)) by (rewrite <- Z; apply Nat2Z.inj_lt; exact Hn). destruct H as (hh & ll & [Ih Mh] & [Il Ml] & ->); [lia|].
  match goal with |- (if ?b then _ else _) <> _ => destruct b eqn:EE; [discriminate|] end. set (k := Z.of_nat n) in *.
  assert (Wd : forall (x : list spec_float) v, Forall ord64 x -> In v (window k p x) -> ord64 v).
  { intros x v Dx Hv. rewrite Forall_forall in Dx. apply Dx. unfold window in Hv. rewrite <- (firstn_skipn (Z.to_nat k) x). apply in_or_app. right. rewrite <- (firstn_skipn (Z.to_nat p) (skipn (Z.to_nat k) x)). apply in_or_app. left. exact Hv. }
  pose proof (Wd _ _ Dh Ih) as Dhh. pose proof (Wd _ _ Dl Il) as Dll. pose proof (zf_at lm pw c (k + p - 1) _ Dc ltac:(lia)) as Zc.
  pose proof (ratio_num _ _ _ _ Dhh Zc Dhh Dll EE) as N.
  destruct (fin_of_Z (-100) ltac:(unfold BIG; lia)) as [F1 V1].
  destruct (num_cases _ N) as [X|[X|X]].
  - apply (mul_rounds _ _ F1 X).
  - change (f64_of_Z (-100) ⊗ ((hh ⊖ @zf F c (k + p - 1)) ⊘ (hh ⊖ ll)) <> nan). rewrite X. vm_compute. discriminate.
  - change (f64_of_Z (-100) ⊗ ((hh ⊖ @zf F c (k + p - 1)) ⊘ (hh ⊖ ll)) <> nan). rewrite X. vm_compute. discriminate.
Qed.
End F.

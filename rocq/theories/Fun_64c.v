(** Range of rmi in binary64. *)
From Verif Require Import F64Laws StreamOut M_basic M_osc M_window M_stream1 M_stream4 Spec Tactics Fun_any Properties_basic Properties_window.
From Coq Require Import Floats.SpecFloat ZifyBool Reals Lra.
From Flocq Require Import Core.Core IEEE754.BinarySingleNaN Mult_error.
From Verif Require Import F64Range Fun_64 Fun_64b.
Open Scope Z_scope.
#[local] Existing Instance Hprec.
#[local] Existing Instance Hmax.
#[local] Notation "x ⊕ y" := (SFadd prec64 emax64 x y) (at level 50, left associativity).
#[local] Notation "x ⊖ y" := (SFsub prec64 emax64 x y) (at level 50, left associativity).
#[local] Notation "x ⊗ y" := (SFmul prec64 emax64 x y) (at level 40, left associativity).
#[local] Notation "x ⊘ y" := (SFdiv prec64 emax64 x y) (at level 40, left associativity).
#[local] Notation inf := (S754_infinity false).
#[local] Notation ninf := (S754_infinity true).
#[local] Notation nan := S754_nan.

(** NaN, nonnegative, or minus infinity (reached when 2*gain overflows) *)
Definition mm (x : spec_float) : Prop := nn x \/ x = ninf.
Lemma mm_double x : mm x -> is_double x. Proof. intros [H| ->]; [apply nn_double, H|reflexivity]. Qed.
Lemma fmt_twice x : fmt x -> fmt (x * 2).
Proof. intros H. change 2%R with (bpow radix2 1). apply (mult_bpow_pos_exact_FLT radix2 (-1074) 53); [exact H|lia]. Qed.
Definition big2 (q : spec_float) : Prop := q = nan \/ q = inf \/ (fin q /\ (2 <= ev q)%R).
Lemma rmi_step u g q : nn u -> mm g -> big2 q -> mm ((u ⊖ g) ⊗ f64_of_Z 2 ⊘ q ⊕ g).
Proof.
  intros Hu Hg Hq. destruct (fin_of_Z 2 ltac:(unfold BIG; lia)) as [F2 E2].
  assert (I2 : inf ⊗ f64_of_Z 2 = inf /\ ninf ⊗ f64_of_Z 2 = ninf) by (apply inf_mul; [exact F2|rewrite E2; lra]).
  assert (Iq : (inf ⊘ q = nan \/ inf ⊘ q = inf) /\ (ninf ⊘ q = nan \/ ninf ⊘ q = ninf)).
  { destruct Hq as [->|[->|[Fq Pq]]]; [cbn; auto..|]. destruct (pos_form q Fq ltac:(lra)) as (m & e & ->). cbn. auto. }
  destruct Iq as [Ip In].
  destruct Hg as [Hg| ->].
  2:{ left. destruct (nn_cases u Hu) as [->|[->|[Fu Pu]]]; [nans; apply nn_nan|..]; rewrite ?sub_ninf by assumption;
      [change (inf ⊖ ninf) with inf|]; rewrite (proj1 I2); destruct Ip as [-> | ->]; apply nn_nan. }
  destruct (nn_cases g Hg) as [->|[->|[Fg Pg]]].
  - left. nans. apply nn_nan.
  - left. destruct (nn_cases u Hu) as [->|[->|[Fu Pu]]]; [nans; apply nn_nan|change (inf ⊖ inf) with nan; nans; apply nn_nan|].
    rewrite sub_inf by assumption. rewrite (proj2 I2). destruct In as [-> | ->]; apply nn_nan.
  - destruct (nn_cases u Hu) as [->|[->|[Fu Pu]]]; [left; nans; apply nn_nan|..].
    { left. rewrite inf_sub by assumption. rewrite (proj1 I2). destruct Ip as [-> | ->]; [nans; apply nn_nan|rewrite inf_add by assumption; apply nn_inf]. }
    destruct (sub_rounds u g Fu Fg) as [Nd Ed]. set (d := u ⊖ g) in *.
    assert (Hd : (- ev g <= ev d <= ev u)%R) by (rewrite Ed; split; [apply rd64_gen|apply rd64_le]; try assumption; lra).
    pose proof (fin_lt u Fu). pose proof (fin_lt g Fg). assert (Fd : fin d) by (apply lt_fin; [exact Nd|lra]).
    destruct (mul_rounds d (f64_of_Z 2) Fd F2) as [Ne Ee]. set (e := d ⊗ f64_of_Z 2) in *. rewrite E2 in Ee.
    destruct (num_cases e Ne) as [Fe|[X|X]].
    + assert (Ee2 : ev e = (ev d * 2)%R).
      { pose proof (fin_lt e Fe) as Le. rewrite Ee in Le |- *. unfold rd64 in *. rewrite (rnd_fmt _ (fmt_twice _ (fin_format d Fd))) in *.
        unfold Rmax, Rmin in *. repeat destruct Rle_dec; lra. }
      left. destruct Hq as [->|[->|[Fq Pq]]].
      * nans. apply nn_nan.
      * destruct (div_inf_0 e Fe) as [s ->]. destruct (zero_fin s) as [Fz Ez]. destruct (add_rounds _ g Fz Fg) as [N E]. apply nn_num; [exact N|].
        rewrite E, Ez. apply Rle_trans with (rd64 0); [rewrite rd64_0; lra|apply rd64_mono; lra].
      * destruct (div_rounds e q Fe Fq ltac:(lra)) as [Nm Em]. set (m := e ⊘ q) in *. rewrite Ee2 in Em.
        assert (P : (0 < / ev q <= / 2)%R) by (split; [apply Rinv_0_lt_compat; lra|apply Rinv_le; lra]).
        assert (Hm : (- ev g <= ev m <= ev u)%R) by (rewrite Em; unfold Rdiv; split; [apply rd64_gen|apply rd64_le]; try assumption; nra).
        assert (Fm : fin m) by (apply lt_fin; [exact Nm|lra]). destruct (add_rounds m g Fm Fg) as [N E]. apply nn_num; [exact N|].
        rewrite E. apply Rle_trans with (rd64 0); [rewrite rd64_0; lra|apply rd64_mono; lra].
    + left. rewrite X. destruct Ip as [-> | ->]; [nans; apply nn_nan|]. rewrite inf_add by assumption. apply nn_inf.
    + rewrite X. destruct In as [-> | ->]; [left; nans; apply nn_nan|]. right. apply ninf_add. assumption.
Qed.
Lemma rmi_share a b : mm a -> mm b -> in64 0 1 (a ⊘ (a ⊕ b)).
Proof.
  intros Ha Hb. destruct Ha as [Ha| ->].
  - destruct Hb as [Hb| ->]; [apply share_in64; assumption|]. destruct (nn_cases a Ha) as [->|[->|[Fa Pa]]]; [nans; apply nan_in64|apply nan_in64|].
    rewrite add_ninf by assumption. assert (exists s, a ⊘ ninf = S754_zero s) as [s ->] by (destruct a as [?|?| |? ? ?]; destruct Fa as [_ []]; cbn; eauto).
    destruct (zero_fin s) as [Fz Ez]. apply between_in64; [apply fin_num, Fz|unfold BIG; lia..|]. rewrite Ez. lra.
  - destruct Hb as [Hb| ->]; [|apply nan_in64]. destruct (nn_cases b Hb) as [->|[->|[Fb Pb]]]; [apply nan_in64..|]. rewrite ninf_add by assumption. apply nan_in64.
Qed.

(** *** the middle of two doubles *)
Definition half64 : spec_float := SFdiv prec64 emax64 (f64_of_Z 5) (f64_of_Z 10).
Lemma half_ev : fin (half64) /\ ev (half64) = (1 / 2)%R.
Proof.
  replace (half64) with (S754_finite false 4503599627370496 (-53)) by (vm_compute; reflexivity).
  split; [split; [reflexivity|exact I]|]. unfold ev, SF2R, F2R. cbn [Fnum Fexp cond_Zopp].
  change (IZR (Z.pos 4503599627370496)) with (bpow radix2 52). rewrite <- bpow_plus. change (52 + -53) with (-1). cbn. lra.
Qed.
Lemma mid_64 l h : num l -> num h -> (ev l <= ev h)%R -> (- bpow radix2 1022 <= ev l)%R -> (ev h <= bpow radix2 1022)%R ->
  fin ((h ⊕ l) ⊗ half64) /\ (ev l <= ev ((h ⊕ l) ⊗ half64) <= ev h)%R.
Proof.
  intros Nl Nh L Bl Bh. pose proof (bpow_Bnd 1022 ltac:(lia)) as LB. assert (B2 : (bpow radix2 1022 * 2 < Bnd)%R).
  { change 2%R with (bpow radix2 1). rewrite <- bpow_plus. apply bpow_Bnd. lia. }
  assert (Fl : fin l) by (apply lt_fin; [exact Nl|lra]). assert (Fh : fin h) by (apply lt_fin; [exact Nh|lra]).
  destruct (add_rounds h l Fh Fl) as [Ns Es]. set (s := h ⊕ l) in *.
  assert (T : forall v, fin v -> (- bpow radix2 1022 <= ev v <= bpow radix2 1022)%R -> rd64 (ev v * 2) = (ev v * 2)%R).
  { intros v Fv Bv. unfold rd64. rewrite (rnd_fmt _ (fmt_twice _ (fin_format v Fv))). unfold Rmax, Rmin. repeat destruct Rle_dec; lra. }
  assert (Hs : (ev l * 2 <= ev s <= ev h * 2)%R).
  { rewrite Es. split; [rewrite <- (T l Fl) by lra|rewrite <- (T h Fh) by lra]; apply rd64_mono; lra. }
  assert (Fs : fin s) by (apply lt_fin; [exact Ns|lra]). destruct half_ev as [F5 E5].
  destruct (mul_rounds s _ Fs F5) as [Nm Em]. rewrite E5 in Em. set (m := s ⊗ half64) in *.
  assert (Hm : (ev l <= ev m <= ev h)%R) by (rewrite Em; split; [apply rd64_ge|apply rd64_le]; try assumption; lra).
  split; [apply lt_fin; [exact Nm|lra]|exact Hm].
Qed.

Section F.
Variable lm : libm1 -> spec_float -> spec_float.
Variable pw : spec_float -> spec_float -> spec_float.
Notation F := (F64 lm pw).
#[local] Existing Instance F64_laws.
Tactic Notation "ppr" constr(H) ident(a) ident(Da) := eapply pp_bind; [apply pp_rd, H|intros a Da].
Lemma rmi_out_64 a b : mm a -> mm b -> in64 0 100 (@rmi_out F a b).
Proof.
  intros Ha Hb. unfold rmi_out. destruct (@truth F a); [|apply zero_in64; unfold BIG; lia]. apply (scale_in64 100 0 1); try lia. apply rmi_share; assumption.
Qed.
Lemma MAX0_nn v : is_double v -> nn (@MAXf F (@of_Z F 0) v).
Proof.
  intros D. unfold MAXf. destruct (@flt F v (@of_Z F 0)) eqn:E; [apply nn_0|]. apply not_neg_nn; assumption.
Qed.
Lemma rmi_64 size x p o : Forall is_double x -> is_double p -> 0 <= size -> pp (@ti_rmi F size [x] [p; o]) (ranges64 0 100).
Proof.
  intros Hx Dp Hs. unfold ti_rmi. destruct (@flt F p (@of_Z F 1)) eqn:E1; [apply pp_ok, ranges_nil|].
  destruct (@flt F o (@of_Z F 1)); [apply pp_ok, ranges_nil|]. destruct (@flt F (@of_Z F size) _); [apply pp_ok, ranges_nil|].
  eapply pp_bind; [apply pp_any|intros n _].
  assert (Q : big2 (f64_of_Z 1 ⊕ p)).
  { destruct (fin_of_Z 1 ltac:(unfold BIG; lia)) as [F1 V1]. destruct (double_cases p Dp) as [->|Np]; [left; nans; reflexivity|].
    assert (L : (1 <= ev p)%R).
    { apply Rnot_lt_le. intros L. rewrite <- V1 in L. apply (lt_ev p _ Np (fin_num _ F1)) in L. change (@flt F p (@of_Z F 1)) with (SFltb p (f64_of_Z 1)) in E1. congruence. }
    pose proof Bnd_pos. destruct (num_cases p Np) as [Fp|[->| ->]]; [|right; left; rewrite add_inf by assumption; reflexivity|cbn [ev] in L; lra].
    destruct (add_rounds _ p F1 Fp) as [N E]. rewrite V1 in E.
    assert (G : (2 <= ev (f64_of_Z 1 ⊕ p))%R) by (rewrite E; apply Rle_trans with (rd64 (IZR 2)); [rewrite rd64_Z by (unfold BIG; lia); lra|apply rd64_mono; lra]).
    destruct (num_cases _ N) as [Fq|[X|X]]; [right; right; split; assumption|right; left; exact X|]. rewrite X in G. cbn [ev] in G. lra. }
  unfold batch_loops. intros r E.
  match type of E with (bind ?m _ = _) => destruct m as [[s' outs]|u] eqn:R; cbn [bind] in E; [|discriminate E] end. injection E as <-.
  apply (@loops_outs F _ (fun i (s : option spec_float * option spec_float) => (forall g, fst s = Some g -> mm g) /\ (forall l, snd s = Some l -> mm l)) [in64 0 100]) in R;
    [inversion R; subst; match goal with H : Forall2 _ [] _ |- _ => inversion H; subst end; apply ranges_one; assumption|exact Hs|split; discriminate|].
  clear R. intros i [g l] r Hi [Hg Hl]. unfold dispatch. cbn [dispatch' Stream.bounded Stream.final fst snd] in *.
  assert (B1 : forall a b : spec_float, is_double a -> is_double b -> mm (@MAXf F (@of_Z F 0) (a ⊖ b))) by (intros; left; apply MAX0_nn, sub_double; assumption).
  destruct (i <? n) eqn:E2; [|destruct (i <? n + 1) eqn:E3].
  - intros H. injection H; intros <-. split; [repeat constructor|]. split; assumption.
  - match goal with |- ?m = Ok r -> ?C => enough (K : pp m (fun r => @outs_ok F [in64 0 100] (snd r) /\ (forall g, fst (fst r) = Some g -> mm g) /\ (forall l, snd (fst r) = Some l -> mm l))) by (apply K) end.
    ppr Hx a Da. ppr Hx b Db. apply pp_ok. cbn [fst snd]. split.
    + constructor; [|constructor]. constructor; [|constructor]. apply rmi_out_64; apply B1; assumption.
    + split; intros q E; injection E; intros <-; apply B1; assumption.
  - match goal with |- ?m = Ok r -> ?C => enough (K : pp m (fun r => @outs_ok F [in64 0 100] (snd r) /\ (forall g, fst (fst r) = Some g -> mm g) /\ (forall l, snd (fst r) = Some l -> mm l))) by (apply K) end.
    ppr Hx a Da. ppr Hx b Db. destruct g as [g|]; [|apply pp_ub]. destruct l as [l|]; [|apply pp_ub]. cbn [val bind]. apply pp_ok. cbn [fst snd].
    pose proof (rmi_step _ g _ (MAX0_nn _ (sub_double a b Da Db)) (Hg g eq_refl) Q) as G1. pose proof (rmi_step _ l _ (MAX0_nn _ (sub_double b a Db Da)) (Hl l eq_refl) Q) as G2.
    split.
    + constructor; [|constructor]. constructor; [|constructor]. apply rmi_out_64; assumption.
    + split; intros q E; injection E; intros <-; assumption.
Qed.
(** *** adx is not negative *)
Lemma in64_nn hi v : in64 0 hi v -> nn v.
Proof. intros [D [H|[H _]]]; apply nn_in64; split; auto. Qed.
Lemma adx_64 size h l o : Forall is_double h -> Forall is_double l -> pp (@ti_adx F size [h; l] [o]) (fun r => Forall (Forall nn) (snd r)).
Proof.
  intros Hh Hl. unfold ti_adx. eapply pp_bind; [apply (pp_cast lm pw o (fun n => n <= INT_MAX)); auto|]. intros p Hp. cbv beta in Hp. cbv zeta.
  destruct (p <? 2) eqn:E1; [apply pp_ok; repeat constructor|]. eapply pp_bind; [apply pp_any|intros st _]. destruct (size <=? _); [apply pp_ok; repeat constructor|].
  destruct (frac_fin p ltac:(lia)) as [Fk Hk]. destruct (inv_fin p ltac:(lia)) as [Fi Hi]. eapply pp_bind; [apply dm_init_nn; assumption|]. intros [u v] [Hu Hv]. cbn [fst snd] in *.
  eapply (pp_bind _ _ (fun s => let '(u, v, a, out) := s in nn u /\ nn v /\ nn a /\ Forall nn out)).
  { apply pp_for; [split; [exact Hu|split; [exact Hv|split; [|constructor]]]; apply add_nn; [apply nn_0|apply (in64_nn 100), dx_in64; assumption]|].
    intros i [[[a b] x] out] (Ha & Hb & Hx & Ho). eapply pp_bind; [apply direction_nn; assumption|]. intros [d1 d2] [H1 H2]. cbn [fst snd] in *.
    pose proof (add_nn _ _ (mul_nn a _ Ha Fk Hk) H1) as G1. pose proof (add_nn _ _ (mul_nn b _ Hb Fk Hk) H2) as G2.
    pose proof (in64_nn _ _ (dx_in64 lm pw _ _ G1 G2)) as G3.
    assert (Pi : (0 <= ev (SFdiv prec64 emax64 (f64_of_Z 1) (f64_of_Z p)))%R) by lra.
    pose proof (add_nn _ _ Hx G3) as G4. pose proof (add_nn _ _ (mul_nn x _ Hx Fk Hk) G3) as G5.
    destruct (i - p <? p - 2); [|destruct (i - p =? p - 2)]; apply pp_ok.
    - split; [exact G1|split; [exact G2|split; [exact G4|exact Ho]]].
    - split; [exact G1|split; [exact G2|split; [exact G4|]]]. apply Forall_snoc; [exact Ho|]. exact (mul_nn _ _ G4 Fi Pi).
    - split; [exact G1|split; [exact G2|split; [exact G5|]]]. apply Forall_snoc; [exact Ho|]. exact (mul_nn _ _ G5 Fi Pi). }
  intros [[[a b] x] out] (_ & _ & _ & Ho). eapply pp_bind; [apply pp_any|intros ? _]. apply pp_ok. repeat constructor; assumption.
Qed.

(** *** medprice stays between the low and the high *)
Lemma medprice_64 size h l : zlen h = size -> zlen l = size -> 0 <= size <= INT_MAX -> Forall is_double h -> Forall is_double l ->
  (forall j, 0 <= j < size -> SFleb (SFopp top64) (@zf F l j) = true /\ SFleb (@zf F l j) (@zf F h j) = true /\ SFleb (@zf F h j) top64 = true) ->
  exists out, @ti_medprice F size [h; l] [] = Ok (OKAY, [out]) /\ zlen out = size /\
    forall j, 0 <= j < size -> SFleb (@zf F l j) (@zf F out j) = true /\ SFleb (@zf F out j) (@zf F h j) = true.
Proof.
  intros Hh Hl Hs Dh Dl HB. eexists. split; [apply (@medprice_fun F size h l); assumption|]. rewrite zlen_tab. split; [lia|].
  intros j Hj. destruct (HB j Hj) as (A & B & C). assert (Z : @zf F (tab 0 size (fun i => @fmul F (@fadd F (@zf F h i) (@zf F l i)) (@lit F 5 1))) j = (@zf F h j ⊕ @zf F l j) ⊗ half64) by (unfold zf at 1; rewrite zn_tab by lia; rewrite Z.add_0_l; reflexivity).
  rewrite Z. clear Z.
  pose proof (zf_at lm pw h j _ Dh ltac:(lia)) as Zh. pose proof (zf_at lm pw l j _ Dl ltac:(lia)) as Zl. destruct ntop_ev as [Fnt Ent], top_ev as [Ft Et].
  apply (le_num _ _ (proj1 Fnt) Zl) in A as (_ & Nl & A). apply (le_num _ _ Zl Zh) in B as (_ & Nh & B). apply (le_num _ _ Zh (proj1 Ft)) in C as (_ & _ & C).
  rewrite Ent in A. rewrite Et in C. destruct (mid_64 _ _ Nl Nh B A C) as [Fm [M1 M2]].
  split; apply le_ev; first [assumption|apply fin_num; exact Fm|exact M1|exact M2].
Qed.

(** *** willr *)
Lemma willr_64 size h l c o p : zlen h = size -> zlen l = size -> zlen c = size -> 0 <= size <= INT_MAX ->
  @to_int F o = Some p -> 1 <= p -> Forall is_double h -> Forall is_double l -> Forall is_double c ->
  (forall j, 0 <= j < size -> SFleb (@zf F l j) (@zf F c j) = true /\ SFleb (@zf F c j) (@zf F h j) = true) ->
  exists out, @ti_willr F size [h; l; c] [o] = Ok (OKAY, [out]) /\ zlen out = Z.max 0 (size - p + 1) /\ Forall (in64 (-100) 0) out.
Proof.
  intros Hh Hl Hc Hs Ho Hp Dh Dl Dc HB.
  assert (NN : forall (x : list spec_float), zlen x = size -> Forall is_double x -> (forall j, 0 <= j < size -> num (@zf F x j)) -> Forall not_nan x).
  { intros x Hx _ H. apply Forall_forall. intros v Hv. apply (In_nth _ _ (@f0 F)) in Hv as (n & Hn & <-). specialize (H (Z.of_nat n)).
    unfold zf, zn in H. rewrite Nat2Z.id in H. intros E. assert (Hn2 : 0 <= Z.of_nat n < size) by (rewrite <- Hx; split; [lia|apply Nat2Z.inj_lt; exact Hn]). destruct (H Hn2) as [_ G]. apply G. exact E. }
  assert (N : forall j, 0 <= j < size -> num (@zf F l j) /\ num (@zf F c j) /\ num (@zf F h j) /\ (ev (@zf F l j) <= ev (@zf F c j) <= ev (@zf F h j))%R).
  { intros j Hj. destruct (HB j Hj) as (A & B). pose proof (zf_at lm pw h j _ Dh ltac:(lia)) as Zh. pose proof (zf_at lm pw l j _ Dl ltac:(lia)) as Zl. pose proof (zf_at lm pw c j _ Dc ltac:(lia)) as Zc.
    apply (le_num _ _ Zl Zc) in A as (Nl & Nc & A). apply (le_num _ _ Zc Zh) in B as (_ & Nh & B). tauto. }
  destruct (@C15_willr F _ not_nan (F64_ord lm pw) size h l c o p) as (out & E & Zo & H); try assumption; [apply NN; try assumption; apply N..|].
  exists out. split; [exact E|split; [exact Zo|]]. apply Forall_forall. intros v Hv. apply (In_nth _ _ (@f0 F)) in Hv as (n & Hn & <-).
  specialize (H (Z.of_nat n)). unfold zf at 1, zn in H. rewrite Nat2Z.id in H. assert (Hn2 : Z.of_nat n < Z.max 0 (size - p + 1)) by (rewrite <- Zo; apply Nat2Z.inj_lt; exact Hn). destruct H as (hh & ll & [Ih Mh] & [Il Ml] & ->); [lia|].
  destruct (_ .== _); [apply zero_in64; unfold BIG; lia|]. set (k := Z.of_nat n) in *. assert (Hk : 0 <= k < size - p + 1) by lia.
  destruct (N (k + p - 1) ltac:(lia)) as (Nl & Nc & Nh & B).
  assert (W : forall (x : list spec_float), zlen x = size -> In (@zf F x (k + p - 1)) (window k p x)) by (intros x Hx; apply (@window_in F); [lia..|change (k + p <= zlen x); lia]).
  assert (Wd : forall (x : list spec_float) v, Forall is_double x -> In v (window k p x) -> is_double v).
  { intros x v Dx Hv. rewrite Forall_forall in Dx. apply Dx. unfold window in Hv. rewrite <- (firstn_skipn (Z.to_nat k) x). apply in_or_app. right. rewrite <- (firstn_skipn (Z.to_nat p) (skipn (Z.to_nat k) x)). apply in_or_app. left. exact Hv. }
  pose proof (Wd _ _ Dh Ih) as Dhh. pose proof (Wd _ _ Dl Il) as Dll.
  rewrite Forall_forall in Mh, Ml. specialize (Mh _ (W h Hh)). specialize (Ml _ (W l Hl)). cbv beta in Mh, Ml.
  apply (le_num _ _ (proj1 Nh) Dhh) in Mh as (_ & Nhh & Mh). apply (le_num _ _ Dll (proj1 Nl)) in Ml as (Nll & _ & Ml).
  apply (nscale_in64 (-100) 0 1); try lia. apply place_in64; try assumption. lra.
Qed.
End F.

(** Series of ordinary size: no NaN, and the ranges of Fun_64 as plain inequalities. *)
From Verif Require Import F64Laws StreamOut M_basic M_osc M_window M_stream1 M_stream4 Spec Tactics Fun_any.
From Coq Require Import Floats.SpecFloat ZifyBool Reals Lra.
From Flocq Require Import Core.Core IEEE754.BinarySingleNaN Mult_error.
From Verif Require Import F64Range Fun_64 Fun_64b Fun_64c.
Open Scope Z_scope.
#[local] Existing Instance Hprec.
#[local] Existing Instance Hmax.
#[local] Notation "x ⊕ y" := (SFadd prec64 emax64 x y) (at level 50, left associativity).
#[local] Notation "x ⊖ y" := (SFsub prec64 emax64 x y) (at level 50, left associativity).
#[local] Notation "x ⊗ y" := (SFmul prec64 emax64 x y) (at level 40, left associativity).
#[local] Notation "x ⊘ y" := (SFdiv prec64 emax64 x y) (at level 40, left associativity).
#[local] Notation nan := S754_nan.
#[local] Notation P2 := (bpow radix2).

(** 2^900, about 8.45e270 *)
Definition top900 : spec_float := S754_finite false 4503599627370496 848.
(** a double between -2^900 and 2^900 *)
Definition ord64 (v : spec_float) : Prop := is_double v /\ SFleb (SFopp top900) v = true /\ SFleb v top900 = true.
(** a double between two integers *)
Definition within64 (lo hi : Z) (v : spec_float) : Prop := is_double v /\ SFleb (f64_of_Z lo) v = true /\ SFleb v (f64_of_Z hi) = true.
Lemma in64_within lo hi v : in64 lo hi v -> v <> nan -> within64 lo hi v.
Proof. intros [D [E|H]] N; [contradiction|]. split; assumption. Qed.

Lemma top900_ev : fin top900 /\ ev top900 = P2 900 /\ fin (SFopp top900) /\ ev (SFopp top900) = (- P2 900)%R.
Proof.
  split; [split; [reflexivity|exact I]|]. split; [|split; [split; [reflexivity|exact I]|]]; unfold top900, SFopp, ev, SF2R, F2R; cbn [Fnum Fexp cond_Zopp negb].
  - change (IZR (Z.pos 4503599627370496)) with (P2 52). rewrite <- bpow_plus. reflexivity.
  - change (IZR (- Z.pos 4503599627370496)) with (- (P2 52))%R. rewrite Ropp_mult_distr_l_reverse, <- bpow_plus. reflexivity.
Qed.
Lemma ord_fin v : ord64 v -> fin v /\ (- P2 900 <= ev v <= P2 900)%R.
Proof.
  intros (D & A & B). destruct top900_ev as (F1 & E1 & F2 & E2). apply (le_num _ _ (proj1 F2) D) in A as (_ & N & A). apply (le_num _ _ D (proj1 F1)) in B as (_ & _ & B).
  rewrite E1 in B. rewrite E2 in A. split; [|lra]. apply lt_fin; [exact N|]. pose proof (bpow_Bnd 900 ltac:(lia)). lra.
Qed.
Lemma ord_double x : Forall ord64 x -> Forall is_double x. Proof. apply Forall_impl. intros v H. apply H. Qed.

(** finite, between 0 and [B] *)
Definition bd (B : R) (x : spec_float) : Prop := fin x /\ (0 <= ev x <= B)%R.
Lemma bd_nn B x : bd B x -> nn x. Proof. intros [F H]. apply nn_num; [apply fin_num, F|lra]. Qed.
Lemma bd_le B C x : (B <= C)%R -> bd B x -> bd C x. Proof. intros H [F K]. split; [exact F|lra]. Qed.
Lemma bd_0 B : (0 <= B)%R -> bd B (f64_of_Z 0).
Proof. intros H. destruct (fin_of_Z 0 ltac:(unfold BIG; lia)) as [F E]. split; [exact F|rewrite E; lra]. Qed.
(** integer multiples of powers of two are doubles *)
Definition okb (B : R) : Prop := rd64 B = B /\ (0 <= B < Bnd)%R.
Lemma okb_Z i k : 0 <= i <= 2 ^ 40 -> 0 <= k <= 950 -> okb (IZR i * P2 k).
Proof.
  intros Hi Hk. destruct (fin_of_Z i ltac:(unfold BIG; lia)) as [F E]. pose proof (bpow_gt_0 radix2 k) as Pk.
  assert (Pi : (0 <= IZR i <= P2 40)%R) by (change (P2 40) with (IZR (2 ^ 40)); split; apply IZR_le; lia).
  assert (U : (IZR i * P2 k < Bnd)%R).
  { apply Rle_lt_trans with (P2 40 * P2 k)%R; [apply Rmult_le_compat_r; lra|]. rewrite <- bpow_plus. apply bpow_Bnd. lia. }
  split; [|split; [apply Rmult_le_pos; lra|exact U]]. unfold rd64.
  rewrite rnd_fmt; [apply clamp_id; pose proof Bnd_pos; split; [|lra]; assert (0 <= IZR i * P2 k)%R by (apply Rmult_le_pos; lra); lra|].
  apply (mult_bpow_pos_exact_FLT radix2 (-1074) 53); [|lia]. pose proof (fin_format _ F) as G. rewrite E in G. exact G.
Qed.
Lemma okb_P k : 0 <= k <= 950 -> okb (P2 k).
Proof. intros H. rewrite <- (Rmult_1_l (P2 k)). apply (okb_Z 1); lia. Qed.
Lemma rounds_bd x r B : rounds x r -> okb B -> (0 <= r <= B)%R -> bd B x.
Proof.
  intros [N E] [HB [H0 H1]] H. assert (G : (0 <= ev x <= B)%R) by (rewrite E; split; [rewrite <- rd64_0|rewrite <- HB]; apply rd64_mono; lra).
  split; [|exact G]. apply lt_fin; [exact N|]. pose proof Bnd_pos. lra.
Qed.
Lemma add_bd A B C x y : bd A x -> bd B y -> (A + B <= C)%R -> okb C -> bd C (x ⊕ y).
Proof. intros [Fx Hx] [Fy Hy] H HC. apply (rounds_bd _ _ _ (add_rounds x y Fx Fy) HC). lra. Qed.
Lemma diff_bd a b : fin a -> fin b -> (- P2 900 <= ev a <= P2 900)%R -> (- P2 900 <= ev b <= P2 900)%R -> (ev b <= ev a)%R -> bd (P2 901) (a ⊖ b).
Proof.
  intros Fa Fb Ha Hb L. apply (rounds_bd _ _ _ (sub_rounds a b Fa Fb)); [apply okb_P; lia|]. change 901 with (900 + 1). rewrite bpow_plus. change (P2 1) with 2%R. lra.
Qed.
Lemma gap_bd a b : ord64 a -> ord64 b -> bd (P2 901) (if SFltb b a then a ⊖ b else f64_of_Z 0).
Proof.
  intros Ha Hb. destruct (ord_fin a Ha) as [Fa Ba], (ord_fin b Hb) as [Fb Bb]. destruct (SFltb b a) eqn:E; [|apply bd_0; apply bpow_ge_0].
  apply (lt_ev b a (fin_num _ Fb) (fin_num _ Fa)) in E. apply diff_bd; try assumption; lra.
Qed.
(** the recursive average *)
Lemma step_bd B u v k : bd B u -> bd (B * 2) v -> fin k -> (0 < ev k <= 1)%R -> okb (B * 2) -> bd (B * 2) ((u ⊖ v) ⊗ k ⊕ v).
Proof.
  intros Hu Hv Fk Hk HB. pose proof (step_nn u v k (bd_nn _ _ Hu) (bd_nn _ _ Hv) Fk Hk) as NN.
  destruct Hu as [Fu Bu], Hv as [Fv Bv]. destruct HB as [HB [H0 H1]].
  destruct (sub_rounds u v Fu Fv) as [Nd Ed]. set (d := u ⊖ v) in *.
  assert (Hd : (- ev v <= ev d <= ev u)%R) by (rewrite Ed; split; [apply rd64_gen|apply rd64_le]; try assumption; lra).
  pose proof (fin_lt u Fu). pose proof (fin_lt v Fv). assert (Fd : fin d) by (apply lt_fin; [exact Nd|lra]).
  destruct (mul_rounds d k Fd Fk) as [Nm Em]. set (m := d ⊗ k) in *.
  assert (Hm : (- ev v <= ev m <= ev u)%R) by (rewrite Em; split; [apply rd64_gen|apply rd64_le]; try assumption; nra).
  assert (Fm : fin m) by (apply lt_fin; [exact Nm|lra]).
  assert (Hs : (ev m + ev v <= B * 2)%R).
  { destruct (Rle_dec (ev v) (ev u)) as [L|L]; [lra|]. assert (Pd : (ev d <= 0)%R) by (rewrite Ed, <- rd64_0; apply rd64_mono; lra).
    assert (ev m <= 0)%R; [|lra]. rewrite Em. apply Rle_trans with (rd64 0); [apply rd64_mono; nra|rewrite rd64_0; lra]. }
  destruct (add_rounds m v Fm Fv) as [N E]. assert (G : (ev (m ⊕ v) <= B * 2)%R) by (rewrite E, <- HB; apply rd64_mono, Hs).
  assert (G0 : (0 <= ev (m ⊕ v))%R) by (destruct NN as [_ [X|[_ X]]]; [destruct N as [_ N]; contradiction|exact X]).
  split; [apply lt_fin; [exact N|pose proof Bnd_pos; lra]|lra].
Qed.
(** division of a sum of n terms by n *)
Lemma mean_bd B s p : 1 <= p <= INT_MAX -> okb B -> bd (IZR p * B) s -> bd B (s ⊘ f64_of_Z p).
Proof.
  intros Hp HB [Fs Bs]. destruct (Zpos_fin p Hp) as (Fp & Ep & P1 & _). apply (rounds_bd _ _ _ (div_rounds s _ Fs Fp ltac:(lra)) HB). rewrite Ep.
  assert (I0 : (0 < / IZR p)%R) by (apply Rinv_0_lt_compat; lra). assert (I1 : (IZR p * / IZR p = 1)%R) by (apply Rinv_r; lra). destruct HB as [_ [B0 _]]. unfold Rdiv. split; [apply Rmult_le_pos; lra|].
  apply Rle_trans with (IZR p * B * / IZR p)%R; [apply Rmult_le_compat_r; lra|]. replace (IZR p * B * / IZR p)%R with (B * (IZR p * / IZR p))%R by ring. rewrite I1. lra.
Qed.
(** a share of a sum is a number *)
Lemma share_num B a b : bd B a -> bd B b -> okb (B + B) -> (0 < ev a)%R -> num (a ⊘ (a ⊕ b)).
Proof.
  intros Ha Hb HB Pa. destruct (add_bd B B (B + B) a b Ha Hb ltac:(lra) HB) as [Fs Bs]. destruct Ha as [Fa Ba], Hb as [Fb Bb].
  destruct (add_rounds a b Fa Fb) as [_ Es]. assert (ev a <= ev (a ⊕ b))%R by (rewrite Es; apply rd64_ge; [exact Fa|lra]).
  destruct (div_rounds a (a ⊕ b) Fa Fs ltac:(lra)) as [N _]. exact N.
Qed.
Lemma scale_num c q : 0 <= c <= 1000 -> in64 0 1 q -> num q -> num (f64_of_Z c ⊗ q) /\ num (q ⊗ f64_of_Z c).
Proof.
  intros Hc H [_ Nq]. destruct (in64_cases 0 1 q ltac:(unfold BIG; lia) ltac:(unfold BIG; lia) H) as [->|[Fq _]]; [congruence|].
  destruct (fin_of_Z c ltac:(unfold BIG; lia)) as [Fc _]. split; [apply (mul_rounds _ _ Fc Fq)|apply (mul_rounds _ _ Fq Fc)].
Qed.

(** loops with an invariant that depends on the index *)
Lemma pp_fori {S} (I : Z -> S -> Prop) lo hi (f : Z -> S -> res S) s :
  I lo s -> (forall i s, lo <= i < hi -> I i s -> pp (f i s) (I (i + 1))) -> pp (for_ lo hi f s) (I (Z.max lo hi)).
Proof.
  intros H0 Hf. unfold for_. replace (Z.max lo hi) with (lo + Z.of_nat (Z.to_nat (hi - lo))) by lia.
  assert (Hn : lo + Z.of_nat (Z.to_nat (hi - lo)) <= Z.max lo hi) by lia. revert Hn. generalize (Z.to_nat (hi - lo)) as n. intros n Hn. revert lo s H0 Hf Hn.
  induction n as [|n IH]; intros lo s H0 Hf Hn; cbn [iter]; [apply pp_ok; replace (lo + Z.of_nat 0) with lo by lia; exact H0|].
  eapply pp_bind; [apply Hf; [lia|exact H0]|]. intros s1 H1. replace (lo + Z.of_nat (Datatypes.S n)) with (lo + 1 + Z.of_nat n) by lia. apply IH; [exact H1|intros i t Hi Ht; apply Hf; [lia|exact Ht]|lia].
Qed.

Section F.
Variable lm : libm1 -> spec_float -> spec_float.
Variable pw : spec_float -> spec_float -> spec_float.
Notation F := (F64 lm pw).
#[local] Existing Instance F64_laws.
Tactic Notation "ppq" constr(H) ident(a) ident(Da) := eapply pp_bind; [apply (pp_rdP ord64), H|intros a Da].
Lemma rsi_within B su sd : bd B su -> bd B sd -> okb (B + B) ->
  within64 0 100 (if @truth F su then @fmul F (@of_Z F 100) (@fdiv F su (@fadd F su sd)) else @of_Z F 0).
Proof.
  intros Hu Hd HB. apply in64_within; [apply rsi_in64; eapply bd_nn; eassumption|]. unfold truth. destruct (@feq F su (@of_Z F 0)) eqn:E; cbn [negb]; [discriminate|].
  assert (Pu : (0 < ev su)%R).
  { destruct Hu as [Fu Bu]. destruct (fin_of_Z 0 ltac:(unfold BIG; lia)) as [F0 E0]. destruct (Req_dec (ev su) 0) as [Z|Z]; [|lra]. exfalso.
    assert (X : SFeqb su (f64_of_Z 0) = true) by (apply eq_ev; [apply fin_num; assumption..|rewrite E0; exact Z]).
    change (@feq F su (@of_Z F 0)) with (SFeqb su (f64_of_Z 0)) in E. congruence. }
  apply (scale_num 100); [lia|apply share_in64; eapply bd_nn; eassumption|]. apply (share_num B); assumption.
Qed.
Lemma rsi_ord size x o : Forall ord64 x -> pp (@ti_rsi F size [x] [o]) (fun r => Forall (Forall (within64 0 100)) (snd r)).
Proof.
  intros Hx. unfold ti_rsi. eapply pp_bind; [apply (pp_cast lm pw o (fun n => n <= INT_MAX)); auto|]. intros p Hp. cbv beta in Hp.
  destruct (p <? 1) eqn:E1; [apply pp_ok; repeat constructor|]. eapply pp_bind; [apply pp_any|intros ? _]. destruct (size <=? _); [apply pp_ok; repeat constructor|].
  destruct (inv_fin p ltac:(lia)) as [Fk Hk]. pose proof (bpow_gt_0 radix2 901) as Q1.
  assert (O1 : okb (P2 901)) by (apply okb_P; lia). assert (O2 : okb (P2 901 * 2)) by (change 2%R with (P2 1); rewrite <- bpow_plus; apply okb_P; lia).
  assert (O4 : okb (P2 901 * 2 + P2 901 * 2)) by (replace (P2 901 * 2 + P2 901 * 2)%R with (P2 901 * P2 2)%R by (change (P2 2) with 4%R; ring); rewrite <- bpow_plus; apply okb_P; lia).
  eapply (pp_bind _ _ (fun s => bd (IZR p * P2 901) (fst s) /\ bd (IZR p * P2 901) (snd s))).
  {
    eapply pp_mono; [apply (pp_fori (fun i s => bd (IZR (i - 1) * P2 901) (fst s) /\ bd (IZR (i - 1) * P2 901) (snd s))); [split; apply bd_0; apply Rmult_le_pos; [apply (IZR_le 0); lia|lra|apply (IZR_le 0); lia|lra]|]|
      intros s; cbv beta; replace (Z.max 1 (p + 1) - 1) with p by lia; exact (fun H => H)].
    intros i [su sd] Hi [Hu Hd]. cbn [fst snd] in *. ppq Hx a Da. ppq Hx b Db. apply pp_ok. replace (i + 1 - 1) with i by lia.
    assert (Oi : okb (IZR i * P2 901)) by (apply okb_Z; unfold INT_MAX in *; lia).
    assert (Si : (IZR (i - 1) * P2 901 + P2 901 <= IZR i * P2 901)%R) by (rewrite minus_IZR; lra).
    split; (eapply add_bd; [eassumption|apply gap_bd; assumption|exact Si|exact Oi]). }
  intros [su sd] [Hu Hd]. cbn [fst snd] in *. cbv zeta. apply (mean_bd _ su p ltac:(lia) O1) in Hu. apply (mean_bd _ sd p ltac:(lia) O1) in Hd.
  apply (bd_le _ (P2 901 * 2)) in Hu; [|lra]. apply (bd_le _ (P2 901 * 2)) in Hd; [|lra].
  eapply (pp_bind _ _ (fun s => bd (P2 901 * 2) (fst (fst s)) /\ bd (P2 901 * 2) (snd (fst s)) /\ Forall (within64 0 100) (snd s))).
  { apply pp_for; [cbn [fst snd]; split; [exact Hu|split; [exact Hd|constructor; [eapply rsi_within; eassumption|constructor]]]|].
    intros i [[vu vd] out] (Hvu & Hvd & Hout). cbn [fst snd] in *. ppq Hx a Da. ppq Hx b Db.
    pose proof (gap_bd a b Da Db) as U. pose proof (gap_bd b a Db Da) as D.
    pose proof (step_bd _ _ vu _ U Hvu Fk Hk O2) as Gu. pose proof (step_bd _ _ vd _ D Hvd Fk Hk O2) as Gd. clear U D.
    apply pp_ok. cbn [fst snd]. split; [exact Gu|split; [exact Gd|]]. apply Forall_snoc; [assumption|]. eapply rsi_within; eassumption. }
  intros [[vu vd] out] (_ & _ & Hout). eapply pp_bind; [apply pp_any|intros ? _]. apply pp_ok. repeat constructor. exact Hout.
Qed.
End F.

(** *** pieces for stochrsi, dx, adx *)
Lemma pp_both {X} (m : res X) (P Q : X -> Prop) : pp m P -> pp m Q -> pp m (fun x => P x /\ Q x).
Proof. intros HP HQ x E. split; [exact (HP x E)|exact (HQ x E)]. Qed.
Lemma within_fin lo hi v : - BIG <= lo <= BIG -> - BIG <= hi <= BIG -> within64 lo hi v -> fin v /\ (IZR lo <= ev v <= IZR hi)%R.
Proof.
  intros Hl Hh (D & A & B). assert (H : in64 lo hi v) by (split; auto). destruct (in64_cases lo hi v Hl Hh H) as [->|G]; [discriminate|exact G].
Qed.
(** a quotient of differences in a small range *)
Lemma place_num r lo hi : within64 0 100 r -> within64 0 100 lo -> within64 0 100 hi -> SFeqb (hi ⊖ lo) (f64_of_Z 0) = false -> num ((r ⊖ lo) ⊘ (hi ⊖ lo)).
Proof.
  intros Hr Hl Hh E. apply within_fin in Hr, Hl, Hh; try (unfold BIG; lia). destruct Hr as [Fr Br], Hl as [Fl Bl], Hh as [Fh Bh].
  assert (K : forall a b, fin a -> fin b -> (0 <= ev a <= 100)%R -> (0 <= ev b <= 100)%R -> fin (a ⊖ b)).
  { intros a b Fa Fb Ba Bb. pose proof (sub_rounds a b Fa Fb) as Rs. apply lt_fin; [apply Rs|]. pose proof big_Bnd.
    assert (G : (IZR (-100) <= ev (a ⊖ b) <= IZR 100)%R) by (apply (rounds_between _ _ _ _ Rs); try (unfold BIG; lia); lra). assert (100 <= IZR BIG)%R by (apply (IZR_le 100); unfold BIG; lia). lra. }
  destruct (fin_of_Z 0 ltac:(unfold BIG; lia)) as [F0 E0]. pose proof (K hi lo Fh Fl Bh Bl) as Fd.
  apply (div_rounds _ _ (K r lo Fr Fl Br Bl) Fd). intros Z. assert (SFeqb (hi ⊖ lo) (f64_of_Z 0) = true); [|congruence].
  apply eq_ev; [apply fin_num; assumption..|]. rewrite E0. exact Z.
Qed.
(** the decay factor (p - 1) / p is at most 1 - 2^-31 *)
Definition decay : spec_float := S754_finite false 9007199250546688 (-53).
Lemma decay_ev : fin decay /\ ev decay = (1 - P2 (-31))%R.
Proof.
  split; [split; [reflexivity|exact I]|]. unfold decay, ev, SF2R, F2R. cbn [Fnum Fexp cond_Zopp].
  change (Z.pos 9007199250546688) with (2 ^ 53 - 2 ^ 22). rewrite minus_IZR. change (IZR (2 ^ 53)) with (P2 53). change (IZR (2 ^ 22)) with (P2 22).
  rewrite Rmult_minus_distr_r, <- !bpow_plus. change (53 + -53) with 0. change (22 + -53) with (-31). reflexivity.
Qed.
Lemma frac_le p : 1 <= p <= INT_MAX -> (ev ((f64_of_Z p ⊖ f64_of_Z 1) ⊘ f64_of_Z p) <= 1 - P2 (-31))%R.
Proof.
  intros Hp. rewrite f64_sub by (unfold BIG, INT_MAX in *; lia). destruct (Zpos_fin p Hp) as (Fp & Ep & P1 & P31). destruct (fin_of_Z (p - 1)) as [Fq Eq]; [unfold BIG, INT_MAX in *; lia|].
  destruct (div_rounds _ _ Fq Fp ltac:(lra)) as [_ ->]. destruct decay_ev as [Fd <-]. apply rd64_le; [exact Fd|]. rewrite (proj2 decay_ev), Ep, Eq, minus_IZR.
  unfold Rdiv. rewrite Rmult_minus_distr_r, Rinv_r by lra. assert (P2 (-31) <= / IZR p)%R; [|lra].
  change (-31) with (- (31)). rewrite bpow_opp. apply Rinv_le; lra.
Qed.
Lemma decay_bd a d k : bd (P2 935) a -> bd (P2 901) d -> fin k -> (0 <= ev k <= 1 - P2 (-31))%R -> bd (P2 935) (a ⊗ k ⊕ d).
Proof.
  intros [Fa Ba] Hd Fk Hk. pose proof (bpow_gt_0 radix2 935) as Q. pose proof (bpow_gt_0 radix2 901) as Q1.
  assert (E1 : (P2 935 * (1 - P2 (-31)) = IZR (2 ^ 31 - 1) * P2 904)%R).
  { rewrite minus_IZR, Rmult_minus_distr_l, Rmult_minus_distr_r. change (IZR (2 ^ 31)) with (P2 31). rewrite <- !bpow_plus. change (935 + -31) with 904. change (31 + 904) with 935. lra. }
  assert (E2 : (IZR (2 ^ 31 - 1) * P2 904 = P2 935 - P2 904)%R).
  { rewrite minus_IZR, Rmult_minus_distr_r. change (IZR (2 ^ 31)) with (P2 31). rewrite <- bpow_plus. change (31 + 904) with 935. lra. }
  assert (O : okb (IZR (2 ^ 31 - 1) * P2 904)) by (apply okb_Z; lia).
  assert (M : bd (IZR (2 ^ 31 - 1) * P2 904) (a ⊗ k)).
  { apply (rounds_bd _ _ _ (mul_rounds a k Fa Fk) O). rewrite <- E1. split; [apply Rmult_le_pos; lra|apply Rmult_le_compat; lra]. }
  eapply add_bd; [exact M|exact Hd| |apply okb_P; lia]. rewrite E2. assert (P2 901 <= P2 904)%R by (apply bpow_le; lia). lra.
Qed.
Lemma fdiff_num B a b : bd B a -> bd B b -> okb (B + B) -> SFeqb (a ⊕ b) (f64_of_Z 0) = false -> num (SFabs (a ⊖ b) ⊘ (a ⊕ b)).
Proof.
  intros Ha Hb HB E. destruct (add_bd B B (B + B) a b Ha Hb ltac:(lra) HB) as [Fs Bs]. destruct Ha as [Fa Ba], Hb as [Fb Bb].
  destruct (sub_rounds a b Fa Fb) as [Nd Ed]. destruct HB as [HB [B0 B1]].
  assert (Hd : (- ev b <= ev (a ⊖ b) <= ev a)%R) by (rewrite Ed; split; [apply rd64_gen|apply rd64_le]; try assumption; lra).
  destruct (abs_ev _ Nd) as [Na Ea]. assert (Fd : fin (SFabs (a ⊖ b))).
  { apply lt_fin; [exact Na|]. rewrite Ea. pose proof (fin_lt a Fa). pose proof (fin_lt b Fb). assert (Rabs (ev (a ⊖ b)) < Bnd)%R by (apply Rabs_lt; lra). pose proof (Rabs_pos (ev (a ⊖ b))). pose proof Bnd_pos. lra. }
  destruct (fin_of_Z 0 ltac:(unfold BIG; lia)) as [F0 E0]. apply (div_rounds _ _ Fd Fs). intros Z. assert (SFeqb (a ⊕ b) (f64_of_Z 0) = true); [|congruence].
  apply eq_ev; [apply fin_num; assumption..|]. rewrite E0. exact Z.
Qed.

Section F.
Variable lm : libm1 -> spec_float -> spec_float.
Variable pw : spec_float -> spec_float -> spec_float.
Notation F := (F64 lm pw).
#[local] Existing Instance F64_laws.
Tactic Notation "ppq" constr(H) ident(a) ident(Da) := eapply pp_bind; [apply (pp_rdP ord64), H|intros a Da].
Lemma up_bd x i : Forall ord64 x -> pp (@UPWARD F x i) (bd (P2 901)) /\ pp (@DOWNWARD F x i) (bd (P2 901)).
Proof. intros H. split; (ppq H a Da; ppq H b Db; apply pp_ok; apply gap_bd; assumption). Qed.
Definition wvals (Q : spec_float -> Prop) (b : @buffer F) : Prop := Forall (fun v => match v with Some v => Q v | None => True end) (@bvals F b).
Lemma ext_keeps Q cmp (b : @buffer F) r s : wvals Q b -> Q r -> Q (snd s) -> pp (@stochrsi_ext F cmp b r s) (fun s => Q (snd s)).
Proof.
  intros Hb Hr Hs. destruct s as [mi m]. cbn [snd] in Hs. unfold stochrsi_ext. destruct (cmp r m); [apply pp_ok, Hr|]. destruct (mi =? bindex b); [|apply pp_ok, Hs].
  apply pp_for; [exact Hr|]. intros j [mj mm] Hm. cbn [snd] in *. destruct (j =? bindex b); [apply pp_ok, Hm|].
  unfold rdo. eapply pp_bind; [eapply pp_bind; [apply pp_rdP, Hb|]|]; [intros [v|] Hv; [apply (pp_ok v Q), Hv|apply pp_ub]|]. intros v Hv. apply pp_ok. destruct (cmp v mm); cbn [snd]; assumption.
Qed.
Lemma push_wvals Q b v : wvals Q b -> Q v -> pp (@buffer_push F b v) (wvals Q) /\ pp (@buffer_qpush F b v) (wvals Q).
Proof.
  intros Hb Hv. split; unfold buffer_push, buffer_qpush; [eapply pp_bind; [apply pp_any|intros ? _]|]; (eapply pp_bind; [apply (pp_upd _ _ _ _ Hb); exact Hv|]; intros l Hl; apply pp_ok; exact Hl).
Qed.
Lemma new_wvals Q n : pp (@buffer_new F n) (wvals Q).
Proof.
  unfold buffer_new. do 3 (eapply pp_bind; [apply pp_any|intros ? _]). apply pp_ok. unfold wvals. cbn [bvals]. apply Forall_forall. intros v Hv. apply repeat_spec in Hv. subst. exact I.
Qed.
Lemma wvals_dvals b : wvals (within64 0 100) b -> dvals lm pw b.
Proof. apply Forall_impl. intros [v|] H; [apply H|exact I]. Qed.
Lemma stochrsi_ord size x o : Forall ord64 x -> pp (@ti_stochrsi F size [x] [o]) (fun r => Forall (Forall (within64 0 1)) (snd r)).
Proof.
  intros Hx. unfold ti_stochrsi. eapply pp_bind; [apply (pp_cast lm pw o (fun n => n <= INT_MAX)); auto|]. intros p Hp. cbv beta in Hp. cbv zeta.
  destruct (p <? 2) eqn:E1; [apply pp_ok; repeat constructor|]. eapply pp_bind; [apply pp_any|intros st _]. destruct (size <=? _); [apply pp_ok; repeat constructor|].
  destruct (inv_fin p ltac:(lia)) as [Fk Hk]. eapply pp_bind; [apply (new_wvals (within64 0 100))|]. intros b0 Hb0. pose proof (bpow_gt_0 radix2 901) as Q1.
  assert (O1 : okb (P2 901)) by (apply okb_P; lia). assert (O2 : okb (P2 901 * 2)) by (change 2%R with (P2 1); rewrite <- bpow_plus; apply okb_P; lia).
  assert (O4 : okb (P2 901 * 2 + P2 901 * 2)) by (replace (P2 901 * 2 + P2 901 * 2)%R with (P2 901 * P2 2)%R by (change (P2 2) with 4%R; ring); rewrite <- bpow_plus; apply okb_P; lia).
  eapply (pp_bind _ _ (fun s => bd (IZR p * P2 901) (fst s) /\ bd (IZR p * P2 901) (snd s))).
  { eapply pp_mono; [apply (pp_fori (fun i s => bd (IZR (i - 1) * P2 901) (fst s) /\ bd (IZR (i - 1) * P2 901) (snd s))); [split; apply bd_0; apply Rmult_le_pos; [apply (IZR_le 0); lia|lra|apply (IZR_le 0); lia|lra]|]|
      intros s; cbv beta; replace (Z.max 1 (p + 1) - 1) with p by lia; exact (fun H => H)].
    intros i [su sd] Hi [Hu Hd]. cbn [fst snd] in *. eapply pp_bind; [apply up_bd, Hx|]. intros u U. eapply pp_bind; [apply up_bd, Hx|]. intros d D. apply pp_ok. replace (i + 1 - 1) with i by lia.
    assert (Oi : okb (IZR i * P2 901)) by (apply okb_Z; unfold INT_MAX in *; lia).
    assert (Si : (IZR (i - 1) * P2 901 + P2 901 <= IZR i * P2 901)%R) by (rewrite minus_IZR; lra).
    split; (eapply add_bd; [eassumption|eassumption|exact Si|exact Oi]). }
  intros [su sd] [Hu Hd]. cbn [fst snd] in *. apply (mean_bd _ su p ltac:(lia) O1) in Hu. apply (mean_bd _ sd p ltac:(lia) O1) in Hd.
  apply (bd_le _ (P2 901 * 2)) in Hu; [|lra]. apply (bd_le _ (P2 901 * 2)) in Hd; [|lra].
  pose proof (rsi_within lm pw _ _ _ Hu Hd O4) as R0.
  eapply pp_bind; [apply (proj1 (push_wvals (within64 0 100) b0 _ Hb0 R0))|]. intros b1 Hb1.
  eapply (pp_bind _ _ (fun s => let '(su, sd, rsi, smax, smin, out) := s in bd (P2 901 * 2) su /\ bd (P2 901 * 2) sd /\ wvals (within64 0 100) rsi /\ within64 0 100 (snd smax) /\ within64 0 100 (snd smin) /\ Forall (within64 0 1) out)).
  { apply pp_for; [cbn [snd]; split; [exact Hu|split; [exact Hd|split; [exact Hb1|split; [exact R0|split; [exact R0|constructor]]]]]|]. intros i [[[[[vu vd] rs] smax] smin] out] (Hvu & Hvd & Hrs & Hmx & Hmn & Hout).
    eapply pp_bind; [apply up_bd, Hx|]. intros u U. eapply pp_bind; [apply up_bd, Hx|]. intros d D.
    pose proof (step_bd _ _ vu _ U Hvu Fk Hk O2) as Gu. pose proof (step_bd _ _ vd _ D Hvd Fk Hk O2) as Gd.
    pose proof (rsi_within lm pw _ _ _ Gu Gd O4) as Rd. pose proof (wvals_dvals _ Hrs) as Dv.
    eapply pp_bind; [apply pp_both; [apply ext_above; [exact Dv|apply Rd|apply Hmx]|apply (ext_keeps (within64 0 100)); assumption]|]. intros mx [[Dmx Amx] Wmx].
    eapply pp_bind; [apply pp_both; [apply ext_below; [exact Dv|apply Rd|apply Hmn]|apply (ext_keeps (within64 0 100)); assumption]|]. intros mn [[Dmn Amn] Wmn].
    eapply pp_bind; [apply (proj2 (push_wvals (within64 0 100) rs _ Hrs Rd))|]. intros b2 Hb2. eapply pp_bind; [apply pp_any|intros p2 _].
    apply pp_ok. split; [exact Gu|]. split; [exact Gd|]. split; [exact Hb2|]. split; [exact Wmx|]. split; [exact Wmn|].
    destruct (i >? p2 - 2); [|exact Hout]. apply Forall_snoc; [exact Hout|].
    match goal with |- within64 _ _ (if ?c then _ else _) => destruct c eqn:E0 end; [apply in64_within; [apply zero_in64; unfold BIG; lia|discriminate]|].
    apply in64_within; [apply between_quot; try assumption; apply Rd|]. apply place_num; assumption. }
  intros [[[[[vu vd] rs] smax] smin] out] (_ & _ & _ & _ & _ & Hout). eapply pp_bind; [apply pp_any|intros ? _]. apply pp_ok. repeat constructor. exact Hout.
Qed.

(** *** dx *)
Lemma direction_bd h l i : Forall ord64 h -> Forall ord64 l -> pp (@CALC_DIRECTION F h l i) (fun r => bd (P2 901) (fst r) /\ bd (P2 901) (snd r)).
Proof.
  intros Hh Hl. set (low := fun v : spec_float => fin v /\ (ev v <= P2 901)%R).
  assert (G : pp (@CALC_DIRECTION F h l i) (fun r => low (fst r) /\ low (snd r))).
  { unfold CALC_DIRECTION. ppq Hh a Da. ppq Hh a1 Da1. ppq Hl b1 Db1. ppq Hl b Db. cbv zeta.
    assert (S : forall a b, ord64 a -> ord64 b -> low (@fsub F a b)).
    { intros x y Hx Hy. destruct (ord_fin x Hx) as [Fx Bx], (ord_fin y Hy) as [Fy By]. destruct (sub_rounds x y Fx Fy) as [N E]. change (@fsub F x y) with (x ⊖ y).
      destruct (okb_P 901 ltac:(lia)) as [O [_ O1]]. assert (T : (P2 901 = P2 900 * 2)%R) by (change 901 with (900 + 1); rewrite bpow_plus; reflexivity).
      assert (L1 : (ev (x ⊖ y) <= P2 901)%R) by (rewrite E, <- O; apply rd64_mono; lra). assert (L2 : (- P2 901 <= ev (x ⊖ y))%R) by (rewrite E, <- O, <- rd64_opp; apply rd64_mono; lra).
      split; [apply lt_fin; [exact N|lra]|exact L1]. }
    pose proof (S _ _ Da Da1) as U. pose proof (S _ _ Db1 Db) as D. set (up := @fsub F a a1) in *. set (dn := @fsub F b1 b) in *. clearbody up dn.
    assert (Z0 : low (@of_Z F 0)) by (destruct (bd_0 (P2 901) (bpow_ge_0 _ _)) as [F0 B0]; split; [exact F0|apply B0]).
    assert (S2 : forall u v, low u -> low v -> pp (let (u, v) := if @flt F v (@of_Z F 0) then (u, @of_Z F 0) else if @flt F u v then (@of_Z F 0, v) else (u, v) in Ok (u, v)) (fun r : spec_float * spec_float => low (fst r) /\ low (snd r))).
    { intros u v Hu Hv. destruct (@flt F v (@of_Z F 0)); [apply pp_ok; split; assumption|]. destruct (@flt F u v); apply pp_ok; split; assumption. }
    destruct (@flt F up (@of_Z F 0)); [apply S2; assumption|]. destruct (@flt F dn up); apply S2; assumption. }
  eapply pp_mono; [apply pp_both; [exact G|apply direction_nn; apply ord_double; assumption]|]. cbv beta. intros [u v] [[[Fu Bu] [Fv Bv]] [Nu Nv]]. cbn [fst snd] in *.
  assert (K : forall w, fin w -> nn w -> (0 <= ev w)%R) by (intros w Fw [_ [->|[_ H]]]; [destruct Fw as [_ []]|exact H]).
  split; (split; [assumption|]); split; auto.
Qed.
Lemma dm_init_bd h l p : p <= INT_MAX -> Forall ord64 h -> Forall ord64 l -> pp (@dm_init F h l p) (fun r => bd (P2 935) (fst r) /\ bd (P2 935) (snd r)).
Proof.
  intros Hp Hh Hl. pose proof (bpow_gt_0 radix2 901) as Q1.
  eapply pp_mono; [apply (pp_fori (fun i s => bd (IZR (i - 1) * P2 901) (fst s) /\ bd (IZR (i - 1) * P2 901) (snd s))); [split; apply bd_0; apply Rmult_le_pos; [apply (IZR_le 0); lia|lra|apply (IZR_le 0); lia|lra]|]|].
  - intros i [su sd] Hi [Hu Hd]. cbn [fst snd] in *. eapply pp_bind; [apply direction_bd; assumption|]. intros [d1 d2] [H1 H2]. cbn [fst snd] in *. apply pp_ok. replace (i + 1 - 1) with i by lia.
    assert (Oi : okb (IZR i * P2 901)) by (apply okb_Z; unfold INT_MAX in *; lia).
    assert (Si : (IZR (i - 1) * P2 901 + P2 901 <= IZR i * P2 901)%R) by (rewrite minus_IZR; lra).
    split; (eapply add_bd; [eassumption|eassumption|exact Si|exact Oi]).
  - cbv beta. intros [u v] [Hu Hv]. assert (L : (IZR (Z.max 1 p - 1) * P2 901 <= P2 935)%R).
    { apply Rle_trans with (P2 31 * P2 901)%R; [apply Rmult_le_compat_r; [lra|]; change (P2 31) with (IZR (2 ^ 31)); apply IZR_le; unfold INT_MAX in *; lia|]. rewrite <- bpow_plus. apply bpow_le. lia. }
    split; eapply bd_le; eassumption.
Qed.
Lemma dx_within a b : bd (P2 935) a -> bd (P2 935) b -> within64 0 100 (@dx_val F a b).
Proof.
  intros Ha Hb. apply in64_within; [apply dx_in64; eapply bd_nn; eassumption|]. unfold dx_val. cbv zeta. destruct (_ .== _) eqn:E; [discriminate|].
  assert (O : okb (P2 935 + P2 935)) by (replace (P2 935 + P2 935)%R with (P2 935 * P2 1)%R by (change (P2 1) with 2%R; ring); rewrite <- bpow_plus; apply okb_P; lia).
  apply (scale_num 100); [lia|apply diff_in64; eapply bd_nn; eassumption|]. apply (fdiff_num (P2 935)); assumption.
Qed.
Lemma dx_ord size h l o : Forall ord64 h -> Forall ord64 l -> pp (@ti_dx F size [h; l] [o]) (fun r => Forall (Forall (within64 0 100)) (snd r)).
Proof.
  intros Hh Hl. unfold ti_dx. eapply pp_bind; [apply (pp_cast lm pw o (fun n => n <= INT_MAX)); auto|]. intros p Hp. cbv beta in Hp. cbv zeta.
  destruct (p <? 1) eqn:E1; [apply pp_ok; repeat constructor|]. eapply pp_bind; [apply pp_any|intros st _]. destruct (size <=? _); [apply pp_ok; repeat constructor|].
  destruct (frac_fin p ltac:(lia)) as [Fk Hk]. pose proof (frac_le p ltac:(lia)) as Hk2. eapply pp_bind; [apply dm_init_bd; assumption|]. intros [u v] [Hu Hv]. cbn [fst snd] in *.
  eapply (pp_bind _ _ (fun s => let '(u, v, out) := s in bd (P2 935) u /\ bd (P2 935) v /\ Forall (within64 0 100) out)).
  { apply pp_for; [split; [exact Hu|split; [exact Hv|constructor; [apply dx_within; assumption|constructor]]]|].
    intros i [[a b] out] (Ha & Hb & Ho). eapply pp_bind; [apply direction_bd; assumption|]. intros [d1 d2] [H1 H2]. cbn [fst snd] in *. apply pp_ok.
    pose proof (decay_bd a d1 _ Ha H1 Fk (conj Hk Hk2)) as G1. pose proof (decay_bd b d2 _ Hb H2 Fk (conj Hk Hk2)) as G2.
    split; [exact G1|split; [exact G2|]]. apply Forall_snoc; [exact Ho|]. apply dx_within; assumption. }
  intros [[a b] out] (_ & _ & Ho). eapply pp_bind; [apply pp_any|intros ? _]. apply pp_ok. repeat constructor. exact Ho.
Qed.
End F.

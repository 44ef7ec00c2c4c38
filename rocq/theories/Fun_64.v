(** Ranges in binary64, for every double as input: rsi, stochrsi, dx, dm, rmi, willr, bop, tr, atr, ema. *)
From Verif Require Import F64Laws StreamOut M_basic M_osc M_stream3 M_stream4 M_window Spec Fun_any Fun_range Fun_window Tactics.
From Coq Require Import Floats.SpecFloat ZifyBool Reals Lra.
From Flocq Require Import Core.Core IEEE754.BinarySingleNaN.
From Verif Require Import F64Range.
Open Scope Z_scope.

(** Whatever a computation returns satisfies [Q]. *)
Definition pp {X} (m : res X) (Q : X -> Prop) : Prop := forall x, m = Ok x -> Q x.
Lemma pp_ok {X} (x : X) (Q : X -> Prop) : Q x -> pp (Ok x) Q.
Proof. intros H y E. injection E as <-. exact H. Qed.
Lemma pp_ub {X} u (Q : X -> Prop) : pp (Ub u) Q. Proof. intros x E. discriminate. Qed.
Lemma pp_bind {X Y} (m : res X) (k : X -> res Y) (P : X -> Prop) (Q : Y -> Prop) :
  pp m P -> (forall x, P x -> pp (k x) Q) -> pp (bind m k) Q.
Proof. intros Hm Hk y E. destruct m as [x|]; [|discriminate]. exact (Hk x (Hm x eq_refl) y E). Qed.
Lemma pp_any {X} (m : res X) : pp m (fun _ => True). Proof. intros x _. exact I. Qed.
Lemma pp_for {S} (I : S -> Prop) lo hi (f : Z -> S -> res S) s :
  I s -> (forall i s, I s -> pp (f i s) I) -> pp (for_ lo hi f s) I.
Proof.
  intros H0 Hf. unfold for_. generalize (Z.to_nat (hi - lo)) as n. intros n. revert lo s H0.
  induction n as [|n IH]; intros lo s H0; cbn [iter]; [apply pp_ok, H0|].
  eapply pp_bind; [apply Hf, H0|]. intros s1 H1. apply IH, H1.
Qed.
Lemma pp_mono {X} (m : res X) (P Q : X -> Prop) : pp m P -> (forall x, P x -> Q x) -> pp m Q.
Proof. intros H K x E. exact (K x (H x E)). Qed.

Lemma pp_rdP {X} (P : X -> Prop) (x : list X) i : Forall P x -> pp (rd x i) P.
Proof.
  intros H v E. unfold rd in E. destruct ((0 <=? i) && (i <? zlen x)) eqn:B; [|discriminate].
  destruct (nth_error x (Z.to_nat i)) as [w|] eqn:N; [|discriminate]. injection E as <-.
  rewrite Forall_forall in H. apply H. eapply nth_error_In, N.
Qed.
Lemma pp_rd (x : list spec_float) i : Forall is_double x -> pp (rd x i) is_double.
Proof. apply pp_rdP. Qed.
Lemma not_neg_nn x : is_double x -> SFltb x (f64_of_Z 0) = false -> nn x.
Proof.
  intros D H. split; [exact D|]. destruct (double_cases x D) as [->|N]; [auto|]. right. split; [exact N|].
  destruct (fin_of_Z 0 ltac:(unfold BIG; lia)) as [F0 E0]. apply Rnot_lt_le. intros L.
  assert (SFltb x (f64_of_Z 0) = true); [|congruence]. apply lt_ev; [exact N|apply fin_num, F0|]. rewrite E0. exact L.
Qed.
Lemma lt_num x y : is_double x -> is_double y -> SFltb x y = true -> num x /\ num y /\ (ev x < ev y)%R.
Proof.
  intros Dx Dy H. destruct (double_cases x Dx) as [->|Nx]; [discriminate|].
  destruct (double_cases y Dy) as [->|Ny]; [destruct x; discriminate|]. split; [exact Nx|]. split; [exact Ny|]. apply lt_ev; assumption.
Qed.
Lemma le_num x y : is_double x -> is_double y -> SFleb x y = true -> num x /\ num y /\ (ev x <= ev y)%R.
Proof.
  intros Dx Dy H. destruct (double_cases x Dx) as [->|Nx]; [discriminate|].
  destruct (double_cases y Dy) as [->|Ny]; [destruct x; discriminate|]. split; [exact Nx|]. split; [exact Ny|]. apply le_ev; assumption.
Qed.
Lemma sub_nn a b : num a -> num b -> (ev b <= ev a)%R -> nn (SFsub prec64 emax64 a b).
Proof.
  intros Na Nb H. pose proof (sub_double a b (proj1 Na) (proj1 Nb)) as D. split; [exact D|].
  destruct (double_cases _ D) as [E|N]; [auto|]. right. split; [exact N|]. apply sub_self_le; assumption.
Qed.
Lemma gap_nn a b : is_double a -> is_double b -> nn (if SFltb b a then SFsub prec64 emax64 a b else f64_of_Z 0).
Proof.
  intros Da Db. destruct (SFltb b a) eqn:E; [|apply nn_0]. apply lt_num in E as (Nb & Na & L); try assumption. apply sub_nn; [assumption..|lra].
Qed.
Lemma Zpos_fin p : 1 <= p <= INT_MAX -> fin (f64_of_Z p) /\ ev (f64_of_Z p) = IZR p /\ (1 <= IZR p)%R /\ (IZR p <= bpow radix2 31)%R.
Proof.
  intros H. destruct (fin_of_Z p) as [A B]; [unfold BIG, INT_MAX in *; lia|]. split; [exact A|]. split; [exact B|].
  split; [apply (IZR_le 1); lia|]. change (bpow radix2 31) with (IZR 2147483648). apply IZR_le. unfold INT_MAX in H; lia.
Qed.
Lemma div_nn s p : 1 <= p <= INT_MAX -> nn s -> nn (SFdiv prec64 emax64 s (f64_of_Z p)).
Proof.
  intros Hp Hs. destruct (Zpos_fin p Hp) as (Fp & Ep & P1 & _).
  destruct (nn_cases s Hs) as [->|[->|[Fs Ps]]]; [rewrite nan_div; apply nn_nan|..].
  - destruct (pos_form _ Fp) as (m & e & ->); [lra|]. apply nn_inf.
  - destruct (div_rounds s (f64_of_Z p) Fs Fp ltac:(lra)) as [N E]. apply nn_num; [exact N|]. rewrite E, <- rd64_0. apply rd64_mono. rewrite Ep.
    apply Rmult_le_pos; [assumption|]. left. apply Rinv_0_lt_compat. lra.
Qed.
Lemma mul_nn x k : nn x -> fin k -> (0 <= ev k)%R -> nn (SFmul prec64 emax64 x k).
Proof.
  intros Hx Fk Hk. destruct (nn_cases x Hx) as [->|[->|[Fx Px]]]; [rewrite nan_mul; apply nn_nan|..].
  - destruct (Req_dec (ev k) 0) as [Z|Z].
    + destruct (zero_form k Fk Z) as [s ->]. apply nn_nan.
    + rewrite (proj1 (inf_mul k Fk ltac:(lra))). apply nn_inf.
  - destruct (mul_rounds x k Fx Fk) as [N E]. apply nn_num; [exact N|]. rewrite E, <- rd64_0. apply rd64_mono. nra.
Qed.
Lemma rd64_bpow e : -1000 <= e <= 1000 -> rd64 (bpow radix2 e) = bpow radix2 e.
Proof.
  intros H. unfold rd64, rnd. rewrite round_generic; [|exact _|apply generic_format_bpow; unfold SpecFloat.fexp, SpecFloat.emin, prec64, emax64; lia].
  apply clamp_id. pose proof (bpow_gt_0 radix2 e). pose proof Bnd_pos. assert (bpow radix2 e < Bnd)%R by (apply bpow_Bnd; lia). lra.
Qed.
(** 1/period *)
Lemma inv_fin p : 1 <= p <= INT_MAX -> fin (SFdiv prec64 emax64 (f64_of_Z 1) (f64_of_Z p)) /\ (0 < ev (SFdiv prec64 emax64 (f64_of_Z 1) (f64_of_Z p)) <= 1)%R.
Proof.
  intros Hp. destruct (Zpos_fin p Hp) as (Fp & Ep & P1 & P2). destruct (Zpos_fin 1 ltac:(unfold INT_MAX; lia)) as (F1 & E1 & _ & _).
  destruct (div_rounds _ _ F1 Fp ltac:(lra)) as [N E]. rewrite Ep, E1 in E. set (k := SFdiv _ _ _ _) in *.
  assert (0 < / IZR p)%R by (apply Rinv_0_lt_compat; lra).
  assert (K : (0 < ev k <= 1)%R).
  { rewrite E. split.
    - apply Rlt_le_trans with (bpow radix2 (-31)); [apply bpow_gt_0|]. rewrite <- (rd64_bpow (-31)) by lia. apply rd64_mono.
      change (-31) with (Z.opp 31). rewrite bpow_opp. unfold Rdiv. rewrite Rmult_1_l. apply Rinv_le; lra.
    - apply Rle_trans with (rd64 (IZR 1)); [apply rd64_mono|rewrite rd64_Z by (unfold BIG; lia); lra].
      unfold Rdiv. rewrite Rmult_1_l, <- Rinv_1. apply Rinv_le; lra. }
  split; [|exact K]. apply lt_fin; [exact N|]. pose proof Bnd_pos. pose proof big_Bnd. assert (1 <= IZR BIG)%R by (apply (IZR_le 1); unfold BIG; lia). lra.
Qed.
(** (period - 1)/period *)
Lemma frac_fin p : 1 <= p <= INT_MAX ->
  let k := SFdiv prec64 emax64 (SFsub prec64 emax64 (f64_of_Z p) (f64_of_Z 1)) (f64_of_Z p) in fin k /\ (0 <= ev k)%R.
Proof.
  intros Hp. cbv zeta. rewrite f64_sub by (unfold BIG, INT_MAX in *; lia).
  destruct (Zpos_fin p Hp) as (Fp & Ep & P1 & P2). destruct (fin_of_Z (p - 1)) as [Fq Eq]; [unfold BIG, INT_MAX in *; lia|].
  pose proof (div_rounds _ _ Fq Fp ltac:(lra)) as Rq. set (k := SFdiv _ _ _ _) in *.
  assert (0 <= IZR (p - 1) <= IZR p)%R by (split; [apply (IZR_le 0)|apply IZR_le]; lia).
  assert (K : (0 <= ev k <= 1)%R).
  { apply (rounds_between k _ 0 1 Rq); try (unfold BIG; lia). rewrite Ep, Eq. assert (0 < / IZR p)%R by (apply Rinv_0_lt_compat; lra).
    assert (IZR p * / IZR p = 1)%R by (apply Rinv_r; lra). unfold Rdiv. nra. }
  split; [|apply K]. apply lt_fin; [apply Rq|]. pose proof Bnd_pos. pose proof big_Bnd. assert (1 <= IZR BIG)%R by (apply (IZR_le 1); unfold BIG; lia). lra.
Qed.
Lemma zero_in64 lo hi : - BIG <= lo <= 0 -> 0 <= hi <= BIG -> in64 lo hi (f64_of_Z 0).
Proof.
  intros Hl Hh. destruct (fin_of_Z 0 ltac:(unfold BIG; lia)) as [F0 E0]. apply between_in64; [apply fin_num, F0|unfold BIG in *; lia..|].
  rewrite E0. split; apply IZR_le; lia.
Qed.
Section F.
Variable lm : libm1 -> spec_float -> spec_float.
Variable pw : spec_float -> spec_float -> spec_float.
Notation F := (F64 lm pw).
#[local] Existing Instance F64_laws.

Lemma up_nn x i : Forall is_double x -> pp (@UPWARD F x i) nn /\ pp (@DOWNWARD F x i) nn.
Proof.
  intros H. split; (eapply pp_bind; [apply pp_rd, H|]; intros a Da; eapply pp_bind; [apply pp_rd, H|]; intros b Db; apply pp_ok; apply gap_nn; assumption).
Qed.
Lemma rsi_in64 su sd : nn su -> nn sd ->
  in64 0 100 (if @truth F su then @fmul F (@of_Z F 100) (@fdiv F su (@fadd F su sd)) else @of_Z F 0).
Proof.
  intros Hu Hd. destruct (@truth F su); [|apply zero_in64; unfold BIG; lia].
  apply (scale_in64 100 0 1); try lia. apply share_in64; assumption.
Qed.
Lemma Forall_snoc {X} (P : X -> Prop) l x : Forall P l -> P x -> Forall P (l ++ [x]).
Proof. intros. apply Forall_app. auto. Qed.

Lemma cast_range (o : spec_float) n : @cast F o = Ok n -> n <= INT_MAX.
Proof. unfold cast. destruct (@to_int F o) as [m|] eqn:E; [|discriminate]. intros H. injection H as <-. apply (@to_int_range F _ o m E). Qed.
Ltac ppb := first [apply pp_ub | eapply pp_bind; [apply pp_any|intros ? _]].
Lemma pp_cast o (Q : Z -> Prop) : (forall n, n <= INT_MAX -> Q n) -> pp (@cast F o) Q.
Proof. intros H n E. apply H. eapply cast_range, E. Qed.
Definition ranges64 (lo hi : Z) (r : code * list (list spec_float)) : Prop := Forall (Forall (in64 lo hi)) (snd r).
Lemma ranges_nil lo hi c : ranges64 lo hi (c, [[]]). Proof. repeat constructor. Qed.
Lemma ranges_one lo hi c y : Forall (in64 lo hi) y -> ranges64 lo hi (c, [y]). Proof. repeat constructor. assumption. Qed.

Tactic Notation "ppr" constr(H) ident(a) ident(Da) := eapply pp_bind; [apply pp_rd, H|intros a Da].

Lemma rsi_64 size x o : Forall is_double x -> pp (@ti_rsi F size [x] [o]) (ranges64 0 100).
Proof.
  intros Hx. unfold ti_rsi. eapply pp_bind; [apply (pp_cast o (fun n => n <= INT_MAX)); auto|]. intros p Hp. cbv beta in Hp.
  destruct (p <? 1) eqn:E1; [apply pp_ok, ranges_nil|]. ppb. destruct (size <=? _); [apply pp_ok, ranges_nil|].
  destruct (inv_fin p ltac:(lia)) as [Fk Hk].
  eapply (pp_bind _ _ (fun s => nn (fst s) /\ nn (snd s))).
  { apply pp_for; [split; apply nn_0|]. intros i [su sd] [Hu Hd]. ppr Hx a Da. ppr Hx b Db. apply pp_ok. split; apply add_nn; try assumption; apply gap_nn; assumption. }
  intros [su sd] [Hu Hd]. cbn [fst snd] in *. cbv zeta. apply (div_nn su p ltac:(lia)) in Hu. apply (div_nn sd p ltac:(lia)) in Hd.
  eapply (pp_bind _ _ (fun s => nn (fst (fst s)) /\ nn (snd (fst s)) /\ Forall (in64 0 100) (snd s))).
  { apply pp_for; [cbn [fst snd]; split; [exact Hu|split; [exact Hd|constructor; [apply rsi_in64; assumption|constructor]]]|].
    intros i [[vu vd] out] (Hvu & Hvd & Hout). cbn [fst snd] in *. ppr Hx a Da. ppr Hx b Db.
    pose proof (gap_nn a b Da Db) as U. pose proof (gap_nn b a Db Da) as D.
    pose proof (step_nn _ vu _ U Hvu Fk Hk) as Gu. pose proof (step_nn _ vd _ D Hvd Fk Hk) as Gd. clear U D.
    apply pp_ok. cbn [fst snd]. split; [exact Gu|split; [exact Gd|]]. apply Forall_snoc; [assumption|]. apply rsi_in64; assumption. }
  intros [[vu vd] out] (_ & _ & Hout). ppb. apply pp_ok, ranges_one, Hout.
Qed.

(** stochrsi: the tracked extremes enclose the current value whenever none of them is NaN *)
Definition above (r m : spec_float) : Prop := is_double m /\ (num r -> num m -> (ev r <= ev m)%R).
Definition below (r m : spec_float) : Prop := is_double m /\ (num r -> num m -> (ev m <= ev r)%R).
Definition dvals (b : @buffer F) : Prop := Forall (fun v => match v with Some v => is_double v | None => True end) (@bvals F b).
Lemma rdo_double (b : @buffer F) j : dvals b -> pp (@rdo spec_float (@bvals F b) j) is_double.
Proof.
  intros H. unfold rdo. eapply pp_bind; [apply pp_rdP, H|]. intros [v|] Hv; [apply pp_ok, Hv|apply pp_ub].
Qed.
Lemma ext_above b r s : dvals b -> is_double r -> is_double (snd s) ->
  pp (@stochrsi_ext F (fun a b => @flt F b a) b r s) (fun s => above r (snd s)).
Proof.
  intros Hb Hr Hs. destruct s as [mi m]. cbn [snd] in Hs. unfold stochrsi_ext. destruct (@flt F m r) eqn:E.
  { apply pp_ok. split; [exact Hr|]. cbn. lra. }
  destruct (mi =? bindex b).
  - apply pp_for; [split; [exact Hr|cbn; lra]|]. intros j [mj mm] [Hd Hm]. cbn [snd] in *. destruct (j =? bindex b); [apply pp_ok; split; assumption|].
    eapply pp_bind; [apply rdo_double, Hb|]. intros v Hv. apply pp_ok. destruct (@flt F mm v) eqn:E2; cbn [snd]; [|split; assumption].
    split; [exact Hv|]. intros Nr Nv. apply (lt_num mm v Hd Hv) in E2 as (Nm & _ & L). specialize (Hm Nr Nm). lra.
  - apply pp_ok. cbn [snd]. split; [exact Hs|]. intros Nr Nm. apply Rnot_lt_le. intros L. apply (lt_ev m r Nm Nr) in L. change (@flt F m r) with (SFltb m r) in E. congruence.
Qed.
Lemma ext_below b r s : dvals b -> is_double r -> is_double (snd s) ->
  pp (@stochrsi_ext F (fun a b => @flt F a b) b r s) (fun s => below r (snd s)).
Proof.
  intros Hb Hr Hs. destruct s as [mi m]. cbn [snd] in Hs. unfold stochrsi_ext. destruct (@flt F r m) eqn:E.
  { apply pp_ok. split; [exact Hr|]. cbn. lra. }
  destruct (mi =? bindex b).
  - apply pp_for; [split; [exact Hr|cbn; lra]|]. intros j [mj mm] [Hd Hm]. cbn [snd] in *. destruct (j =? bindex b); [apply pp_ok; split; assumption|].
    eapply pp_bind; [apply rdo_double, Hb|]. intros v Hv. apply pp_ok. destruct (@flt F v mm) eqn:E2; cbn [snd]; [|split; assumption].
    split; [exact Hv|]. intros Nr Nv. apply (lt_num v mm Hv Hd) in E2 as (_ & Nm & L). specialize (Hm Nr Nm). lra.
  - apply pp_ok. cbn [snd]. split; [exact Hs|]. intros Nr Nm. apply Rnot_lt_le. intros L. apply (lt_ev r m Nr Nm) in L. change (@flt F r m) with (SFltb r m) in E. congruence.
Qed.
Lemma pp_upd {X} (P : X -> Prop) (l : list X) i v : Forall P l -> P v -> pp (upd l i v) (Forall P).
Proof.
  intros Hl Hv. unfold upd. destruct (_ && _); [|apply pp_ub]. apply pp_ok. generalize (Z.to_nat i) as n. induction l as [|h t IH]; intros n; cbn; [constructor|].
  inversion Hl; subst. destruct n; constructor; auto.
Qed.
Lemma push_dvals b v : dvals b -> is_double v -> pp (@buffer_push F b v) dvals /\ pp (@buffer_qpush F b v) dvals.
Proof.
  intros Hb Hv. split; unfold buffer_push, buffer_qpush; [eapply pp_bind; [apply pp_any|intros ? _]|]; (eapply pp_bind; [apply (pp_upd _ _ _ _ Hb); exact Hv|]; intros l Hl; apply pp_ok; exact Hl).
Qed.
Lemma new_dvals n : pp (@buffer_new F n) dvals.
Proof.
  unfold buffer_new. do 3 (eapply pp_bind; [apply pp_any|intros ? _]). apply pp_ok. unfold dvals. cbn [bvals]. apply Forall_forall. intros v Hv. apply repeat_spec in Hv. subst. exact I.
Qed.
Lemma sub_num a b : is_double a -> is_double b -> num (SFsub prec64 emax64 a b) -> num a /\ num b.
Proof.
  intros Da Db [_ N]. split; (split; [assumption|]); intros ->; apply N; [apply nan_sub|apply sub_nan].
Qed.
Lemma between_quot r lo hi : is_double r -> is_double lo -> is_double hi -> (num r -> num lo -> (ev lo <= ev r)%R) -> (num r -> num hi -> (ev r <= ev hi)%R) ->
  in64 0 1 (SFdiv prec64 emax64 (SFsub prec64 emax64 r lo) (SFsub prec64 emax64 hi lo)).
Proof.
  intros Dr Dl Dh H1 H2. apply quot_in64; auto using sub_double. intros N1 N2.
  destruct (sub_num r lo Dr Dl N1) as [Nr Nl]. destruct (sub_num hi lo Dh Dl N2) as [Nh _]. specialize (H1 Nr Nl). specialize (H2 Nr Nh).
  pose proof (sub_self_le r lo Nr Nl H1 N1). pose proof (sub_self_le hi lo Nh Nl ltac:(lra) N2).
  pose proof (sub_le r lo hi lo Nr Nl Nh Nl ltac:(lra) ltac:(lra) N1 N2). lra.
Qed.
Lemma in64_double lo hi x : in64 lo hi x -> is_double x. Proof. intros [D _]. exact D. Qed.
Lemma stochrsi_64 size x o : Forall is_double x -> pp (@ti_stochrsi F size [x] [o]) (ranges64 0 1).
Proof.
  intros Hx. unfold ti_stochrsi. eapply pp_bind; [apply (pp_cast o (fun n => n <= INT_MAX)); auto|]. intros p Hp. cbv beta in Hp. cbv zeta.
  destruct (p <? 2) eqn:E1; [apply pp_ok, ranges_nil|]. eapply pp_bind; [apply pp_any|intros st _]. destruct (size <=? _); [apply pp_ok, ranges_nil|].
  destruct (inv_fin p ltac:(lia)) as [Fk Hk]. eapply pp_bind; [apply new_dvals|]. intros b0 Hb0.
  eapply (pp_bind _ _ (fun s => nn (fst s) /\ nn (snd s))).
  { apply pp_for; [split; apply nn_0|]. intros i [su sd] [Hu Hd]. eapply pp_bind; [apply up_nn, Hx|]. intros u U. eapply pp_bind; [apply up_nn, Hx|]. intros d D.
    apply pp_ok. split; apply add_nn; assumption. }
  intros [su sd] [Hu Hd]. cbn [fst snd] in *. apply (div_nn su p ltac:(lia)) in Hu. apply (div_nn sd p ltac:(lia)) in Hd.
  pose proof (in64_double _ _ _ (rsi_in64 _ _ Hu Hd)) as R0.
  eapply pp_bind; [apply (proj1 (push_dvals b0 _ Hb0 R0))|]. intros b1 Hb1.
  eapply (pp_bind _ _ (fun s => let '(su, sd, rsi, smax, smin, out) := s in nn su /\ nn sd /\ dvals rsi /\ is_double (snd smax) /\ is_double (snd smin) /\ Forall (in64 0 1) out)).
  { apply pp_for; [cbn [snd]; auto 10|]. intros i [[[[[vu vd] rs] smax] smin] out] (Hvu & Hvd & Hrs & Hmx & Hmn & Hout).
    eapply pp_bind; [apply up_nn, Hx|]. intros u U. eapply pp_bind; [apply up_nn, Hx|]. intros d D.
    pose proof (step_nn _ vu _ U Hvu Fk Hk) as Gu. pose proof (step_nn _ vd _ D Hvd Fk Hk) as Gd.
    pose proof (in64_double _ _ _ (rsi_in64 _ _ Gu Gd)) as Rd.
    eapply pp_bind; [apply ext_above; assumption|]. intros mx [Dmx Amx]. eapply pp_bind; [apply ext_below; assumption|]. intros mn [Dmn Amn].
    eapply pp_bind; [apply (proj2 (push_dvals rs _ Hrs Rd))|]. intros b2 Hb2. eapply pp_bind; [apply pp_any|intros p2 _].
    apply pp_ok. split; [exact Gu|]. split; [exact Gd|]. split; [exact Hb2|]. split; [exact Dmx|]. split; [exact Dmn|].
    destruct (i >? p2 - 2); [|exact Hout]. apply Forall_snoc; [exact Hout|]. destruct (_ .== _); [apply zero_in64; unfold BIG; lia|].
    apply between_quot; assumption. }
  intros [[[[[vu vd] rs] smax] smin] out] (_ & _ & _ & _ & _ & Hout). eapply pp_bind; [apply pp_any|intros ? _]. apply pp_ok, ranges_one, Hout.
Qed.

(** dm, dx *)
Lemma direction_nn h l i : Forall is_double h -> Forall is_double l -> pp (@CALC_DIRECTION F h l i) (fun r => nn (fst r) /\ nn (snd r)).
Proof.
  intros Hh Hl. unfold CALC_DIRECTION. ppr Hh a Da. ppr Hh a1 Da1. ppr Hl b1 Db1. ppr Hl b Db. cbv zeta.
  assert (Du : is_double (@fsub F a a1)) by (apply sub_double; assumption). assert (Dd : is_double (@fsub F b1 b)) by (apply sub_double; assumption).
  set (up := @fsub F a a1) in *. set (dn := @fsub F b1 b) in *. clearbody up dn.
  assert (S2 : forall u v, nn u -> is_double v -> pp (let (u, v) := if @flt F v (@of_Z F 0) then (u, @of_Z F 0) else if @flt F u v then (@of_Z F 0, v) else (u, v) in Ok (u, v)) (fun r : spec_float * spec_float => nn (fst r) /\ nn (snd r))).
  { intros u v Hu Hv. destruct (@flt F v (@of_Z F 0)) eqn:E; [apply pp_ok; split; [exact Hu|apply nn_0]|].
    apply (not_neg_nn v Hv) in E. destruct (@flt F u v); apply pp_ok; (split; [assumption || apply nn_0|exact E]). }
  destruct (@flt F up (@of_Z F 0)) eqn:E; [apply S2; [apply nn_0|exact Dd]|]. apply (not_neg_nn up Du) in E.
  destruct (@flt F dn up); apply S2; try assumption. apply Z_double.
Qed.
Lemma dm_init_nn h l p : Forall is_double h -> Forall is_double l -> pp (@dm_init F h l p) (fun r => nn (fst r) /\ nn (snd r)).
Proof.
  intros Hh Hl. apply pp_for; [split; apply nn_0|]. intros i [u v] [Hu Hv]. eapply pp_bind; [apply direction_nn; assumption|]. intros [d1 d2] [H1 H2].
  apply pp_ok. split; apply add_nn; assumption.
Qed.
Lemma dx_in64 a b : nn a -> nn b -> in64 0 100 (@dx_val F a b).
Proof.
  intros Ha Hb. unfold dx_val. cbv zeta. destruct (_ .== _); [apply zero_in64; unfold BIG; lia|].
  apply (scale_in64 100 0 1); try lia. apply diff_in64; assumption.
Qed.
Lemma dx_64 size h l o : Forall is_double h -> Forall is_double l -> pp (@ti_dx F size [h; l] [o]) (ranges64 0 100).
Proof.
  intros Hh Hl. unfold ti_dx. eapply pp_bind; [apply (pp_cast o (fun n => n <= INT_MAX)); auto|]. intros p Hp. cbv beta in Hp. cbv zeta.
  destruct (p <? 1) eqn:E1; [apply pp_ok, ranges_nil|]. eapply pp_bind; [apply pp_any|intros st _]. destruct (size <=? _); [apply pp_ok, ranges_nil|].
  destruct (frac_fin p ltac:(lia)) as [Fk Hk]. eapply pp_bind; [apply dm_init_nn; assumption|]. intros [u v] [Hu Hv]. cbn [fst snd] in *.
  eapply (pp_bind _ _ (fun s => let '(u, v, out) := s in nn u /\ nn v /\ Forall (in64 0 100) out)).
  { apply pp_for; [split; [exact Hu|split; [exact Hv|constructor; [apply dx_in64; assumption|constructor]]]|].
    intros i [[a b] out] (Ha & Hb & Ho). eapply pp_bind; [apply direction_nn; assumption|]. intros [d1 d2] [H1 H2]. cbn [fst snd] in *. apply pp_ok.
    pose proof (add_nn _ _ (mul_nn a _ Ha Fk Hk) H1) as G1. pose proof (add_nn _ _ (mul_nn b _ Hb Fk Hk) H2) as G2.
    split; [exact G1|split; [exact G2|]]. apply Forall_snoc; [exact Ho|]. apply dx_in64; assumption. }
  intros [[a b] out] (_ & _ & Ho). eapply pp_bind; [apply pp_any|intros ? _]. apply pp_ok, ranges_one, Ho.
Qed.
Lemma dm_64 size h l o : Forall is_double h -> Forall is_double l -> pp (@ti_dm F size [h; l] [o]) (fun r => Forall (Forall nn) (snd r)).
Proof.
  intros Hh Hl. unfold ti_dm. eapply pp_bind; [apply (pp_cast o (fun n => n <= INT_MAX)); auto|]. intros p Hp. cbv beta in Hp. cbv zeta.
  destruct (p <? 1) eqn:E1; [apply pp_ok; repeat constructor|]. eapply pp_bind; [apply pp_any|intros st _]. destruct (size <=? _); [apply pp_ok; repeat constructor|].
  destruct (frac_fin p ltac:(lia)) as [Fk Hk]. eapply pp_bind; [apply dm_init_nn; assumption|]. intros [u v] [Hu Hv]. cbn [fst snd] in *.
  eapply (pp_bind _ _ (fun s => let '(u, v, out, out') := s in nn u /\ nn v /\ Forall nn out /\ Forall nn out')).
  { apply pp_for; [split; [exact Hu|split; [exact Hv|split; constructor; assumption || constructor]]|].
    intros i [[[a b] out] out'] (Ha & Hb & Ho & Ho'). eapply pp_bind; [apply direction_nn; assumption|]. intros [d1 d2] [H1 H2]. cbn [fst snd] in *. apply pp_ok.
    pose proof (add_nn _ _ (mul_nn a _ Ha Fk Hk) H1) as G1. pose proof (add_nn _ _ (mul_nn b _ Hb Fk Hk) H2) as G2.
    split; [exact G1|split; [exact G2|split; apply Forall_snoc; assumption]]. }
  intros [[[a b] out] out'] (_ & _ & Ho & Ho'). eapply pp_bind; [apply pp_any|intros ? _]. eapply pp_bind; [apply pp_any|intros ? _]. apply pp_ok. repeat constructor; assumption.
Qed.
End F.

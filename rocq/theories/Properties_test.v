(** C56: what the comparison used by the tests (utils/testing.cc) accepts. *)
From Coq Require Import ZifyBool Lia.
From Coq Require Import Reals Lra Floats.SpecFloat.
From Flocq Require Import Core.Core IEEE754.BinarySingleNaN.
From Verif Require Import Stream StreamP RArith F64 F64Laws M_test F64Range.
Open Scope Z_scope.

Lemma count_bad lo hi (f : Z -> Z -> res Z) (g : Z -> bool) b0 : lo <= hi -> (forall j b, lo <= j < hi -> f j b = Ok (if g j then b else b + 1)) ->
  exists b, for_ lo hi f b0 = Ok b /\ b0 <= b <= b0 + (hi - lo) /\ (b = b0 <-> forall j, lo <= j < hi -> g j = true).
Proof.
  intros L H. exists (trec (fun j b => if g j then b else b + 1) lo hi b0). split; [apply for_trec; exact H|]. clear H.
  apply (zind (fun hi => b0 <= trec (fun j b => if g j then b else b + 1) lo hi b0 <= b0 + (hi - lo) /\ (trec (fun j b => if g j then b else b + 1) lo hi b0 = b0 <-> forall j, lo <= j < hi -> g j = true)) lo hi L).
  - rewrite trec_nil by lia. split; [lia|]. split; intros; [lia|reflexivity].
  - intros m Hm (IH1 & IH2). rewrite trec_snoc by lia. destruct (g m) eqn:E.
    + split; [lia|]. rewrite IH2. split; intros H j Hj; [destruct (Z.eq_dec j m) as [->|N]; [exact E|apply H; lia]|apply H; lia].
    + split; [lia|]. split; intros H; [lia|]. rewrite (H m) in E by lia. discriminate.
Qed.

(** ** Which arrays pass *)
(** A comparison of answers fails for no output exactly if, with at least one output, the sizes agree and all values are equal_reals. *)
Theorem C56_compare : forall {A : Arith} n (answers outputs : list (list T)) answer_size output_size,
  1 <= n -> zlen answers = n -> zlen outputs = n -> Forall (fun a => zlen a = answer_size) answers -> Forall (fun o => zlen o = output_size) outputs ->
  exists failures, compare_answers n answers outputs answer_size output_size = Ok failures /\ 0 <= failures <= n /\
    (failures = 0 <-> answer_size = output_size /\ forall i j, 0 <= i < n -> 0 <= j < answer_size -> equal_reals (zf (zn [] answers i) j) (zf (zn [] outputs i) j) = true).
Proof.
  intros A n ans outs sa so Hn La Lo Fa Fo.
  assert (Za : forall i, 0 <= i < n -> zlen (zn [] ans i) = sa) by (intros i Hi; rewrite Forall_forall in Fa; apply Fa; unfold zn; apply nth_In; unfold zlen in La; lia).
  assert (Zo : forall i, 0 <= i < n -> zlen (zn [] outs i) = so) by (intros i Hi; rewrite Forall_forall in Fo; apply Fo; unfold zn; apply nth_In; unfold zlen in Lo; lia).
  assert (Sa : 0 <= sa) by (rewrite <- (Za 0) by lia; unfold zlen; lia). assert (So : 0 <= so) by (rewrite <- (Zo 0) by lia; unfold zlen; lia).
  set (good := fun i j => (j <? sa) && (j <? so) && equal_reals (zf (zn [] ans i) j) (zf (zn [] outs i) j)).
  set (same := fun i => forallb (good i) (map Z.of_nat (seq 0 (Z.to_nat (Z.max sa so))))).
  assert (HS : forall i, same i = true <-> forall j, 0 <= j < Z.max sa so -> good i j = true).
  { intros i. unfold same. rewrite forallb_forall. split; intros H.
    - intros j Hj. apply H. apply in_map_iff. exists (Z.to_nat j). split; [lia|]. apply in_seq. lia.
    - intros j Hj. apply in_map_iff in Hj. destruct Hj as (k & <- & Hk). apply in_seq in Hk. apply H. lia. }
  assert (Hl : 0 <= n) by lia. unfold compare_answers.
  match goal with |- context [for_ 0 n ?f 0] => destruct (count_bad 0 n f same 0 Hl) as (b & E & B & I) end.
  { intros i b Hi. rewrite (rd_ok [] ans i), (rd_ok [] outs i) by lia. cbn [bind]. cbv zeta. assert (Hm : 0 <= Z.max sa so) by lia.
    match goal with |- context [for_ 0 (Z.max sa so) ?f 0] => destruct (count_bad 0 (Z.max sa so) f (good i) 0 Hm) as (c & E & B & I) end.
    - intros j c Hj. unfold good. destruct ((j <? sa) && (j <? so)) eqn:E; [|reflexivity]. pose proof (Za i Hi). pose proof (Zo i Hi). rewrite !rd_zf by lia. cbn [bind andb]. reflexivity.
    - rewrite E. cbn [bind]. f_equal. destruct (same i) eqn:Es.
      + replace c with 0 by (symmetry; apply I, HS; exact Es). reflexivity.
      + destruct (c =? 0) eqn:Ec; [|reflexivity]. exfalso. assert (T' : same i = true) by (apply HS, I; lia). congruence. }
  exists b. split; [exact E|]. split; [lia|]. rewrite I. split.
  - intros H. assert (Hs : sa = so).
    { destruct (Z.eq_dec sa so) as [e|ne]; [exact e|]. exfalso. pose proof (proj1 (HS 0) (H 0 ltac:(lia)) (Z.max sa so - 1) ltac:(lia)) as G. unfold good in G. lia. }
    split; [exact Hs|]. intros i j Hi Hj. pose proof (proj1 (HS i) (H i Hi) j ltac:(lia)) as G. unfold good in G. apply andb_prop in G. apply G.
  - intros (-> & H) i Hi. apply HS. intros j Hj. unfold good. rewrite H by lia. lia.
Qed.
Print Assumptions C56_compare.
Theorem C56_arrays : forall {A : Arith} (a b : list T), exists same, equal_arrays a b (zlen a) (zlen b) = Ok same /\
  (same = true <-> zlen a = zlen b /\ forall i, 0 <= i < zlen a -> equal_reals (zf a i) (zf b i) = true).
Proof.
  intros A a b. unfold equal_arrays. destruct (Z.eqb_spec (zlen a) (zlen b)) as [e|ne]; cbn [negb].
  - exists (trec (fun i same => same && equal_reals (zf a i) (zf b i)) 0 (zlen a) true). split.
    + apply for_trec. intros i [] Hi; [|reflexivity]. rewrite !rd_zf by lia. reflexivity.
    + transitivity (forall i, 0 <= i < zlen a -> equal_reals (zf a i) (zf b i) = true); [|tauto]. generalize (zlen_nonneg a). generalize (zlen a) as n. clear. intros n Hn.
      apply (zind (fun n => trec (fun i same => same && equal_reals (zf a i) (zf b i)) 0 n true = true <-> forall i, 0 <= i < n -> equal_reals (zf a i) (zf b i) = true) 0 n Hn).
      * rewrite trec_nil by lia. split; intros; [lia|reflexivity].
      * intros m Hm IH. rewrite trec_snoc by lia. rewrite andb_true_iff, IH. split; [intros [H1 H2] i Hi; destruct (Z.eq_dec i m) as [->|N]; [exact H2|apply H1; lia]|].
        intros H. split; [intros i Hi; apply H; lia|apply H; lia].
  - exists false. split; [reflexivity|]. split; [discriminate|]. tauto.
Qed.
Print Assumptions C56_arrays.

(** ** Which values are equal *)
(** Over the reals: closer than 1/1000, or of absolute values whose quotient is closer than 1/1000 to 1. *)
Theorem C56_reals : forall a b : R, @equal_reals RA a b = true <-> (Rabs (a - b) < 1 / 1000 \/ (b <> 0 /\ Rabs (1 - Rabs a / Rabs b) < 1 / 1000))%R.
Proof.
  intros a b. unfold equal_reals. cbn [T of_Z lit fadd fsub fmul fdiv fopp fabs fsqrt flt RA]. rewrite orb_true_iff.
  replace (10 ^ 3) with 1000 by reflexivity.
  assert (E : forall x y, Rltb x y = true <-> (x < y)%R) by (intros x y; unfold Rltb; destruct (Rlt_dec x y); split; intros; (assumption || discriminate || reflexivity || contradiction)).
  rewrite !E. destruct (Req_dec b 0) as [->|Hb].
  - replace (a / 0)%R with 0%R by (unfold Rdiv; rewrite Rinv_0; ring). assert (E1 : Rabs (1 - Rabs 0) = 1%R) by (rewrite Rabs_R0, Rminus_0_r; apply Rabs_R1). rewrite E1. split; intros [H|H]; [left; exact H|exfalso; lra|left; exact H|exfalso; apply H; reflexivity].
  - replace (Rabs (a / b)) with (Rabs a / Rabs b)%R by (unfold Rdiv; rewrite Rabs_mult, Rabs_inv; reflexivity). split; intros [H|H]; [left; exact H|right; split; [exact Hb|exact H]|left; exact H|right; apply H].
Qed.
Print Assumptions C56_reals.
(** So the comparison does not see the sign: every value equals its negative, *)
Theorem C56_sign_blind : forall a : R, @equal_reals RA a (- a)%R = true.
Proof.
  intros a. apply C56_reals. destruct (Req_dec a 0) as [->|Ha].
  - left. rewrite Ropp_0, Rminus_0_r, Rabs_R0. lra.
  - right. split; [lra|]. rewrite Rabs_Ropp. unfold Rdiv at 1. rewrite Rinv_r by (apply Rabs_no_R0; exact Ha). rewrite Rminus_eq_0, Rabs_R0. lra.
Qed.
Print Assumptions C56_sign_blind.
(** ... answers pass against outputs which are all of the wrong sign, *)
Theorem C56_negated : forall n size (answers : list (list R)), 1 <= n -> zlen answers = n -> Forall (fun a => zlen a = size) answers ->
  @compare_answers RA n answers (map (map Ropp) answers) size size = Ok 0.
Proof.
  intros n size ans Hn La Fa.
  destruct (C56_compare (A := RA) n ans (map (map Ropp) ans) size size) as (b & E & _ & I).
  - exact Hn.
  - exact La.
  - unfold zlen in *. rewrite map_length. exact La.
  - exact Fa.
  - apply Forall_map. eapply Forall_impl; [|exact Fa]. cbv beta. intros a Ha. unfold zlen in *. rewrite map_length. exact Ha.
  - rewrite E. f_equal. apply I. split; [reflexivity|]. intros i j Hi Hj.
    assert (Z1 : zn [] (map (map Ropp) ans) i = map Ropp (zn [] ans i)) by (unfold zn; apply (map_nth (map Ropp) ans [] (Z.to_nat i))).
    assert (Z2 : @zf RA (map Ropp (zn [] ans i)) j = (- @zf RA (zn [] ans i) j)%R).
    { assert (H0 : @of_Z RA 0 = Ropp (@of_Z RA 0)) by (cbn; lra). unfold zf, zn. rewrite H0 at 1. apply (map_nth Ropp). }
    exact (eq_trans (f_equal2 (@equal_reals RA) eq_refl (eq_trans (f_equal (fun l => @zf RA l j) Z1) Z2)) (C56_sign_blind _)).
Qed.
Print Assumptions C56_negated.
(** ... and values below 1/2000 are all equal, whatever their relation. *)
Theorem C56_near_zero : forall a b : R, (Rabs a < 1 / 2000 -> Rabs b < 1 / 2000 -> @equal_reals RA a b = true)%R.
Proof.
  intros a b Ha Hb. apply C56_reals. left. apply Rabs_def2 in Ha, Hb. apply Rabs_def1; lra.
Qed.
Print Assumptions C56_near_zero.

(** ** binary64 *)
Section B.
Variable lm : libm1 -> spec_float -> spec_float.
Variable pw : spec_float -> spec_float -> spec_float.
Notation eqr := (@equal_reals (F64 lm pw)).
Notation lit3 := (SFdiv prec64 emax64 (f64_of_Z 1) (f64_of_Z 1000)).
Lemma zero_small d : num d -> ev d = 0%R -> SFltb (SFabs d) lit3 = true.
Proof.
  intros N E. destruct (abs_ev d N) as (Na & Ea). assert (Nl : num lit3) by (split; [vm_compute; reflexivity|vm_compute; discriminate]).
  apply (lt_ev _ _ Na Nl). rewrite Ea, E, Rabs_R0.
  assert (N0 : num (S754_zero false)) by (split; [reflexivity|discriminate]). pose proof (proj1 (lt_ev _ _ N0 Nl) ltac:(vm_compute; reflexivity)) as H. exact H.
Qed.
(** A finite value equals itself and its negative. *)
Theorem C56_self_64 : forall x, fin x -> eqr x x = true.
Proof.
  intros x F. unfold equal_reals. cbn [T of_Z lit fsub fdiv fabs flt F64]. change (10 ^ 3) with 1000. apply orb_true_iff. left.
  destruct (sub_rounds x x F F) as (N & E). apply zero_small; [exact N|]. rewrite E, Rminus_eq_0. apply rd64_0.
Qed.
Theorem C56_sign_blind_64 : forall s m e, is_double (S754_finite s m e) -> eqr (S754_finite s m e) (S754_finite (negb s) m e) = true.
Proof.
  intros s m e D. unfold equal_reals. cbn [T of_Z lit fsub fdiv fabs flt F64]. change (10 ^ 3) with 1000. apply orb_true_iff. right.
  assert (Fx : fin (S754_finite s m e)) by (split; [exact D|exact I]). assert (Fy : fin (S754_finite (negb s) m e)) by (split; [exact D|exact I]).
  assert (Ev : ev (S754_finite (negb s) m e) = (- ev (S754_finite s m e))%R) by (cbn [ev SF2R]; rewrite <- F2R_Zopp; destruct s; reflexivity).
  assert (Nz : ev (S754_finite s m e) <> 0%R).
  { cbn [ev SF2R]. destruct s; [apply Rlt_not_eq; apply F2R_lt_0; reflexivity|apply Rgt_not_eq; apply F2R_gt_0; reflexivity]. }
  destruct (div_rounds _ _ Fx Fy ltac:(rewrite Ev; lra)) as (N & E). set (q := SFdiv prec64 emax64 (S754_finite s m e) (S754_finite (negb s) m e)) in *.
  assert (Eq : ev q = (-1)%R).
  { rewrite E, Ev. replace (ev (S754_finite s m e) / - ev (S754_finite s m e))%R with (IZR (-1)) by (field; exact Nz). apply rd64_Z. unfold BIG. lia. }
  assert (A1 : Rabs (-1) = 1%R) by (rewrite Rabs_left by lra; lra).
  destruct (abs_ev q N) as (Na & Ea). assert (Fa : fin (SFabs q)).
  { apply lt_fin; [exact Na|]. rewrite Ea, Eq, A1. pose proof big_Bnd. assert (1 < IZR BIG)%R by (apply IZR_lt; reflexivity). lra. }
  destruct (fin_of_Z 1 ltac:(unfold BIG; lia)) as (F1 & E1). destruct (sub_rounds _ _ F1 Fa) as (N2 & E2). apply zero_small; [exact N2|].
  rewrite E2, E1, Ea, Eq, A1, Rminus_eq_0. apply rd64_0.
Qed.
Lemma opp_eq y : fin y -> eqr y (SFopp y) = true.
Proof. intros Fy. destruct y as [t|t| |t m e]; [destruct t; vm_compute; reflexivity|destruct (proj2 Fy)|destruct (proj2 Fy)|exact (C56_sign_blind_64 t m e (proj1 Fy))]. Qed.
(** Finite answers pass against outputs which are all of the wrong sign. *)
Theorem C56_negated_64 : forall n size (answers : list (list spec_float)), 1 <= n -> zlen answers = n -> Forall (fun a => zlen a = size) answers -> Forall (Forall fin) answers ->
  @compare_answers (F64 lm pw) n answers (map (map SFopp) answers) size size = Ok 0.
Proof.
  intros n size ans Hn La Fa Ff.
  destruct (C56_compare (A := F64 lm pw) n ans (map (map SFopp) ans) size size) as (b & E & _ & I).
  - exact Hn.
  - exact La.
  - unfold zlen in *. rewrite map_length. exact La.
  - exact Fa.
  - apply Forall_map. eapply Forall_impl; [|exact Fa]. cbv beta. intros a Ha. unfold zlen in *. rewrite map_length. exact Ha.
  - rewrite E. f_equal. apply I. split; [reflexivity|]. intros i j Hi Hj.
    assert (Z1 : zn [] (map (map SFopp) ans) i = map SFopp (zn [] ans i)) by (unfold zn; apply (map_nth (map SFopp) ans [] (Z.to_nat i))).
    assert (Hin : In (zn [] ans i) ans) by (unfold zn; apply nth_In; unfold zlen in La; lia).
    pose proof (proj1 (Forall_forall _ _) Fa _ Hin) as Lx. pose proof (proj1 (Forall_forall _ _) Ff _ Hin) as Fx. cbv beta in Lx. set (x := zn [] ans i) in *.
    assert (Hj' : (Z.to_nat j < length x)%nat) by (unfold zlen in Lx; lia).
    assert (Z2 : @zf (F64 lm pw) (map SFopp x) j = SFopp (@zf (F64 lm pw) x j)).
    { unfold zf, zn. cbn [of_Z F64]. rewrite (nth_indep (map SFopp x) _ (SFopp (f64_of_Z 0))) by (rewrite map_length; exact Hj'). apply map_nth. }
    assert (Fj : fin (@zf (F64 lm pw) x j)) by (apply (proj1 (Forall_forall _ _) Fx); unfold zf, zn; apply nth_In; exact Hj').
    exact (eq_trans (f_equal2 eqr eq_refl (eq_trans (f_equal (fun l => @zf (F64 lm pw) l j) Z1) Z2)) (opp_eq _ Fj)).
Qed.
(** A NaN or an infinity equals nothing, not even itself. *)
Theorem C56_nonfinite_64 : forall x y, x = S754_nan \/ (exists s, x = S754_infinity s) -> eqr x y = false /\ eqr y x = false.
Proof.
  intros x y [->|(s & ->)].
  - split; [reflexivity|]. destruct y; reflexivity.
  - split; destruct s, y as [t|t| |t m e]; try destruct t; vm_compute; reflexivity.
Qed.
End B.
Print Assumptions C56_self_64.
Print Assumptions C56_sign_blind_64.
Print Assumptions C56_negated_64.
Print Assumptions C56_nonfinite_64.

(** ** Concrete cases *)
(** "Equal" is not an equivalence: 0 ~ 0.0009 ~ 0.0018, but not 0 ~ 0.0018. *)
Theorem C56_transitive_refuted : exists a b c : @T F64c, equal_reals a b = true /\ equal_reals b c = true /\ equal_reals a c = false.
Proof. exists (dbl 0 0), (dbl 9 4), (dbl 18 4). vm_compute. repeat split. Qed.
Print Assumptions C56_transitive_refuted.
(** A test of one output with two values: the right answer, the answer with the wrong sign, a wrong value, one value missing, NaN twice. *)
Example C56_example :
  @compare_answers F64c 1 [[dbl 5 0; dbl 25 1]] [[dbl 5 0; dbl 25 1]] 2 2 = Ok 0 /\
  @compare_answers F64c 1 [[dbl 5 0; dbl 25 1]] [[dbl (-5) 0; dbl (-25) 1]] 2 2 = Ok 0 /\
  @compare_answers F64c 1 [[dbl 5 0; dbl 25 1]] [[dbl 5 0; dbl 26 1]] 2 2 = Ok 1 /\
  @compare_answers F64c 1 [[dbl 5 0; dbl 25 1]] [[dbl 5 0]] 2 1 = Ok 1 /\
  @compare_answers F64c 1 [[S754_nan; dbl 25 1]] [[S754_nan; dbl 25 1]] 2 2 = Ok 1 /\
  @equal_arrays F64c [dbl 1 0; dbl 2 0] [dbl 1 0; dbl (-2) 0] 2 2 = Ok true.
Proof. vm_compute. repeat split. Qed.

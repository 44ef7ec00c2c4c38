(** C48: the recursive filters in exact arithmetic — what they compute bar by bar, and what becomes
    of them when the price stays put.

    Reading guide: the equations are in SpecR5.v.  [ssmooth_at x f i] and its like say that the
    sequence [f] satisfies the filter's equation at bar [i] of the series [x]; [C48_solutions]
    says there is always such a sequence, the other theorems that the program returns it and where
    it tends to. *)
From Coq Require Import Reals Lra.
From Verif Require Import M_stream1 C_stream1 Fun_filter Settle Grow Properties_basic Properties_value Properties_batch1.
From Verif Require Export SpecR5.
Open Scope Z_scope.

Definition even_period (n : Z) : Prop := 2 <= n <= 40 /\ Z.even n = true.
Lemma even_period_40 n : even_period n -> even40 n = true.
Proof.
  intros [H1 H2]. unfold even40. apply Z.even_spec in H2. destruct H2 as [q ->]. rewrite Z.mul_comm, Z.rem_mul by lia. lia.
Qed.

(** ** The equations have solutions *)
Lemma at0_same g h i j : (forall k, k < i -> g k = h k) -> j < i -> at0 g j = at0 h j.
Proof. intros H Hj. unfold at0. destruct (j <? 0); [reflexivity|]. apply H. exact Hj. Qed.
Ltac solution d := unfold d; lazymatch goal with |- exists f, forall i, 0 <= i -> f i = @?B f i =>
  let f := fresh "f" in let Hf := fresh in let i := fresh "i" in let g := fresh "g" in let h := fresh "h" in let H := fresh in
  destruct (causal_solution (fun i f => B f i)) as [f Hf]; [|exists f; exact Hf];
  intros i g h ? H; cbv beta; rewrite ?(at0_same g h i (i - 1) H), ?(at0_same g h i (i - 2) H), ?(at0_same g h i (i - 3) H) by lia; reflexivity end.
Theorem C48_solutions : forall x,
  (exists f, forall i, 0 <= i -> ssmooth_at x f i) /\ (exists f, forall i, 0 <= i -> highpass_at x f i) /\
  (forall g, exists l0 l1 l2 l3, forall i, 0 <= i -> laguerre0_at g x l0 i /\ laguerre_at g l0 l1 i /\ laguerre_at g l1 l2 i /\ laguerre_at g l2 l3 i) /\
  (forall N, exists f, forall i, 0 <= i -> mgdyn_at N x f i) /\ (forall p lam, exists f, forall i, 0 <= i -> rema_at p lam x f i) /\
  (forall n, exists f, forall i, 0 <= i -> bf2_at n x f i) /\ (forall n, exists f, forall i, 0 <= i -> bf3_at n x f i) /\
  (forall n, exists f, forall i, 0 <= i -> gf1_at n x f i) /\ (forall n, exists f, forall i, 0 <= i -> gf2_at n x f i) /\
  (exists f, forall i, 0 <= i -> gf3_at x f i) /\ (forall n, exists f, forall i, 0 <= i -> gf4_at n x f i).
Proof.
  intros x.
  assert (L0 : forall g u, exists l, forall i, 0 <= i -> laguerre0_at g u l i) by (intros g u; solution laguerre0_at).
  assert (L1 : forall g u, exists l, forall i, 0 <= i -> laguerre_at g u l i) by (intros g u; solution laguerre_at).
  repeat split; intros.
  - solution ssmooth_at.
  - solution highpass_at.
  - destruct (L0 g x) as [l0 H0]. destruct (L1 g l0) as [l1 H1]. destruct (L1 g l1) as [l2 H2]. destruct (L1 g l2) as [l3 H3]. exists l0, l1, l2, l3. auto.
  - destruct (causal_solution (fun i f => if (i =? 0)%Z then x i else f (i - 1)%Z + (x i - f (i - 1)%Z) / (N * (x i / f (i - 1)%Z) ^ 4))%R) as [f Hf]; [|exists f; exact Hf].
    intros i g h Hi H. destruct (i =? 0); [reflexivity|]. rewrite H by lia. reflexivity.
  - destruct (causal_solution (fun i f => if (i =? 0)%Z then x i else if (i =? 1)%Z then f 0%Z + 2 / (1 + p) * (x i - f 0%Z)
        else (f (i - 1)%Z + 2 / (1 + p) * (x i - f (i - 1)%Z) + lam * (2 * f (i - 1)%Z - f (i - 2)%Z)) / (1 + lam))%R) as [f Hf]; [|exists f; exact Hf].
    intros i g h Hi H. destruct (i =? 0) eqn:E; [reflexivity|]. rewrite (H 0), (H (i - 1)), (H (i - 2)) by lia. reflexivity.
  - solution bf2_at.
  - solution bf3_at.
  - solution gf1_at.
  - solution gf2_at.
  - solution gf3_at.
  - destruct (causal_solution (fun i f => if (i <? 5)%Z then x i
        else (entry gf4_B0_tbl n * x i + entry gf4_A1_tbl n * f (i - 1)%Z + entry gf4_A2_tbl n * f (i - 2)%Z
              + entry gf4_A3_tbl n * f (i - 3)%Z + entry gf4_A4_tbl n * f (i - 4)%Z)
             / (entry gf4_B0_tbl n + entry gf4_A1_tbl n + entry gf4_A2_tbl n + entry gf4_A3_tbl n + entry gf4_A4_tbl n))%R) as [f Hf]; [|exists f; exact Hf].
    intros i g h Hi H. rewrite (H (i - 1)), (H (i - 2)), (H (i - 3)), (H (i - 4)) by lia. reflexivity.
Qed.
Print Assumptions C48_solutions.

(** ** The programs return them *)
Theorem C48_ssmooth : forall size (x : list R) f, zlen x = size -> 0 <= size <= INT_MAX ->
  (forall i, 0 <= i < size -> ssmooth_at (zr x) f i) -> @ti_ssmooth RA size [x] [] = Ok (OKAY, [tab 0 size f]).
Proof. exact ssmooth_fun. Qed.
Print Assumptions C48_ssmooth.
Theorem C48_roof : forall size (x : list R) h f, zlen x = size -> 0 <= size <= INT_MAX ->
  (forall i, 0 <= i < size -> highpass_at (zr x) h i) -> (forall i, 0 <= i < size -> ssmooth_at h f i) ->
  @ti_roof RA size [x] [] = Ok (OKAY, [tab 0 size f]).
Proof. exact roof_fun. Qed.
Print Assumptions C48_roof.
Theorem C48_lf : forall size (x : list R) g l0 l1 l2 l3, zlen x = size -> 0 <= size <= INT_MAX -> (0 <= g)%R ->
  (forall i, 0 <= i < size -> laguerre0_at g (zr x) l0 i /\ laguerre_at g l0 l1 i /\ laguerre_at g l1 l2 i /\ laguerre_at g l2 l3 i) ->
  @ti_lf RA size [x] [g] = Ok (OKAY, [tab 0 size (fun i => (l0 i + 2 * l1 i + 2 * l2 i + l3 i) / 6)%R]).
Proof. exact lf_fun. Qed.
Print Assumptions C48_lf.
(** The fourth power is libm's pow, known here for positive arguments. *)
Theorem C48_mgdyn : forall size (x : list R) N f, zlen x = size -> 0 <= size <= INT_MAX ->
  (forall i, 0 <= i < size -> mgdyn_at N (zr x) f i) -> (forall i, 1 <= i < size -> (0 < zr x i / f (i - 1)%Z)%R) ->
  @ti_mgdyn RA size [x] [N] = Ok (OKAY, [tab 0 size f]).
Proof. exact mgdyn_fun. Qed.
Print Assumptions C48_mgdyn.
Theorem C48_rema : forall size (x : list R) p lam f, zlen x = size -> 0 <= size <= INT_MAX -> (1 <= p)%R -> (0 <= lam)%R ->
  (forall i, 0 <= i < size -> rema_at p lam (zr x) f i) -> @ti_rema RA size [x] [p; lam] = Ok (OKAY, [tab 0 size f]).
Proof. exact rema_fun. Qed.
Print Assumptions C48_rema.
(** The first bars are not written: as many as 2 (3) periods over 3.1415^2, rounded up. *)
Theorem C48_bf2 : forall size (x : list R) o n s f, zlen x = size -> 0 <= size <= INT_MAX -> @to_int RA o = Some n -> even_period n ->
  (IZR s - 1 < 2 * o / (31415 / 10000 * (31415 / 10000)) <= IZR s)%R -> (forall i, 0 <= i < size -> bf2_at n (zr x) f i) ->
  @ti_bf2 RA size [x] [o] = Ok (OKAY, [tab s size f]).
Proof. intros. eapply bf2_fun; try eassumption. apply even_period_40. assumption. Qed.
Print Assumptions C48_bf2.
Theorem C48_bf3 : forall size (x : list R) o n s f, zlen x = size -> 0 <= size <= INT_MAX -> @to_int RA o = Some n -> even_period n ->
  (IZR s - 1 < 3 * o / (31415 / 10000 * (31415 / 10000)) <= IZR s)%R -> (forall i, 0 <= i < size -> bf3_at n (zr x) f i) ->
  @ti_bf3 RA size [x] [o] = Ok (OKAY, [tab s size f]).
Proof. intros. eapply bf3_fun; try eassumption. apply even_period_40. assumption. Qed.
Print Assumptions C48_bf3.
Theorem C48_gf : forall size (x : list R) o n f, zlen x = size -> 0 <= size <= INT_MAX -> @to_int RA o = Some n -> even_period n ->
  ((forall i, 0 <= i < size -> gf1_at n (zr x) f i) -> @ti_gf1 RA size [x] [o] = Ok (OKAY, [tab 0 size f])) /\
  ((forall i, 0 <= i < size -> gf2_at n (zr x) f i) -> @ti_gf2 RA size [x] [o] = Ok (OKAY, [tab 0 size f])) /\
  ((forall i, 0 <= i < size -> gf3_at (zr x) f i) -> @ti_gf3 RA size [x] [o] = Ok (OKAY, [tab 0 size f])) /\
  (5 <= size -> (forall i, 0 <= i < size -> gf4_at n (zr x) f i) -> @ti_gf4 RA size [x] [o] = Ok (OKAY, [tab 0 size f])).
Proof.
  intros size x o n f Hx Hs Ho Hn. apply even_period_40 in Hn. repeat split; intros; [eapply gf1_fun|eapply gf2_fun|eapply gf3_fun|eapply gf4_fun]; try eassumption. lia.
Qed.
Print Assumptions C48_gf.

(** ** Where they tend to *)
(** The smoother and the Laguerre filter (damping below 1) follow any series that converges; the roof
    loses it. *)
Theorem C48_follow : forall x c, tends x c ->
  (forall f, (forall i, 0 <= i -> ssmooth_at x f i) -> tends f c) /\
  (forall h f, (forall i, 0 <= i -> highpass_at x h i) -> (forall i, 0 <= i -> ssmooth_at h f i) -> tends f 0) /\
  (forall g l0 l1 l2 l3, (0 <= g < 1)%R ->
    (forall i, 0 <= i -> laguerre0_at g x l0 i /\ laguerre_at g l0 l1 i /\ laguerre_at g l1 l2 i /\ laguerre_at g l2 l3 i) ->
    tends (fun i => (l0 i + 2 * l1 i + 2 * l2 i + l3 i) / 6)%R c).
Proof.
  intros x c Hx. repeat split; intros.
  - apply (ssmooth_tends x); assumption.
  - apply (roof_tends x h f c); assumption.
  - eapply lf_tends; eassumption.
Qed.
Print Assumptions C48_follow.
(** After the price has stopped at [c] the regularised average and the first three Gaussian filters
    tend to [c], the fourth for periods up to 30; the Butterworth filters to [c] up to the rounding
    of their tables. *)
Theorem C48_settle : forall x c, levels x c ->
  (forall p lam f, (1 <= p)%R -> (0 <= lam)%R -> (forall i, 0 <= i -> rema_at p lam x f i) -> tends f c) /\
  (forall n f, even_period n -> (forall i, 0 <= i -> gf1_at n x f i) -> tends f c) /\
  (forall n f, even_period n -> (forall i, 0 <= i -> gf2_at n x f i) -> tends f c) /\
  (forall f, (forall i, 0 <= i -> gf3_at x f i) -> tends f c) /\
  (forall n f, even_period n -> n <= 30 -> (forall i, 0 <= i -> gf4_at n x f i) -> tends f c) /\
  (forall n f, even_period n -> (forall i, 0 <= i -> bf2_at n x f i) -> exists v, tends f v /\ (Rabs (v - c) <= Rabs c / 20000)%R) /\
  (forall n f, even_period n -> (forall i, 0 <= i -> bf3_at n x f i) -> exists v, tends f v /\ (Rabs (v - c) <= Rabs c / 3000)%R).
Proof.
  intros x c Hx. assert (G : forall g k, (0 < k)%R -> (Rabs (g - 1) <= 1 / k)%R -> (Rabs (g * c - c) <= Rabs c / k)%R).
  { intros g k Hk Hg. replace (g * c - c)%R with ((g - 1) * c)%R by ring. rewrite Rabs_mult. unfold Rdiv. rewrite (Rmult_comm (Rabs c)). apply Rmult_le_compat_r; [apply Rabs_pos|]. lra. }
  repeat split; intros.
  - eapply rema_tends; eassumption.
  - destruct H. eapply gf1_tends; eassumption.
  - destruct H. eapply gf2_tends; eassumption.
  - eapply gf3_tends; eassumption.
  - destruct H. eapply (gf4_tends n); try eassumption. lia.
  - destruct H. destruct (bf2_tends n x f c ltac:(assumption) ltac:(assumption) ltac:(assumption) Hx) as [T B]. eexists. split; [exact T|]. apply G; [lra|exact B].
  - destruct H. destruct (bf3_tends n x f c ltac:(assumption) ltac:(assumption) ltac:(assumption) Hx) as [T B]. eexists. split; [exact T|]. apply G; [lra|exact B].
Qed.
Print Assumptions C48_settle.

(** ** The fourth-order Gaussian filter from period 32 on *)
(** One price of 1 among zeros makes the output exceed any bound. *)
Theorem C48_gf4_unbounded : forall n f, even_period n -> 32 <= n -> (forall i, 0 <= i -> gf4_at n blip f i) -> forall M, exists i, 0 <= i /\ (M < Rabs (f i))%R.
Proof.
  intros n f [Hn He] H Hf. apply gf4_unbounded with (n := n); [|exact Hf]. unfold wide. apply Z.even_spec in He. destruct He as [q ->]. lia.
Qed.
Print Assumptions C48_gf4_unbounded.
(** The program passes 10^100 within 24000 bars of prices between 0 and 1. *)
Theorem C48_gf4_refuted : forall n, even_period n -> 32 <= n ->
  exists x out, zlen x = 24000 /\ (forall i, (0 <= zr x i <= 1)%R) /\ (forall i, 4 <= i -> zr x i = 0%R) /\
    @ti_gf4 RA 24000 [x] [IZR n] = Ok (OKAY, [out]) /\ exists i, 0 <= i < 24000 /\ (10 ^ 100 < Rabs (zr out i))%R.
Proof.
  intros n Hn H. set (x := tab 0 24000 blip).
  assert (Hz : forall i, zr x i = blip i \/ zr x i = 0%R).
  { intros i. destruct (Z.lt_ge_cases i 0) as [H0|H0].
    - left. unfold zn, x, tab. replace (Z.to_nat i) with 0%nat by lia. unfold blip. replace (i =? 3) with false by lia. reflexivity.
    - destruct (Z.lt_ge_cases i 24000) as [H1|H1].
      + left. unfold x. rewrite zn_tab by lia. reflexivity.
      + right. unfold zn. apply nth_overflow. unfold x, tab. rewrite map_length, seq_length. lia. }
  destruct (proj2 (proj2 (proj2 (proj2 (proj2 (proj2 (proj2 (proj2 (proj2 (proj2 (C48_solutions blip)))))))))) n) as [f Hf].
  exists x, (tab 0 24000 f). split; [unfold x; rewrite zlen_tab; reflexivity|]. split; [|split; [|split]].
  - intros i. destruct (Hz i) as [->| ->]; unfold blip; [destruct (i =? 3)|]; lra.
  - intros i Hi. destruct (Hz i) as [->| ->]; [|reflexivity]. unfold blip. replace (i =? 3) with false by lia. reflexivity.
  - apply (C48_gf 24000 x (IZR n) n f); [unfold x; rewrite zlen_tab; reflexivity|zl| |exact Hn|lia|].
    + apply RA_int. destruct Hn. zl.
    + intros i Hi. specialize (Hf i ltac:(lia)). unfold gf4_at in *. unfold x. rewrite zn_tab by lia. replace (0 + i) with i by lia. exact Hf.
  - destruct (gf4_huge n f) as (i & Hi & HM).
    + unfold wide. destruct Hn as [Hn He]. apply Z.even_spec in He. destruct He as [q ->]. lia.
    + intros i Hi. apply Hf. lia.
    + exists i. split; [exact Hi|]. rewrite zn_tab by lia. replace (0 + i) with i by lia. exact HM.
Qed.
Print Assumptions C48_gf4_refuted.

Ltac ev := cbn -[pow]; try change (Pos.to_nat 1) with 1%nat; try change (Pos.to_nat 2) with 2%nat; cbn -[pow].

(** ** The tables *)
(** Up to the rounding of the sixth digit the Gaussian tables are the binomial coefficients of
    (q z - 1)^k, the Butterworth tables weigh prices 1:2:1 and 1:3:3:1.  The last gf4 table has the
    opposite sign of what the binomial formula asks. *)
Definition near (a b : R) : Prop := (Rabs (a - b) <= 2 / 1000000)%R.
Definition binomial1 (n : Z) : Prop := near (entry gf1_B0_tbl n) (1 - entry gf1_A1_tbl n).
Definition binomial2 (n : Z) : Prop := let q := (entry gf2_A1_tbl n / 2)%R in
  near (entry gf2_B0_tbl n) ((1 - q) ^ 2) /\ near (entry gf2_A2_tbl n) (- q ^ 2).
Definition binomial3 (n : Z) : Prop := let q := (entry gf3_A1_tbl n / 3)%R in
  near (entry gf3_B0_tbl n) ((1 - q) ^ 3) /\ near (entry gf3_A2_tbl n) (- 3 * q ^ 2) /\ near (entry gf3_A3_tbl n) (q ^ 3).
Definition binomial4 (n : Z) : Prop := let q := (entry gf4_A1_tbl n / 4)%R in
  near (entry gf4_B0_tbl n) ((1 - q) ^ 4) /\ near (entry gf4_A2_tbl n) (- 6 * q ^ 2) /\ near (entry gf4_A3_tbl n) (4 * q ^ 3) /\
  near (entry gf4_A4_tbl n) (q ^ 4) (* the formula has - q ^ 4 *).
Definition price_weights (n : Z) : Prop :=
  near (entry bf2_B1_tbl n) (2 * entry bf2_B0_tbl n) /\ entry bf2_B2_tbl n = entry bf2_B0_tbl n /\
  near (entry bf3_B1_tbl n) (3 * entry bf3_B0_tbl n) /\ entry bf3_B2_tbl n = entry bf3_B1_tbl n /\ entry bf3_B3_tbl n = entry bf3_B0_tbl n.
Lemma even_cases (P : Z -> Prop) : (forall q, In q (map Z.of_nat (seq 1 20)) -> P (2 * q)) -> forall n, even_period n -> P n.
Proof.
  intros H n [Hn He]. apply Z.even_spec in He. destruct He as [q ->]. apply H. apply in_map_iff. exists (Z.to_nat q). split; [lia|]. apply in_seq. lia.
Qed.
Ltac byrow := unfold near, entry; apply even_cases; intros q Hq; cbn [seq map In] in Hq;
  repeat (destruct Hq as [<-|Hq]; [match goal with |- context[Z.to_nat ?e] => let v := eval vm_compute in (Z.to_nat e) in change (Z.to_nat e) with v end|]); [..|contradiction];
  cbn [nth]; cbv zeta.
Theorem C48_tables : forall n, even_period n -> binomial1 n /\ binomial2 n /\ binomial3 n /\ binomial4 n /\ price_weights n.
Proof.
  unfold binomial1, binomial2, binomial3, binomial4, price_weights.
  assert (K : forall a b, (- (2 / 1000000) <= a - b <= 2 / 1000000)%R -> (Rabs (a - b) <= 2 / 1000000)%R) by (intros; apply Rabs_le; lra).
  byrow; cbn [gf1_B0_tbl gf1_A1_tbl gf2_B0_tbl gf2_A1_tbl gf2_A2_tbl gf3_B0_tbl gf3_A1_tbl gf3_A2_tbl gf3_A3_tbl gf4_B0_tbl gf4_A1_tbl gf4_A2_tbl gf4_A3_tbl gf4_A4_tbl
    bf2_B0_tbl bf2_B1_tbl bf2_B2_tbl bf3_B0_tbl bf3_B1_tbl bf3_B2_tbl bf3_B3_tbl nth]; (repeat split); try reflexivity; apply K; lra.
Qed.
Print Assumptions C48_tables.
Theorem C48_gf4_sign_refuted : exists n, even_period n /\ let q := (entry gf4_A1_tbl n / 4)%R in ~ near (entry gf4_A4_tbl n) (- q ^ 4).
Proof.
  exists 40. split; [split; [lia|reflexivity]|]. cbv zeta. unfold near, entry. change (Z.to_nat (40 / 2 - 1)) with 19%nat. cbn [nth gf4_A1_tbl gf4_A4_tbl].
  rewrite Rabs_pos_eq; lra.
Qed.
Print Assumptions C48_gf4_sign_refuted.

(** ** Limits of the other two *)
(** lf accepts damping 1, where it ignores the price. *)
Theorem C48_lf_refuted : forall size (x : list R), zlen x = size -> 0 <= size <= INT_MAX -> @ti_lf RA size [x] [1%R] = Ok (OKAY, [tab 0 size (fun _ => 0%R)]).
Proof.
  intros size x Hx Hs. rewrite (C48_lf size x 1%R (fun _ => 0%R) (fun _ => 0%R) (fun _ => 0%R) (fun _ => 0%R) Hx Hs ltac:(lra)).
  - do 3 f_equal. apply tab_ext. intros i Hi. field.
  - intros i Hi. unfold laguerre0_at, laguerre_at, at0. destruct (i - 1 <? 0); repeat split; ring.
Qed.
Print Assumptions C48_lf_refuted.
(** Below the price the McGinley average rises, but not past it. *)
Theorem C48_mgdyn_rising : forall N x f i, mgdyn_at N x f i -> 0 < i -> (1 <= N)%R -> (0 < f (i - 1)%Z <= x i)%R -> (f (i - 1)%Z <= f i <= x i)%R.
Proof.
  intros N x f i H Hi HN [H0 H1]. unfold mgdyn_at in H. replace (i =? 0) with false in H by lia. set (a := f (i - 1)) in *. set (b := x i) in *.
  assert (Hr : (1 <= b / a)%R). { apply Rmult_le_reg_r with a; [lra|]. unfold Rdiv. rewrite Rmult_assoc, Rinv_l by lra. lra. }
  assert (Hp : (1 <= (b / a) ^ 4)%R) by (apply pow_R1_Rle; exact Hr). set (k := (N * (b / a) ^ 4)%R) in *. assert (Hk : (1 <= k)%R) by (unfold k; nra).
  rewrite H. assert (0 <= (b - a) / k <= b - a)%R; [|lra]. split.
  - apply Rmult_le_pos; [lra|]. left. apply Rinv_0_lt_compat. lra.
  - apply Rmult_le_reg_r with k; [lra|]. unfold Rdiv. rewrite Rmult_assoc, Rinv_l by lra. nra.
Qed.
Print Assumptions C48_mgdyn_rising.
(** Above the price it can fall far below it: prices 4 and 1 give 4 and -72.8. *)
Theorem C48_mgdyn_refuted : @ti_mgdyn RA 2 [[4; 1]%R] [10%R] = Ok (OKAY, [[4; - (728 / 10)]%R]).
Proof.
  rewrite (C48_mgdyn 2 [4; 1]%R 10%R (fun i => if i =? 0 then 4 else - (728 / 10))%R ltac:(reflexivity) ltac:(zl)).
  - reflexivity.
  - intros i Hi. assert (i = 0 \/ i = 1) as [->| ->] by lia; unfold mgdyn_at; ev; [reflexivity|]. field.
  - intros i Hi. replace i with 1 by lia. ev. lra.
Qed.
Print Assumptions C48_mgdyn_refuted.

(** ** Cases *)
Example C48_gf3_case : @ti_gf3 RA 3 [[4; 0; 0]%R] [6%R] = Ok (OKAY, [[1; 1 / 4; 5 / 16]%R]).
Proof.
  etransitivity; [apply (C48_gf 3 [4; 0; 0]%R 6%R 6 (zr [1; 1 / 4; 5 / 16]%R)); [reflexivity|zl|apply RA_int; zl|split; [lia|reflexivity]|]|reflexivity].
  intros i Hi. assert (i = 0 \/ i = 1 \/ i = 2) as [->|[->| ->]] by lia; unfold gf3_at, at0; ev; lra.
Qed.
Example C48_gf1_case : @ti_gf1 RA 2 [[1000000; 0]%R] [2%R] = Ok (OKAY, [[828427; 171573 * 828427 / 1000000]%R]).
Proof.
  etransitivity; [apply (C48_gf 2 [1000000; 0]%R 2%R 2 (zr [828427; 171573 * 828427 / 1000000]%R)); [reflexivity|zl|apply RA_int; zl|split; [lia|reflexivity]|]|reflexivity].
  intros i Hi. assert (i = 0 \/ i = 1) as [->| ->] by lia; unfold gf1_at, at0, entry; ev; field.
Qed.
Example C48_bf2_case : @ti_bf2 RA 3 [[0; 1000000; 0]%R] [2%R] = Ok (OKAY, [[285784; 571568 - 131366 * 285784 / 1000000]%R]).
Proof.
  etransitivity; [apply (C48_bf2 3 [0; 1000000; 0]%R 2%R 2 1 (zr [0; 285784; 571568 - 131366 * 285784 / 1000000]%R)); [reflexivity|zl|apply RA_int; zl|split; [lia|reflexivity]|lra|]|reflexivity].
  intros i Hi. assert (i = 0 \/ i = 1 \/ i = 2) as [->|[->| ->]] by lia; unfold bf2_at, at0, entry; ev; field.
Qed.
Example C48_rema_case : @ti_rema RA 3 [[0; 2; 0]%R] [1%R; 1%R] = Ok (OKAY, [[0; 2; 2]%R]).
Proof.
  etransitivity; [apply (C48_rema 3 [0; 2; 0]%R 1%R 1%R (zr [0; 2; 2]%R)); [reflexivity|zl|lra|lra|]|reflexivity].
  intros i Hi. assert (i = 0 \/ i = 1 \/ i = 2) as [->|[->| ->]] by lia; unfold rema_at; ev; field.
Qed.
Example C48_lf_case : @ti_lf RA 1 [[8]%R] [(1 / 2)%R] = Ok (OKAY, [[1 / 4]%R]).
Proof.
  etransitivity; [apply (C48_lf 1 [8]%R (1 / 2)%R (fun _ => 4%R) (fun _ => -2)%R (fun _ => 1%R) (fun _ => - (1 / 2))%R); [reflexivity|zl|lra|]|].
  - intros i Hi. replace i with 0 by lia. unfold laguerre0_at, laguerre_at, at0; ev. repeat split; lra.
  - change (tab 0 1 ?f) with [f 0]. apply okl. repeat first [reflexivity|apply consl|lra].
Qed.
Example C48_ssmooth_case : @ti_ssmooth RA 1 [[8]%R] [] = Ok (OKAY, [[smooth_gain * 4]%R]).
Proof.
  etransitivity; [apply (C48_ssmooth 1 [8]%R (fun _ => smooth_gain * 4)%R); [reflexivity|zl|]|reflexivity].
  intros i Hi. replace i with 0 by lia. unfold ssmooth_at, at0; ev. lra.
Qed.
(** A series that stops: the price of the blip.  Every filter above dies out on it. *)
Example C48_settle_case : levels blip 0%R /\ blip 3 = 1%R /\ exists f, (forall i, 0 <= i -> gf4_at 30 blip f i) /\ tends f 0%R /\ f 3 = 1%R.
Proof.
  assert (L : levels blip 0%R) by (exists 4; intros i Hi; unfold blip; replace (i =? 3) with false by lia; reflexivity).
  split; [exact L|]. split; [reflexivity|]. destruct (proj2 (proj2 (proj2 (proj2 (proj2 (proj2 (proj2 (proj2 (proj2 (proj2 (C48_solutions blip)))))))))) 30) as [f Hf].
  exists f. split; [exact Hf|]. split.
  - apply (proj1 (proj2 (proj2 (proj2 (proj2 (C48_settle blip 0%R L))))) 30 f); [split; [lia|reflexivity]|lia|exact Hf].
  - rewrite (Hf 3 ltac:(lia)). reflexivity.
Qed.

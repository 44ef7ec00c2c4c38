(** C13 - C15: sliding-window extremes.

    Reading guide: [good] is a set of values on which <= is a total preorder ([OrdLaws]):
    all reals for [RA], all doubles except NaN for binary64 (F64_ord). *)
From Coq Require Import SpecFloat.
From Verif Require Import Fun_window2 Properties_basic F64Ord F64Laws.

(** [v] occurs in [l] and no element of [l] is larger / smaller. *)
Definition is_max {A : Arith} (v : T) (l : list T) : Prop := In v l /\ Forall (fun y => (y .<= v) = true) l.
Definition is_min {A : Arith} (v : T) (l : list T) : Prop := In v l /\ Forall (fun y => (v .<= y) = true) l.

Section H.
Context {A : Arith} {L : IntLaws A} (good : T -> Prop) (OL : OrdLaws A good).
Lemma window_in (x : list T) k p j : 0 <= k -> k <= j < k + p -> k + p <= zlen x -> In (zf x j) (window k p x).
Proof.
  intros. rewrite (window_tab f0) by lia. unfold tab. apply in_map_iff. exists (Z.to_nat (j - k)).
  split; [unfold zf; f_equal; lia|]. apply in_seq. lia.
Qed.
Lemma window_all (P : T -> Prop) (x : list T) k p : 0 <= k -> 0 <= p -> k + p <= zlen x ->
  (forall j, k <= j < k + p -> P (zf x j)) -> Forall P (window k p x).
Proof. intros Hk Hp Hl H. rewrite (window_tab f0) by lia. apply Forall_tab. intros; apply H; lia. Qed.
Lemma hi_is_max x k p : 0 <= k -> 1 <= p -> k + p <= zlen x -> allgood good x ->
  is_max (hi_val x k (k + p - 1)) (window k p x).
Proof.
  intros Hk Hp Hl Hg. destruct (hi_latest good OL x k (k + p - 1)) as (R & H & _); try lia; auto.
  split; [apply window_in; lia|]. apply window_all; try lia. intros j Hj. apply H. lia.
Qed.
Lemma lo_is_min x k p : 0 <= k -> 1 <= p -> k + p <= zlen x -> allgood good x ->
  is_min (lo_val x k (k + p - 1)) (window k p x).
Proof.
  intros Hk Hp Hl Hg. destruct (lo_latest good OL x k (k + p - 1)) as (R & H & _); try lia; auto.
  split; [apply window_in; lia|]. apply window_all; try lia. intros j Hj. apply H. lia.
Qed.
Lemma Forall_allgood x : Forall good x -> allgood good x.
Proof. intros H i Hi. rewrite Forall_forall in H. apply H. unfold zf, zn. apply nth_In. unfold zlen in Hi. lia. Qed.
End H.

(** ** C13 *)
Theorem C13_max : forall {A : Arith} {L : IntLaws A} (good : T -> Prop), OrdLaws A good ->
  forall size (x : list T) o p, zlen x = size -> 0 <= size <= INT_MAX -> to_int o = Some p -> 1 <= p -> Forall good x ->
  exists out, ti_max size [x] [o] = Ok (OKAY, [out]) /\ ti_max_ref size [x] [o] = Ok (OKAY, [out]) /\
    zlen out = Z.max 0 (size - p + 1) /\
    forall k, 0 <= k < zlen out -> is_max (zf out k) (window k p x).
Proof.
  intros A L good OL size x o p Hl Hs Ho Hp Hg. apply Forall_allgood in Hg.
  eexists. split; [apply (max_fun good OL); eauto|]. split; [apply (max_ref_fun good OL); eauto|].
  rewrite zlen_tab. split; [lia|]. intros k Hk. unfold zf. rewrite zn_tab by lia. rewrite Z.add_0_l.
  apply (hi_is_max good OL); auto; lia.
Qed.
Print Assumptions C13_max.
Theorem C13_min : forall {A : Arith} {L : IntLaws A} (good : T -> Prop), OrdLaws A good ->
  forall size (x : list T) o p, zlen x = size -> 0 <= size <= INT_MAX -> to_int o = Some p -> 1 <= p -> Forall good x ->
  exists out, ti_min size [x] [o] = Ok (OKAY, [out]) /\ ti_min_ref size [x] [o] = Ok (OKAY, [out]) /\
    zlen out = Z.max 0 (size - p + 1) /\
    forall k, 0 <= k < zlen out -> is_min (zf out k) (window k p x).
Proof.
  intros A L good OL size x o p Hl Hs Ho Hp Hg. apply Forall_allgood in Hg.
  eexists. split; [apply (min_fun good OL); eauto|]. split; [apply (min_ref_fun good OL); eauto|].
  rewrite zlen_tab. split; [lia|]. intros k Hk. unfold zf. rewrite zn_tab by lia. rewrite Z.add_0_l.
  apply (lo_is_min good OL); auto; lia.
Qed.
Print Assumptions C13_min.
(** Without NaN, on binary64. *)
Theorem C13_binary64 : forall lm pw size (x : list (@T (F64 lm pw))) o p,
  zlen x = size -> 0 <= size <= INT_MAX -> @to_int (F64 lm pw) o = Some p -> 1 <= p -> Forall not_nan x ->
  (exists out, @ti_max (F64 lm pw) size [x] [o] = Ok (OKAY, [out]) /\
    forall k, 0 <= k < size - p + 1 -> @is_max (F64 lm pw) (@zf (F64 lm pw) out k) (window k p x)) /\
  (exists out, @ti_min (F64 lm pw) size [x] [o] = Ok (OKAY, [out]) /\
    forall k, 0 <= k < size - p + 1 -> @is_min (F64 lm pw) (@zf (F64 lm pw) out k) (window k p x)).
Proof.
  intros lm pw size x o p Hl Hs Ho Hp Hg. split.
  - destruct (@C13_max (F64 lm pw) _ not_nan (F64_ord lm pw) size x o p Hl Hs Ho Hp Hg) as (out & E & _ & Hz & H).
    exists out. split; [exact E|]. intros k Hk. apply H. lia.
  - destruct (@C13_min (F64 lm pw) _ not_nan (F64_ord lm pw) size x o p Hl Hs Ho Hp Hg) as (out & E & _ & Hz & H).
    exists out. split; [exact E|]. intros k Hk. apply H. lia.
Qed.
Print Assumptions C13_binary64.
(** With a NaN in the series the optimised and the reference version part ways. *)
Theorem C13_nan_refuted : exists x : list (@T F64c),
  @ti_max F64c 3 [x] [dbl 3 0] <> @ti_max_ref F64c 3 [x] [dbl 3 0].
Proof. exists [dbl 1 0; S754_nan; dbl 0 0]. vm_compute. discriminate. Qed.
Print Assumptions C13_nan_refuted.
Example C13_example :
  @ti_max F64c 5 [[dbl 3 0; dbl 1 0; dbl 2 0; dbl 2 0; dbl 0 0]] [dbl 3 0] = Ok (OKAY, [[dbl 3 0; dbl 2 0; dbl 2 0]]) /\
  @ti_min F64c 5 [[dbl 3 0; dbl 1 0; dbl 2 0; dbl 2 0; dbl 0 0]] [dbl 3 0] = Ok (OKAY, [[dbl 1 0; dbl 1 0; dbl 0 0]]).
Proof. vm_compute. auto. Qed.

(** ** C14 *)
(** [age] is the number of bars since the most recent highest high (lowest low) of the
    p+1 bars up to and including bar [i]. *)
Definition high_age {A : Arith} (x : list T) (p i age : Z) : Prop :=
  0 <= age <= p /\ (forall j, i - p <= j <= i -> (zf x j .<= zf x (i - age)) = true) /\
  (forall j, i - age < j <= i -> (zf x (i - age) .<= zf x j) = false).
Definition low_age {A : Arith} (x : list T) (p i age : Z) : Prop :=
  0 <= age <= p /\ (forall j, i - p <= j <= i -> (zf x (i - age) .<= zf x j) = true) /\
  (forall j, i - age < j <= i -> (zf x j .<= zf x (i - age)) = false).

Theorem C14_aroon : forall {A : Arith} {L : IntLaws A} (good : T -> Prop), OrdLaws A good ->
  forall size (h l : list T) o p, zlen h = size -> zlen l = size -> 0 <= size <= INT_MAX -> to_int o = Some p -> 1 <= p ->
  Forall good h -> Forall good l ->
  exists down up, ti_aroon size [h; l] [o] = Ok (OKAY, [down; up]) /\
    zlen down = Z.max 0 (size - p) /\ zlen up = Z.max 0 (size - p) /\
    forall k, 0 <= k < size - p -> exists a b,
      low_age l p (k + p) a /\ high_age h p (k + p) b /\
      zf down k = (#p .- #a) .* (#100 ./ #p) /\ zf up k = (#p .- #b) .* (#100 ./ #p).
Proof.
  intros A L good OL size h l o p Hh Hl Hs Ho Hp Gh Gl. apply Forall_allgood in Gh, Gl.
  do 2 eexists. split; [apply (aroon_fun good OL); eauto|]. rewrite !zlen_tab. split; [lia|]. split; [lia|].
  intros k Hk. exists (k + p - lo_at l k (k + p)), (k + p - hi_at h k (k + p)).
  destruct (lo_latest good OL l k (k + p)) as (R1 & H1 & H1'); try lia; auto.
  destruct (hi_latest good OL h k (k + p)) as (R2 & H2 & H2'); try lia; auto.
  unfold lef, gef in *.
  split; [|split; [|split; unfold zf; rewrite zn_tab by lia; rewrite Z.add_0_l; reflexivity]].
  - split; [lia|]. replace (k + p - (k + p - lo_at l k (k + p))) with (lo_at l k (k + p)) by lia.
    split; intros j Hj; [apply H1|apply H1']; lia.
  - split; [lia|]. replace (k + p - (k + p - hi_at h k (k + p))) with (hi_at h k (k + p)) by lia.
    split; intros j Hj; [apply H2|apply H2']; lia.
Qed.
Print Assumptions C14_aroon.
(** Exact arithmetic: in [0, 100], and aroonosc is the difference up - down. *)
Lemma aroon_val p a : 1 <= p -> 0 <= a <= p -> (0 <= (IZR p - IZR a) * (100 / IZR p) <= 100)%R.
Proof.
  intros Hp Ha. assert (1 <= IZR p)%R by (apply IZR_le; lia). assert (0 <= IZR a <= IZR p)%R by (split; apply IZR_le; lia).
  assert (0 <= / IZR p)%R by (left; apply Rinv_0_lt_compat; lra).
  assert (/ IZR p * IZR p = 1)%R by (apply Rinv_l; lra). unfold Rdiv. split; nra.
Qed.
Theorem C14_aroon_exact : forall size (h l : list R) (o : R) p, zlen h = size -> zlen l = size -> 0 <= size <= INT_MAX ->
  @to_int RA o = Some p -> 1 <= p ->
  exists down up osc, @ti_aroon RA size [h; l] [o] = Ok (OKAY, [down; up]) /\ @ti_aroonosc RA size [h; l] [o] = Ok (OKAY, [osc]) /\
    Forall (fun v => 0 <= v <= 100)%R down /\ Forall (fun v => 0 <= v <= 100)%R up /\ Forall (fun v => -100 <= v <= 100)%R osc /\
    osc = tab 0 (size - p) (fun k => zn 0 up k - zn 0 down k)%R.
Proof.
  intros size h l o p Hh Hl Hs Ho Hp.
  do 3 eexists. split; [apply (@aroon_fun RA _ _ RA_ord); eauto using RA_allgood|].
  split; [apply (@aroonosc_fun RA _ _ RA_ord); eauto using RA_allgood|]. toR.
  assert (Ed : forall k, 0 <= k < size - p -> 0 <= k + p - @lo_at RA l k (k + p) <= p)
    by (intros k Hk; destruct (lo_at_R l k (k + p)); lia).
  assert (Eu : forall k, 0 <= k < size - p -> 0 <= k + p - @hi_at RA h k (k + p) <= p)
    by (intros k Hk; destruct (hi_at_R h k (k + p)); lia).
  assert (Eo : forall k, (IZR (@hi_at RA h k (k + p) - @lo_at RA l k (k + p)) * (100 / IZR p) =
     (IZR p - IZR (k + p - @hi_at RA h k (k + p))) * (100 / IZR p) - (IZR p - IZR (k + p - @lo_at RA l k (k + p))) * (100 / IZR p))%R).
  { intros k. rewrite !minus_IZR. ring. }
  split; [|split; [|split]].
  - apply Forall_tab. intros k Hk. apply aroon_val; auto.
  - apply Forall_tab. intros k Hk. apply aroon_val; auto.
  - apply Forall_tab. intros k Hk. rewrite Eo.
    pose proof (aroon_val p _ Hp (Ed k Hk)). pose proof (aroon_val p _ Hp (Eu k Hk)). lra.
  - apply tab_ext. intros k Hk. rewrite Eo. change (@T RA) with R. rewrite !zn_tab by lia. rewrite !Z.add_0_l. reflexivity.
Qed.
Print Assumptions C14_aroon_exact.
(** In doubles the bound 100 is exceeded by rounding: period 11, rising highs. *)
Theorem C14_range_binary64_refuted : exists (h : list (@T F64c)) up,
  @ti_aroon F64c 12 [h; h] [dbl 11 0] = Ok (OKAY, [[dbl 0 0]; [up]]) /\ @flt F64c (dbl 100 0) up = true.
Proof. exists (map (fun i => dbl (Z.of_nat i) 0) (seq 1 12)). eexists. vm_compute. split; reflexivity. Qed.
Print Assumptions C14_range_binary64_refuted.
Example C14_example :
  @ti_aroon F64c 4 [[dbl 3 0; dbl 5 0; dbl 4 0; dbl 4 0]; [dbl 1 0; dbl 2 0; dbl 0 0; dbl 1 0]] [dbl 2 0]
  = Ok (OKAY, [[dbl 100 0; dbl 50 0]; [dbl 50 0; dbl 0 0]]) /\
  @ti_aroonosc F64c 4 [[dbl 3 0; dbl 5 0; dbl 4 0; dbl 4 0]; [dbl 1 0; dbl 2 0; dbl 0 0; dbl 1 0]] [dbl 2 0]
  = Ok (OKAY, [[dbl (-50) 0; dbl (-50) 0]]).
Proof. vm_compute. auto. Qed.

(** ** C15 *)
(** Williams %R from the true extremes of the p bars, on any ordered arithmetic. *)
Theorem C15_willr : forall {A : Arith} {L : IntLaws A} (good : T -> Prop), OrdLaws A good ->
  forall size (h l c : list T) o p, zlen h = size -> zlen l = size -> zlen c = size -> 0 <= size <= INT_MAX ->
  to_int o = Some p -> 1 <= p -> Forall good h -> Forall good l ->
  exists out, ti_willr size [h; l; c] [o] = Ok (OKAY, [out]) /\ zlen out = Z.max 0 (size - p + 1) /\
    forall k, 0 <= k < size - p + 1 -> exists hh ll, is_max hh (window k p h) /\ is_min ll (window k p l) /\
      zf out k = if (hh .- ll) .== #0 then #0 else #(-100) .* ((hh .- zf c (k + p - 1)) ./ (hh .- ll)).
Proof.
  intros A L good OL size h l c o p Hh Hl Hc Hs Ho Hp Gh Gl. apply Forall_allgood in Gh, Gl.
  eexists. split; [apply (willr_fun good OL); eauto|]. rewrite zlen_tab. split; [lia|].
  intros k Hk. do 2 eexists. split; [apply (hi_is_max good OL); auto; lia|]. split; [apply (lo_is_min good OL); auto; lia|].
  unfold zf at 1. rewrite zn_tab by lia. rewrite Z.add_0_l. reflexivity.
Qed.
Print Assumptions C15_willr.
Theorem C15_willr_range : forall size (h l c : list R) (o : R) p outs, zlen h = size -> zlen l = size -> zlen c = size ->
  0 <= size <= INT_MAX -> @to_int RA o = Some p -> 1 <= p ->
  (forall j, 0 <= j < size -> (zn 0 l j <= zn 0 c j <= zn 0 h j)%R) ->
  @ti_willr RA size [h; l; c] [o] = Ok (OKAY, outs) -> Forall (Forall (fun v => -100 <= v <= 0)%R) outs.
Proof.
  intros size h l c o p outs Hh Hl Hc Hs Ho Hp Hb E.
  apply ok_inj with (1 := @willr_fun RA _ _ RA_ord size h l c o p Hh Hl Hc Hs Ho Hp (RA_allgood h) (RA_allgood l)) in E. subst outs.
  apply Forall_cons; [|constructor]. apply Forall_tab. intros k Hk. toR.
  destruct (hi_at_R h k (k + p - 1)) as (_ & Hhi & _); [lia|lia|].
  destruct (lo_at_R l k (k + p - 1)) as (_ & Hlo & _); [lia|lia|].
  specialize (Hhi (k + p - 1) ltac:(lia)). specialize (Hlo (k + p - 1) ltac:(lia)). specialize (Hb (k + p - 1) ltac:(lia)).
  set (hh := @hi_val RA h k (k + p - 1)) in *. set (ll := @lo_val RA l k (k + p - 1)) in *. cbn in hh, ll.
  destruct (Reqb_spec (hh - ll) 0) as [E|N]; [lra|]. assert (0 < hh - ll)%R by lra.
  assert (0 <= (hh - zr c (k + p - 1)) / (hh - ll) <= 1)%R; [|lra].
  split; [apply Rmult_le_pos; [lra|left; apply Rinv_0_lt_compat; lra]|].
  apply (Rmult_le_reg_r (hh - ll)); [lra|]. unfold Rdiv. rewrite Rmult_assoc, Rinv_l by lra. lra.
Qed.
Print Assumptions C15_willr_range.

(** [k] is raw %K of bar [i]: position of the close between the extremes of the last kp bars
    (of the bars so far, at the beginning); 0 when they coincide. *)
Definition is_raw_k (h l c : list R) (kp i : Z) (k : R) : Prop :=
  let lo := Z.max 0 (i - kp + 1) in
  exists hh ll, @is_max RA hh (window lo (i - lo + 1) h) /\ @is_min RA ll (window lo (i - lo + 1) l) /\
    ((hh = ll -> k = 0%R) /\ (hh <> ll -> k = (100 * (zn 0 c i - ll) / (hh - ll))%R)).
Lemma raw_k_is h l c kp i : 1 <= kp -> 0 <= i -> i < zlen h -> i < zlen l -> is_raw_k h l c kp i (raw_k h l c kp i).
Proof.
  intros Hk Hi Hh Hl. unfold is_raw_k. set (lo := Z.max 0 (i - kp + 1)).
  exists (@hi_val RA h lo i), (@lo_val RA l lo i).
  assert (Ei : lo + (i - lo + 1) - 1 = i) by lia.
  pose proof (@hi_is_max RA _ RA_ord h lo (i - lo + 1)) as M1. pose proof (@lo_is_min RA _ RA_ord l lo (i - lo + 1)) as M2.
  rewrite Ei in M1, M2. cbn [T RA] in M1, M2.
  split; [apply M1; auto using RA_allgood; lia|]. split; [apply M2; auto using RA_allgood; lia|].
  unfold raw_k. fold lo. cbv zeta. destruct (Reqb_spec (@hi_val RA h lo i - @lo_val RA l lo i) 0) as [E|N].
  - split; intros; [reflexivity|]. exfalso. apply H. apply Rminus_diag_uniq. exact E.
  - split; intros; [|unfold Rdiv; ring]. exfalso. apply N. rewrite H. apply Rminus_diag_eq. reflexivity.
Qed.
(** Stochastic oscillator: %K is the mean of the last ks raw values, %D the mean of the last
    d values of %K; with low <= close <= high everything lies in [0,100]. *)
Theorem C15_stoch : forall size (h l c : list R) (o1 o2 o3 : R) kp ks d,
  zlen h = size -> zlen l = size -> zlen c = size -> 0 <= size <= INT_MAX ->
  @to_int RA o1 = Some kp -> @to_int RA o2 = Some ks -> @to_int RA o3 = Some d ->
  1 <= kp -> 1 <= ks <= 268435452 -> 1 <= d <= 268435452 -> kp + ks + d <= INT_MAX ->
  let st := kp + ks + d - 3 in
  exists raw slow : Z -> R,
    (forall i, 0 <= i < size -> is_raw_k h l c kp i (raw i)) /\
    (forall i, slow i = mean (tab (i - ks + 1) (i + 1) raw)) /\
    @ti_stoch RA size [h; l; c] [o1; o2; o3] = Ok (OKAY,
      [tab 0 (size - st) (fun k => slow (k + st));
       tab 0 (size - st) (fun k => mean (tab (k + st - d + 1) (k + st + 1) slow))]) /\
    ((forall j, 0 <= j < size -> (zn 0 l j <= zn 0 c j <= zn 0 h j)%R) ->
     forall i, 0 <= i < size -> (0 <= raw i <= 100)%R /\ (ks - 1 <= i -> (0 <= slow i <= 100)%R) /\
       (ks + d - 2 <= i -> (0 <= mean (tab (i - d + 1) (i + 1) slow) <= 100)%R)).
Proof.
  intros size h l c o1 o2 o3 kp ks d Hh Hl Hc Hs H1 H2 H3 Hkp Hks Hd Hsum st.
  assert (Em : forall i n f, 1 <= n -> mean (tab (i - n + 1) (i + 1) f) = (zsum (i - n + 1) (i + 1) f / IZR n)%R).
  { intros i n f Hn. unfold mean. rewrite zlen_tab. replace (Z.max 0 (i + 1 - (i - n + 1))) with n by lia. reflexivity. }
  exists (raw_k h l c kp), (slow_k h l c kp ks).
  split; [intros; apply raw_k_is; lia|].
  split; [intros; unfold slow_k; rewrite Em by lia; reflexivity|].
  split.
  - etransitivity; [apply (stoch_fun size h l c o1 o2 o3 kp ks d); auto|]. fold st. apply okl, consl; [reflexivity|]. apply consl; [|reflexivity]. apply tab_ext. intros k Hk.
    rewrite Em by lia. reflexivity.
  - intros Hb.
    assert (Hr : forall i, 0 <= i < size -> (0 <= raw_k h l c kp i <= 100)%R) by (intros; apply raw_k_range; try lia; intros; apply Hb; lia).
    assert (Hsl : forall i, ks - 1 <= i < size -> (0 <= slow_k h l c kp ks i <= 100)%R).
    { intros i Hi. unfold slow_k. replace (i + 1) with (i - ks + 1 + ks) by lia. apply zmean_range; [lia|].
      intros; apply Hr; lia. }
    intros i Hi. split; [auto|]. split; [intros; apply Hsl; lia|]. intros Hd'.
    rewrite Em by lia. replace (i + 1) with (i - d + 1 + d) by lia. apply zmean_range; [lia|]. intros; apply Hsl; lia.
Qed.
Print Assumptions C15_stoch.
Example C15_example :
  @ti_willr F64c 2 [[dbl 5 0; dbl 4 0]; [dbl 1 0; dbl 2 0]; [dbl 3 0; dbl 3 0]] [dbl 2 0] = Ok (OKAY, [[dbl (-50) 0]]) /\
  @ti_stoch F64c 3 [[dbl 5 0; dbl 4 0; dbl 4 0]; [dbl 1 0; dbl 2 0; dbl 3 0]; [dbl 3 0; dbl 3 0; dbl 4 0]] [dbl 2 0; dbl 1 0; dbl 2 0]
  = Ok (OKAY, [[dbl 100 0]; [dbl 75 0]]).
Proof. vm_compute. auto. Qed.

(** C20: true range, average true range, normalised average true range. *)
From Coq Require Import Reals Lra.
From Verif Require Import Fun_tr Fun_range RArith RSum F64.
Open Scope Z_scope.

Lemma tr_real (h l c : R) : @atr_tr RA h l c = Rmax (h - l) (Rmax (Rabs (h - c)) (Rabs (l - c))).
Proof.
  unfold atr_tr. cbn. unfold Rltb. destruct (Rlt_dec _ _) as [H1|H1]; destruct (Rlt_dec _ _) as [H2|H2];
  unfold Rmax; repeat destruct (Rle_dec _ _); lra.
Qed.

(** The true range of bar [i]. *)
Definition true_range (h l c : list R) (i : Z) : R :=
  if i =? 0 then (zr h 0 - zr l 0)%R
  else Rmax (zr h i - zr l i) (Rmax (Rabs (zr h i - zr c (i - 1))) (Rabs (zr l i - zr c (i - 1)))).
Lemma tr_at_real h l c i : @tr_at RA h l c i = true_range h l c i.
Proof. unfold tr_at, true_range. destruct (i =? 0); [reflexivity|]. apply tr_real. Qed.
Definition bars (size : Z) (h l c : list R) : Prop := zlen h = size /\ zlen l = size /\ zlen c = size.
(** Every bar has low <= high. *)
Definition ordered (size : Z) (h l : list R) : Prop := forall i, 0 <= i < size -> (zr l i <= zr h i)%R.

Lemma true_range_nonneg size h l c i : ordered size h l -> 0 <= i < size -> (0 <= true_range h l c i)%R.
Proof.
  intros Ho Hi. unfold true_range. destruct (i =? 0) eqn:E.
  - assert (i = 0) as -> by lia. specialize (Ho 0 Hi). lra.
  - eapply Rle_trans; [|apply Rmax_l]. specialize (Ho i Hi). lra.
Qed.

Theorem C20_tr : forall size h l c, bars size h l c -> 0 <= size <= INT_MAX ->
  exists out, @ti_tr RA size [h; l; c] [] = Ok (OKAY, [out]) /\ zlen out = size /\
    (forall i, 0 <= i < size -> zr out i = true_range h l c i) /\
    (ordered size h l -> forall i, 0 <= i < size -> (0 <= zr out i)%R).
Proof.
  intros size h l c (Hh & Hl & Hc) Hs. eexists. split; [apply tr_fun; assumption|]. rewrite zlen_tab. split; [lia|].
  assert (E : forall i, 0 <= i < size -> zr (tab 0 size (@tr_at RA h l c)) i = true_range h l c i).
  { intros i Hi. rewrite zn_tab by lia. rewrite Z.add_0_l. apply tr_at_real. }
  split; [exact E|]. intros Ho i Hi. rewrite E by exact Hi. eapply true_range_nonneg; eauto.
Qed.
Print Assumptions C20_tr.

(** Wilder smoothing of [x]: the mean of the first [p] values, then v + (x - v) / p. *)
Definition wilder_of (p n : Z) (x : Z -> R) (a : Z -> R) : Prop :=
  a 0 = (zsum 0 p x / IZR p)%R /\ forall k, 0 <= k < n - 1 -> a (k + 1) = (a k + (x (p + k)%Z - a k) / IZR p)%R.

Theorem C20_atr : forall size h l c (o : R) p, bars size h l c -> 0 <= size <= INT_MAX -> @to_int RA o = Some p -> 1 <= p ->
  exists a, wilder_of p (size - p + 1) (true_range h l c) a /\
    @ti_atr RA size [h; l; c] [o] = Ok (OKAY, [tab 0 (size - p + 1) a]) /\
    @ti_natr RA size [h; l; c] [o] = Ok (OKAY, [tab 0 (size - p + 1) (fun k => 100 * a k / zr c (p - 1 + k)%Z)%R]) /\
    (ordered size h l -> forall k, 0 <= k < size - p + 1 -> (0 <= a k)%R /\
      (0 < zr c (p - 1 + k)%Z -> 0 <= 100 * a k / zr c (p - 1 + k)%Z%Z)%R).
Proof.
  intros size h l c o p (Hh & Hl & Hc) Hs Ho Hp. exists (@wild RA p (@tr_at RA h l c)).
  assert (HP : (0 < IZR p)%R) by (apply IZR_lt; lia).
  assert (HW : forall n, wilder_of p n (true_range h l c) (@wild RA p (@tr_at RA h l c))).
  { intros n. split.
    - unfold wild. rewrite Z.add_0_r, (trec_nil _ p) by lia. cbn [fdiv of_Z RA]. f_equal.
      etransitivity; [apply (trec_sum (@tr_at RA h l c) 0 p 0%R); lia|]. rewrite Rplus_0_l.
      apply zsum_ext. intros. apply tr_at_real.
    - intros k Hk. unfold wild. rewrite Z.add_assoc, trec_snoc by lia. rewrite tr_at_real. cbn [fdiv fadd fsub fmul of_Z RA].
      unfold Rdiv. rewrite Rmult_1_l. ring. }
  split; [apply HW|]. split; [apply (@atr_fun RA _); assumption|]. split; [|].
  { etransitivity; [apply (@natr_fun RA _); eassumption|]. do 3 f_equal.
    destruct (Z.le_gt_cases (size - p + 1) 0) as [Hn|Hn]; [rewrite !tab_nil by lia; reflexivity|].
    apply tab_ext. intros k Hk. unfold natr_at. cbv zeta. set (v := wild p _ k). cbn. unfold truth. cbn. unfold Reqb.
    destruct (Req_EM_T v 0) as [->|Hv]; cbn; [unfold Rdiv; ring|reflexivity]. }
  intros Hord. assert (Hpos : forall k, 0 <= k -> k < size - p + 1 -> (0 <= @wild RA p (@tr_at RA h l c) k)%R).
  { intros k Hk. destruct (HW (size - p + 1)) as [H0 H1].
    apply (zind (fun k => k < size - p + 1 -> (0 <= @wild RA p (@tr_at RA h l c) k)%R) 0 k Hk).
    - intros Hn. rewrite H0. apply Rmult_le_pos; [|apply Rlt_le, Rinv_0_lt_compat, HP].
      apply zsum_nonneg. intros i Hi. eapply true_range_nonneg; [exact Hord|lia].
    - intros m Hm IH Hn. rewrite H1 by lia. specialize (IH ltac:(lia)).
      assert (Ht : (0 <= true_range h l c (p + m))%R) by (eapply true_range_nonneg; [exact Hord|lia]).
      assert (Hi : (0 < / IZR p <= 1)%R).
      { split; [apply Rinv_0_lt_compat, HP|]. rewrite <- Rinv_1. apply Rinv_le_contravar; [lra|]. apply IZR_le. lia. }
      unfold Rdiv. set (w := wild p _ m) in *. set (t := true_range h l c (p + m)) in *. set (d := (/ IZR p)%R) in *. nra. }
  intros k Hk. split; [apply Hpos; lia|]. intros Hck. apply Rmult_le_pos; [|apply Rlt_le, Rinv_0_lt_compat, Hck].
  apply Rmult_le_pos; [lra|]. apply Hpos; lia.
Qed.
Print Assumptions C20_atr.

Example C20_example :
  let h := [dbl 3 0; dbl 5 0; dbl 4 0] in let l := [dbl 1 0; dbl 2 0; dbl 3 0] in let c := [dbl 2 0; dbl 4 0; dbl 10 0] in
  @ti_tr F64c 3 [h; l; c] [] = Ok (OKAY, [[dbl 2 0; dbl 3 0; dbl 1 0]]) /\
  @ti_atr F64c 3 [h; l; c] [dbl 2 0] = Ok (OKAY, [[dbl 25 1; dbl 175 2]]) /\
  @ti_natr F64c 3 [h; l; c] [dbl 2 0] = Ok (OKAY, [[dbl 625 1; dbl 175 1]]).
Proof. vm_compute. auto. Qed.
(** The hypotheses of C20_tr and C20_atr hold for a small series over the reals. *)
Example C20_example_real : bars 2 [2; 3]%R [1; 1]%R [1; 2]%R /\ ordered 2 [2; 3]%R [1; 1]%R /\ @to_int RA 1%R = Some 1.
Proof.
  split; [repeat split|]. split; [|apply (@to_int_of_Z RA _ 1); zl].
  intros i Hi. assert (i = 0 \/ i = 1) as [-> | ->] by lia; unfold zn; simpl; lra.
Qed.

(** Where low > high the first value is negative. *)
Example C20_unordered : @ti_tr F64c 1 [[dbl 1 0]; [dbl 2 0]; [dbl 1 0]] [] = Ok (OKAY, [[dbl (-1) 0]]).
Proof. vm_compute. reflexivity. Qed.

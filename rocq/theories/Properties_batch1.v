(** C45: the directional movement family (dm, di, dx, adx, adxr) in exact arithmetic.

    Reading guide: [dm_up h l i] and [dm_down h l i] are the movements of bar i, [wsum p f i] is
    Wilder's running sum of f at bar i, [dx_at] the index of the two sums, [adx_at] Wilder's mean of
    the index, [range_at] the true range (SpecR2.v).  The first theorems say what these are. *)
From Coq Require Import Reals Lra.
From Verif Require Import M_osc Fun_batch1 Fun_batch2 RSum RArith Properties_basic Properties_value Properties_value2 F64.
From Verif Require Export SpecR2.
Open Scope Z_scope.

(** ** The vocabulary *)
(** Only the larger movement counts, and only if it is positive; equal movements both count. *)
Theorem C45_movement_meaning : forall h l i, let up := (zr h i - zr h (i - 1))%R in let down := (zr l (i - 1) - zr l i)%R in
  ((0 < up)%R -> (down < up)%R -> dm_up h l i = up /\ dm_down h l i = 0%R) /\
  ((0 < down)%R -> (up < down)%R -> dm_up h l i = 0%R /\ dm_down h l i = down) /\
  ((0 < up)%R -> up = down -> dm_up h l i = up /\ dm_down h l i = down) /\
  ((up <= 0)%R -> (down <= 0)%R -> dm_up h l i = 0%R /\ dm_down h l i = 0%R).
Proof.
  intros h l i up down. unfold dm_up, dm_down. fold up down.
  destruct (Rltb_spec 0 up), (Rltb_spec 0 down), (Rleb_spec down up), (Rleb_spec up down); cbn [andb]; repeat split; intros; lra.
Qed.
Print Assumptions C45_movement_meaning.
(** The first sum has p-1 terms; every later bar drops the p-th part and adds its own value. *)
Theorem C45_sum_meaning : forall p f, 1 <= p -> wsum p f (p - 1) = zsum 1 p f /\
  forall i, p <= i -> wsum p f i = (wsum p f (i - 1) - wsum p f (i - 1) / IZR p + f i)%R.
Proof.
  intros p f Hp. split; [apply wsum_0; lia|]. intros i Hi. rewrite (wsum_S p f i) by lia. field. apply not_0_IZR. lia.
Qed.
Print Assumptions C45_sum_meaning.
(** The first mean is that of the p indices of the bars p-1 .. 2p-2; every later bar moves it by the
    p-th part of the distance to the new index. *)
Theorem C45_mean_meaning : forall p h l, 2 <= p -> adx_at p h l (2 * p - 2) = (zsum (p - 1) (2 * p - 1) (dx_at p h l) / IZR p)%R /\
  forall i, 2 * p - 1 <= i -> adx_at p h l i = (adx_at p h l (i - 1) + (dx_at p h l i - adx_at p h l (i - 1)) / IZR p)%R.
Proof.
  intros p h l Hp. assert (P : IZR p <> 0%R) by (apply not_0_IZR; lia). split; unfold adx_at.
  - rewrite trec_nil by lia. reflexivity.
  - intros i Hi. rewrite trec_snoc by lia. rewrite Z.sub_add. field. exact P.
Qed.
Print Assumptions C45_mean_meaning.

(** ** The indicators *)
Theorem C45_dm : forall size h l p, zlen h = size -> zlen l = size -> 0 <= size <= INT_MAX -> 1 <= p <= INT_MAX ->
  @ti_dm RA size [h; l] [IZR p] = Ok (OKAY, [tab (p - 1) size (wsum p (dm_up h l)); tab (p - 1) size (wsum p (dm_down h l))]).
Proof.
  intros size h l p Hh Hl Hs Hp. rewrite (dm_fun size h l _ p) by (try apply RA_int; zl).
  apply okl. repeat first [reflexivity|apply consl]; (apply tab_at; [lia|intros k Hk; cbv beta zeta; rewrite ?E; try replace (k + p - 1) with (k + (p - 1)) by lia; reflexivity]).
Qed.
Print Assumptions C45_dm.
Theorem C45_di : forall size h l c p, zlen h = size -> zlen l = size -> zlen c = size -> 0 <= size <= INT_MAX -> 1 <= p <= INT_MAX ->
  proper_bars size h l c ->
  @ti_di RA size [h; l; c] [IZR p] = Ok (OKAY,
  [tab (p - 1) size (fun i => pct (wsum p (dm_up h l) i) (wsum p (range_at h l c) i));
   tab (p - 1) size (fun i => pct (wsum p (dm_down h l) i) (wsum p (range_at h l c) i))]).
Proof.
  intros size h l c p Hh Hl Hc Hs Hp _. rewrite (di_fun size h l c _ p) by (try apply RA_int; zl).
  assert (E : forall u r, (100 * u / r)%R = pct u r) by (intros u r; unfold pct; destruct (Reqb_spec u 0) as [->|]; [unfold Rdiv; ring|reflexivity]).
  apply okl. repeat first [reflexivity|apply consl]; (apply tab_at; [lia|intros k Hk; cbv beta zeta; rewrite ?E; try replace (k + p - 1) with (k + (p - 1)) by lia; reflexivity]).
Qed.
Print Assumptions C45_di.
Theorem C45_dx : forall size h l p, zlen h = size -> zlen l = size -> 0 <= size <= INT_MAX -> 1 <= p <= INT_MAX ->
  @ti_dx RA size [h; l] [IZR p] = Ok (OKAY, [tab (p - 1) size (dx_at p h l)]).
Proof.
  intros size h l p Hh Hl Hs Hp. rewrite (dx_fun size h l _ p) by (try apply RA_int; zl).
  apply okl. repeat first [reflexivity|apply consl]; (apply tab_at; [lia|intros k Hk; cbv beta zeta; rewrite ?E; try replace (k + p - 1) with (k + (p - 1)) by lia; reflexivity]).
Qed.
Print Assumptions C45_dx.
Theorem C45_adx : forall size h l p, zlen h = size -> zlen l = size -> 0 <= size <= INT_MAX -> 2 <= p <= 1073741824 ->
  @ti_adx RA size [h; l] [IZR p] = Ok (OKAY, [tab (2 * p - 2) size (adx_at p h l)]).
Proof.
  intros size h l p Hh Hl Hs Hp. rewrite (adx_fun size h l _ p) by (try apply RA_int; zl).
  apply okl. repeat first [reflexivity|apply consl]; (apply tab_at; [lia|intros k Hk; cbv beta zeta; rewrite ?E; try replace (k + p - 1) with (k + (p - 1)) by lia; reflexivity]).
Qed.
Print Assumptions C45_adx.
Theorem C45_adxr : forall size h l p, zlen h = size -> zlen l = size -> 0 <= size <= INT_MAX -> 2 <= p <= 268435453 ->
  @ti_adxr RA size [h; l] [IZR p] = Ok (OKAY, [tab (3 * (p - 1)) size (fun i => ((adx_at p h l i + adx_at p h l (i - (p - 1))) / 2)%R)]).
Proof.
  intros size h l p Hh Hl Hs Hp. rewrite (adxr_fun size h l _ p) by (try apply RA_int; zl).
  apply okl. repeat first [reflexivity|apply consl]; (apply tab_at; [lia|intros k Hk; cbv beta zeta; rewrite ?E; try replace (k + p - 1) with (k + (p - 1)) by lia; reflexivity]).
Qed.
Print Assumptions C45_adxr.

(** ** Ranges *)
Lemma div_nonneg a b : (0 <= a)%R -> (0 < b)%R -> (0 <= a / b)%R.
Proof. intros. unfold Rdiv. apply Rmult_le_pos; [assumption|]. left. apply Rinv_0_lt_compat. assumption. Qed.
Lemma wsum_le p f g i : 1 <= p <= i + 1 -> (forall j, 1 <= j <= i -> (f j <= g j)%R) -> (wsum p f i <= wsum p g i)%R.
Proof.
  intros Hi Hfg. assert (Hi' : p - 1 <= i) by lia.
  apply (zind (fun n => n <= i -> (wsum p f n <= wsum p g n)%R) (p - 1) i Hi'); [| |lia].
  - intros _. rewrite !wsum_0 by lia. apply zsum_le. intros. apply Hfg. lia.
  - intros n Hn IH Hle. rewrite (wsum_S p f (n + 1)), (wsum_S p g (n + 1)) by lia. replace (n + 1 - 1) with n by lia. specialize (IH ltac:(lia)). pose proof (Hfg (n + 1) ltac:(lia)).
    assert (1 <= IZR p)%R by (apply IZR_le; lia). apply Rplus_le_compat; [|assumption]. apply Rmult_le_compat_r; [|assumption]. apply div_nonneg; lra.
Qed.
Lemma wsum_zero p i : 1 <= p <= i + 1 -> wsum p (fun _ => 0%R) i = 0%R.
Proof.
  intros Hi. assert (Hi' : p - 1 <= i) by lia. apply (zind (fun n => wsum p (fun _ => 0%R) n = 0%R) (p - 1) i Hi').
  - rewrite wsum_0 by lia. rewrite zsum_const by lia. ring.
  - intros n Hn IH. rewrite (wsum_S p (fun _ => 0%R) (n + 1)) by lia. replace (n + 1 - 1) with n by lia. rewrite IH. ring.
Qed.
Lemma wsum_nonneg p f i : 1 <= p <= i + 1 -> (forall j, 1 <= j <= i -> (0 <= f j)%R) -> (0 <= wsum p f i)%R.
Proof. intros Hi Hf. rewrite <- (wsum_zero p i Hi). apply wsum_le; assumption. Qed.
Lemma dm_nonneg h l i : (0 <= dm_up h l i)%R /\ (0 <= dm_down h l i)%R.
Proof.
  unfold dm_up, dm_down. split.
  - destruct (Rltb_spec 0 (zr h i - zr h (i - 1))), (Rleb_spec (zr l (i - 1) - zr l i) (zr h i - zr h (i - 1))); cbn [andb]; lra.
  - destruct (Rltb_spec 0 (zr l (i - 1) - zr l i)), (Rleb_spec (zr h i - zr h (i - 1)) (zr l (i - 1) - zr l i)); cbn [andb]; lra.
Qed.
Lemma dx_of_range u d : (0 <= u)%R -> (0 <= d)%R -> (0 <= dx_of u d <= 100)%R.
Proof.
  intros Hu Hd. unfold dx_of. destruct (Reqb_spec (u + d) 0); [lra|]. assert (P : (0 < u + d)%R) by lra.
  assert (B : (Rabs (u - d) <= u + d)%R) by (apply Rabs_le; lra). pose proof (Rabs_pos (u - d)).
  assert ((0 <= Rabs (u - d) / (u + d))%R) by (apply div_nonneg; lra).
  assert ((Rabs (u - d) / (u + d) <= 1)%R) by (apply (Rmult_le_reg_r (u + d)); [lra|]; unfold Rdiv; rewrite Rmult_assoc, Rinv_l by lra; lra). lra.
Qed.
(** dx lies between 0 and 100 whatever the data. *)
Theorem C45_dx_range : forall p h l i, 1 <= p <= i + 1 -> (0 <= dx_at p h l i <= 100)%R.
Proof. intros. unfold dx_at. apply dx_of_range; apply wsum_nonneg; try assumption; intros; apply dm_nonneg. Qed.
Print Assumptions C45_dx_range.
(** So do adx and adxr. *)
Theorem C45_adx_range : forall p h l i, 2 <= p -> 2 * p - 2 <= i -> (0 <= adx_at p h l i <= 100)%R.
Proof.
  intros p h l i Hp Hi. destruct (C45_mean_meaning p h l Hp) as [E0 ES]. assert (P : (2 <= IZR p)%R) by (apply IZR_le; lia).
  apply (zind (fun i => (0 <= adx_at p h l i <= 100)%R) (2 * p - 2) i Hi).
  - rewrite E0. assert (S0 : (0 <= zsum (p - 1) (2 * p - 1) (dx_at p h l))%R) by (apply zsum_nonneg; intros; apply C45_dx_range; lia).
    assert (S1 : (zsum (p - 1) (2 * p - 1) (dx_at p h l) <= zsum (p - 1) (2 * p - 1) (fun _ => 100))%R) by (apply zsum_le; intros; apply C45_dx_range; lia).
    rewrite zsum_const in S1 by lia. replace (2 * p - 1 - (p - 1)) with p in S1 by lia. split; [apply div_nonneg; lra|].
    apply (Rmult_le_reg_r (IZR p)); [lra|]. unfold Rdiv. rewrite Rmult_assoc, Rinv_l by lra. lra.
  - intros n Hn IH. rewrite ES by lia. replace (n + 1 - 1) with n by lia. pose proof (C45_dx_range p h l (n + 1) ltac:(lia)) as D.
    set (a := adx_at p h l n) in *. set (d := dx_at p h l (n + 1)) in *. replace (a + (d - a) / IZR p)%R with (a * (1 - / IZR p) + d * / IZR p)%R by (field; lra).
    assert (0 < / IZR p)%R by (apply Rinv_0_lt_compat; lra). assert (/ IZR p <= 1)%R by (rewrite <- Rinv_1; apply Rinv_le_contravar; lra). nra.
Qed.
Print Assumptions C45_adx_range.
(** di lies between 0 and 100 when every close lies inside its bar. *)
Theorem C45_di_range : forall size p h l c i, proper_bars size h l c -> 1 <= p <= i + 1 -> i < size ->
  (0 <= pct (wsum p (dm_up h l) i) (wsum p (range_at h l c) i) <= 100)%R /\
  (0 <= pct (wsum p (dm_down h l) i) (wsum p (range_at h l c) i) <= 100)%R.
Proof.
  intros size p h l c i Hb Hp Hi.
  assert (K : forall f, (forall j, 1 <= j <= i -> (0 <= f j <= range_at h l c j)%R) -> (0 <= pct (wsum p f i) (wsum p (range_at h l c) i) <= 100)%R).
  { intros f Hf. unfold pct. assert (A0 : (0 <= wsum p f i)%R) by (apply wsum_nonneg; [assumption|intros; apply Hf; assumption]).
    assert (A1 : (wsum p f i <= wsum p (range_at h l c) i)%R) by (apply wsum_le; [assumption|intros; apply Hf; assumption]).
    destruct (Reqb_spec (wsum p f i) 0); [lra|]. split; [apply div_nonneg; lra|].
    apply (Rmult_le_reg_r (wsum p (range_at h l c) i)); [lra|]. unfold Rdiv. rewrite Rmult_assoc, Rinv_l by lra. lra. }
  split; apply K; intros j Hj; pose proof (dm_nonneg h l j) as D; pose proof (Hb (j - 1) ltac:(lia)) as B0; pose proof (Hb j ltac:(lia)) as B1; (split; [apply D|]); unfold range_at.
  - pose proof (Rmax_r (zr h j - zr l j) (Rmax (Rabs (zr h j - zr c (j - 1))) (Rabs (zr l j - zr c (j - 1))))). pose proof (Rmax_l (Rabs (zr h j - zr c (j - 1))) (Rabs (zr l j - zr c (j - 1)))).
    pose proof (Rle_abs (zr h j - zr c (j - 1))). pose proof (Rmax_l (zr h j - zr l j) (Rmax (Rabs (zr h j - zr c (j - 1))) (Rabs (zr l j - zr c (j - 1))))).
    unfold dm_up. destruct (_ && _); lra.
  - pose proof (Rmax_r (zr h j - zr l j) (Rmax (Rabs (zr h j - zr c (j - 1))) (Rabs (zr l j - zr c (j - 1))))). pose proof (Rmax_r (Rabs (zr h j - zr c (j - 1))) (Rabs (zr l j - zr c (j - 1)))).
    pose proof (Rle_abs (- (zr l j - zr c (j - 1)))) as Q. rewrite Rabs_Ropp in Q. pose proof (Rmax_l (zr h j - zr l j) (Rmax (Rabs (zr h j - zr c (j - 1))) (Rabs (zr l j - zr c (j - 1))))).
    unfold dm_down. destruct (_ && _); lra.
Qed.
Print Assumptions C45_di_range.

(** ** Cases *)
Ltac exB := nums; unlt; repeat match goal with |- context[Reqb ?a ?b] => destruct (Reqb_spec a b); try lra end; unabs; unmax; apply okl; repeat first [reflexivity|apply consl|lra|(field; lra)].
Example C45_dm_case : @ti_dm RA 4 [[3; 5; 6; 6]%R; [1; 2; 1; 0]%R] [2%R] = Ok (OKAY, [[2; 2; 1]%R; [0; 1; 3 / 2]%R]).
Proof. etransitivity; [apply (C45_dm 4 [3; 5; 6; 6]%R [1; 2; 1; 0]%R 2); r1|]. exB. Qed.
Example C45_di_case : proper_bars 3 [3; 5; 6]%R [1; 2; 1]%R [2; 4; 5]%R /\
  @ti_di RA 3 [[3; 5; 6]%R; [1; 2; 1]%R; [2; 4; 5]%R] [2%R] = Ok (OKAY, [[200 / 3; 400 / 13]%R; [0; 200 / 13]%R]).
Proof.
  assert (H : proper_bars 3 [3; 5; 6]%R [1; 2; 1]%R [2; 4; 5]%R) by (unfold proper_bars; upto4; nums; lra).
  split; [exact H|]. etransitivity; [apply (C45_di 3 [3; 5; 6]%R [1; 2; 1]%R [2; 4; 5]%R 2); r1; exact H|]. exB.
Qed.
Example C45_dx_case : @ti_dx RA 4 [[3; 5; 6; 6]%R; [1; 2; 1; 0]%R] [2%R] = Ok (OKAY, [[100; 100 / 3; 20]%R]).
Proof. etransitivity; [apply (C45_dx 4 [3; 5; 6; 6]%R [1; 2; 1; 0]%R 2); r1|]. exB. Qed.
Example C45_adx_case : @ti_adx RA 4 [[3; 5; 6; 6]%R; [1; 2; 1; 0]%R] [2%R] = Ok (OKAY, [[200 / 3; 130 / 3]%R]).
Proof. etransitivity; [apply (C45_adx 4 [3; 5; 6; 6]%R [1; 2; 1; 0]%R 2); r1|]. exB. Qed.
Example C45_adxr_case : @ti_adxr RA 4 [[3; 5; 6; 6]%R; [1; 2; 1; 0]%R] [2%R] = Ok (OKAY, [[55]%R]).
Proof. etransitivity; [apply (C45_adxr 4 [3; 5; 6; 6]%R [1; 2; 1; 0]%R 2); r1|]. exB. Qed.

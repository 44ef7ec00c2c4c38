(** C43: what the streamed indicators compute, in exact arithmetic.

    Reading guide: the formulas are those of SpecR.v.  Division by zero means nothing over the
    reals, so every divisor is either non-zero by itself or excluded by a hypothesis. *)
From Coq Require Import Reals Lra String.
From Verif Require Import M_stream4 M_stream5 M_ref Fun_exact Fun_exact2 Fun_exact3 RSum RArith Properties_basic F64.
Open Scope Z_scope.

(** ** The vocabulary *)
(** [emaR p x] starts at x[0] and moves the share 2/(p+1) of the way to each later value. *)
Theorem C43_ema_meaning : forall p x, emaR p x 0 = zr x 0 /\
  forall i, 0 <= i -> emaR p x (i + 1) = ((zr x (i + 1) - emaR p x i) * (2 / (IZR p + 1)) + emaR p x i)%R.
Proof. intros p x. split; [apply emaR_0|]. intros. apply emaR_S. assumption. Qed.
(** [topof p f] and [botof p f] are the largest and smallest of f 0, .., f (p-1). *)
Theorem C43_extreme_meaning : forall p f, 1 <= p ->
  ((forall j, 0 <= j < p -> (f j <= topof p f)%R) /\ exists j, 0 <= j < p /\ topof p f = f j) /\
  ((forall j, 0 <= j < p -> (botof p f <= f j)%R) /\ exists j, 0 <= j < p /\ botof p f = f j).
Proof. intros. split; [apply topof_spec|apply botof_spec]; assumption. Qed.

(** ** Ratios *)
(** er: the net change of p bars over the path travelled; 0 when the price did not change. *)
Lemma path_pos (x : list R) k p : 1 <= p ->
  (Rabs (zr x (k + p) - zr x k) <= zsum (k + 1) (k + p + 1) (fun j => Rabs (zr x j - zr x (j - 1))))%R.
Proof.
  intros Hp. apply (zind (fun p => (Rabs (zr x (k + p) - zr x k) <= zsum (k + 1) (k + p + 1) (fun j => Rabs (zr x j - zr x (j - 1))))%R) 1 p Hp).
  - rewrite zsum_snoc by lia. rewrite zsum_nil by lia. replace (k + 1 - 1) with k by lia. lra.
  - intros i Hi IH. rewrite zsum_snoc by lia. replace (k + (i + 1) - 1) with (k + i) by lia. replace (k + i + 1) with (k + (i + 1)) in IH by lia.
    eapply Rle_trans; [|apply Rplus_le_compat_r; exact IH].
    replace (zr x (k + (i + 1)) - zr x k)%R with ((zr x (k + i)%Z - zr x k) + (zr x (k + (i + 1))%Z - zr x (k + i)%Z))%R by ring. apply Rabs_triang.
Qed.
Theorem C43_er : forall size x p, zlen x = size -> 0 <= size <= INT_MAX -> 1 <= p <= INT_MAX ->
  exists y, @ti_er RA size [x] [IZR p] = Ok (OKAY, [y]) /\ zlen y = Z.max 0 (size - p) /\
  forall k, 0 <= k < size - p ->
    let net := Rabs (zr x (k + p) - zr x k) in
    let path := zsum (k + 1) (k + p + 1) (fun j => Rabs (zr x j - zr x (j - 1))) in
    (net = 0%R -> zr y k = 0%R) /\ (net <> 0%R -> (0 < path)%R /\ zr y k = (net / path)%R /\ (0 < zr y k <= 1)%R).
Proof.
  intros size x p Hx Hs Hp. exists (tab 0 (size - p) (er_at p x)). split; [apply (er_fun _ _ _ p); auto; [apply RA_int; zl|lia]|].
  change (@T RA) with R. rewrite zlen_tab. split; [lia|]. intros k Hk. cbv zeta. rewrite zr_tab by lia. unfold er_at.
  pose proof (path_pos x k p ltac:(lia)) as HP. pose proof (Rabs_pos (zr x (k + p) - zr x k)) as HN. split.
  - intros ->. unfold Rdiv. apply Rmult_0_l.
  - intros Hn. split; [lra|]. split; [reflexivity|]. split; [apply Rdiv_lt_0_compat; lra|].
    apply Rmult_le_reg_r with (zsum (k + 1) (k + p + 1) (fun j => Rabs (zr x j - zr x (j - 1)))); [lra|].
    unfold Rdiv. rewrite Rmult_assoc, Rinv_l by lra. lra.
Qed.
Print Assumptions C43_er.

(** vi: the upward and downward movements of p bars over their true ranges. *)
Theorem C43_vi : forall size h l c p, zlen h = size -> zlen l = size -> zlen c = size -> size <= INT_MAX -> 1 <= p < size ->
  (forall k, 0 <= k < size - p -> zsum (k + 1) (k + p + 1) (vi_range h l c) <> 0%R) ->
  @ti_vi RA size [h; l; c] [IZR p] = Ok (OKAY,
    [tab 0 (size - p) (fun k => zsum (k + 1) (k + p + 1) (vi_up h l) / zsum (k + 1) (k + p + 1) (vi_range h l c))%R;
     tab 0 (size - p) (fun k => zsum (k + 1) (k + p + 1) (vi_down h l) / zsum (k + 1) (k + p + 1) (vi_range h l c))%R]).
Proof. intros size h l c p Hh Hl Hc Hs Hp _. apply vi_fun; auto; [lia|apply RA_int; zl]. Qed.
Print Assumptions C43_vi.

(** tsi: 100 times the twice averaged momentum over its twice averaged absolute value. *)
Theorem C43_tsi : forall size x y z, zlen x = size -> 0 <= size <= INT_MAX -> 1 <= y -> 1 <= z ->
  (forall k, 0 <= k < size - 1 -> emaR z (ema_list y (tab 0 (size - 1) (fun i => Rabs (zr x (i + 1) - zr x i)))) k <> 0%R) ->
  @ti_tsi RA size [x] [IZR y; IZR z] = Ok (OKAY, [tab 0 (size - 1) (tsi_at y z x)]).
Proof. intros size x y z Hx Hs Hy Hz _. apply tsi_fun; auto. Qed.
Print Assumptions C43_tsi.

(** rmi: the averaged rise over the sum of averaged rise and fall, in percent, hence in 0 .. 100. *)
Theorem C43_rmi : forall size x p n, zlen x = size -> 0 <= size <= INT_MAX -> 1 <= p -> 1 <= n <= INT_MAX ->
  let g := emaR p (tab 0 (size - n) (rise n x)) in let l := emaR p (tab 0 (size - n) (fall n x)) in
  (forall k, 0 <= k < size - n -> (g k + l k <> 0)%R) ->
  @ti_rmi RA size [x] [IZR p; IZR n] = Ok (OKAY, [tab 0 (size - n) (fun k => g k / (g k + l k) * 100)%R]).
Proof. intros size x p n Hx Hs Hp Hn g l _. subst g l. rewrite <- Hx. apply rmi_fun; auto; lia. Qed.
Print Assumptions C43_rmi.

(** vwap: the mean of the typical prices (h+l+c)/3 of p bars, weighted by volume. *)
Theorem C43_vwap : forall size h l c v p, zlen h = size -> zlen l = size -> zlen c = size -> zlen v = size -> 0 <= size <= INT_MAX -> 1 <= p <= INT_MAX ->
  (forall k, 0 <= k < size - p + 1 -> zsum k (k + p) (zr v) <> 0%R) ->
  @ti_vwap RA size [h; l; c; v] [IZR p] = Ok (OKAY,
    [tab 0 (size - p + 1) (fun k => zsum k (k + p) (fun i => (zr h i + zr l i + zr c i) / 3 * zr v i) / zsum k (k + p) (zr v))%R]).
Proof. intros size h l c v p Hh Hl Hc Hv Hs Hp _. apply vwap_fun; auto. Qed.
Print Assumptions C43_vwap.

(** copp: the linearly weighted mean of w values, each the average of two rates of change in
    percent, or 0 when one of the two old prices is 0. *)
Theorem C43_copp : forall size x s l w, zlen x = size -> 0 <= size <= INT_MAX -> 1 <= s <= l -> 1 <= w -> l + w <= INT_MAX ->
  @ti_copp RA size [x] [IZR s; IZR l; IZR w] = Ok (OKAY, [wma_list w (copp_list s l x)]).
Proof. exact copp_fun. Qed.
Print Assumptions C43_copp.

(** pfe: the exponential mean over q of the signed ratio of sqrt((x - x_p)^2 + 100) to the length of the
    path, in percent.  The constant 100 does not depend on the period p. *)
Theorem C43_pfe : forall size x p q, zlen x = size -> 0 <= size <= INT_MAX -> 1 <= p < INT_MAX -> 1 <= q < INT_MAX ->
  @ti_pfe RA size [x] [IZR p; IZR q] = Ok (OKAY, [ema_list q (pfe_list p x)]).
Proof. intros. apply pfe_fun; auto; apply RA_int; zl. Qed.
Print Assumptions C43_pfe.

(** ** Weighted means *)
Theorem C43_dwma : forall size x p, zlen x = size -> 0 <= size <= INT_MAX -> 1 <= p -> 2 * (p - 1) <= INT_MAX ->
  @ti_dwma RA size [x] [IZR p] = Ok (OKAY, [wma_list p (wma_list p x)]).
Proof. intros. apply dwma_fun; auto. apply RA_int. zl. Qed.
Print Assumptions C43_dwma.
Theorem C43_lma : forall size x p, zlen x = size -> 0 <= size <= INT_MAX -> 1 <= p <= INT_MAX ->
  @ti_lma RA size [x] [IZR p] = Ok (OKAY, [tab 0 (size - p + 1) (fun k => 2 * wavg linw k p x - mean (window k p x))%R]).
Proof. intros. apply lma_fun; auto; [apply RA_int; zl|lia]. Qed.
Print Assumptions C43_lma.
Theorem C43_shmma : forall size x p, zlen x = size -> 0 <= size <= INT_MAX -> 1 <= p -> (p + 1) * p <= INT_MAX ->
  @ti_shmma RA size [x] [IZR p] = Ok (OKAY, [tab 0 (size - p + 1) (shmma_at p x)]).
Proof. intros. apply shmma_fun; auto. apply RA_int. unfold INT_MIN, INT_MAX in *. nia. Qed.
Print Assumptions C43_shmma.
(** The weights of idwma are 1/(j+1)^e, of pwma (p-j)^e and of swma sin((j+1) pi/6), for the price j bars ago. *)
Theorem C43_idwma : forall size x e p, zlen x = size -> 0 <= size <= INT_MAX -> 1 <= p <= INT_MAX -> (1 <= e <= 2)%R ->
  @ti_idwma RA size [x] [IZR p; e] = Ok (OKAY, [tab 0 (size - p + 1) (fun k => lagavg (idw e) p x (k + p - 1))]).
Proof. intros. apply idwma_fun; auto. apply RA_int. zl. Qed.
Print Assumptions C43_idwma.
Theorem C43_pwma : forall size x e p, zlen x = size -> 0 <= size <= INT_MAX -> 1 <= p <= INT_MAX ->
  @ti_pwma RA size [x] [IZR p; e] = Ok (OKAY, [tab 0 (size - p + 1) (fun k => lagavg (SpecR.pw p e) p x (k + p - 1))]).
Proof. intros. apply pwma_fun; auto. apply RA_int. zl. Qed.
Print Assumptions C43_pwma.
Theorem C43_swma : forall size x p, zlen x = size -> 0 <= size <= INT_MAX -> 1 <= p < INT_MAX -> p mod 6 <> 0 -> p mod 6 <> 5 ->
  @ti_swma RA size [x] [IZR p] = Ok (OKAY, [tab 0 (size - p + 1) (fun k => lagavg sinew p x (k + p - 1))]).
Proof. intros. apply swma_fun; auto. apply RA_int. zl. Qed.
Print Assumptions C43_swma.
(** t3: three passes of (1+v) ema - v ema(ema). *)
Theorem C43_t3 : forall size x p v, zlen x = size -> 0 <= size <= INT_MAX -> 1 <= p -> (0 <= v)%R ->
  @ti_t3 RA size [x] [IZR p; v] = Ok (OKAY, [gd_list p v (gd_list p v (gd_list p v x))]).
Proof. exact t3_fun. Qed.
Print Assumptions C43_t3.

(** ** Volume *)
Theorem C43_fi : forall size c v p, zlen c = size -> zlen v = size -> 0 <= size <= INT_MAX -> 1 <= p ->
  @ti_fi RA size [c; v] [IZR p] = Ok (OKAY, [ema_list p (tab 0 (size - 1) (fun j => zr v (j + 1) * (zr c (j + 1) - zr c j))%R)]).
Proof. exact fi_fun. Qed.
Print Assumptions C43_fi.
(** pvt starts from the first volume, not from 0. *)
Theorem C43_pvt : forall size c v, zlen c = size -> zlen v = size -> 0 <= size <= INT_MAX ->
  (forall i, 0 <= i < size -> zr v i <> 0%R /\ zr c i <> 0%R) ->
  @ti_pvt RA size [c; v] [] = Ok (OKAY, [tab 0 (size - 1) (fun k =>
    zr v 0 + zsum 1 (k + 2) (fun j => zr v j * (zr c j - zr c (j - 1)) / zr c (j - 1)))%R]).
Proof. intros size c v Hc Hv Hs Hz. apply pvt_fun; auto. intros i Hi. apply (Hz i Hi). Qed.
Print Assumptions C43_pvt.
Theorem C43_evwma : forall size c v p g, zlen c = size -> zlen v = size -> 0 <= size <= INT_MAX -> 1 <= p <= INT_MAX -> (0 < g)%R ->
  (forall i, p <= i < size -> zsum (i - p + 1) (i + 1) (zr v) <> 0%R) ->
  exists y, @ti_evwma RA size [c; v] [IZR p; g] = Ok (OKAY, [y]) /\ zlen y = Z.max 0 (size - p + 1) /\
  (p <= size -> zr y 0 = zr c (p - 1)) /\
  forall k, 1 <= k < size - p + 1 -> let i := k + p - 1 in let s := (zr v i / (g * zsum (i - p + 1) (i + 1) (zr v)))%R in
    zr y k = (zr y (k - 1) * (1 - s) + s * zr c i)%R.
Proof.
  intros size c v p g Hc Hv Hs Hp Hg Hz. exists (tab 0 (size - p + 1) (ev_at p g c v)). split; [apply evwma_fun; auto; [apply RA_int; zl|lia]|].
  change (@T RA) with R. rewrite zlen_tab. split; [lia|]. split.
  - intros H. rewrite zr_tab by lia. unfold ev_at. rewrite trec_nil by lia. reflexivity.
  - intros k Hk i s. subst s i. rewrite !zr_tab by lia. unfold ev_at. replace (k + p) with (k - 1 + p + 1) at 1 by lia. rewrite trec_snoc by lia. cbv zeta.
    replace (k + p - 1) with (k - 1 + p) by lia. reflexivity.
Qed.
Print Assumptions C43_evwma.

(** ** Deviation *)
(** emsd is the population standard deviation of the window; its second option has no effect. *)
Theorem C43_emsd : forall size x p q, zlen x = size -> 0 <= size <= INT_MAX -> 1 <= p <= INT_MAX -> 1 <= q < INT_MAX ->
  @ti_emsd RA size [x] [IZR p; IZR q] = Ok (OKAY, [tab 0 (size - p + 1) (fun k => sqrt (popvar (window k p x)))]).
Proof. intros size x p q Hx Hs Hp Hq. apply (emsd_fun _ _ _ _ p q); auto; try lia; apply RA_int; zl. Qed.
Print Assumptions C43_emsd.

(** ** Projection bands: the largest high and the smallest low of the last p bars, each moved to the
    last bar along the regression slope of the closes; posc is the close's place between them. *)
Theorem C43_pbands : forall size h l c p, zlen h = size -> zlen l = size -> zlen c = size -> 0 <= size <= INT_MAX -> 2 <= p ->
  p * (p + 1) * (2 * p + 1) <= INT_MAX ->
  @ti_pbands RA size [h; l; c] [IZR p] = Ok (OKAY, [tab 0 (size - p + 1) (lowband p l c); tab 0 (size - p + 1) (upband p h c)]).
Proof. intros. apply pbands_fun; auto; [apply RA_int; unfold INT_MIN, INT_MAX in *; nia|lia]. Qed.
Print Assumptions C43_pbands.
Theorem C43_posc : forall size h l c p q, zlen h = size -> zlen l = size -> zlen c = size -> 0 <= size <= INT_MAX -> 2 <= p -> 1 <= q < INT_MAX ->
  p * (p + 1) * (2 * p + 1) <= INT_MAX ->
  (forall k, 0 <= k < size - p + 1 -> upband p h c k <> lowband p l c k) ->
  @ti_posc RA size [h; l; c] [IZR p; IZR q] = Ok (OKAY, [ema_list q (posc_list p h l c)]).
Proof. intros size h l c p q Hh Hl Hc Hs Hp Hq Hi _. apply posc_fun; auto. lia. Qed.
Print Assumptions C43_posc.

(** ** Cases *)
Ltac unabs := repeat match goal with |- context[Rabs ?a] => first [rewrite (Rabs_right a) by lra | rewrite (Rabs_left a) by lra] end.
Ltac unmax := repeat (match goal with |- context[Rmax ?a ?b] => first [rewrite (Rmax_left a b) by lra | rewrite (Rmax_right a b) by lra]
  | |- context[Rmin ?a ?b] => first [rewrite (Rmin_left a b) by lra | rewrite (Rmin_right a b) by lra] end).
Ltac nums := cbv -[Rplus Rmult Rminus Rdiv Rinv Ropp IZR Rabs sqrt Rmax Rmin Rltb Rleb Reqb pow sin PI Rpower]; unabs; unmax.
Ltac exV := nums; repeat match goal with |- context[Reqb ?a ?b] => destruct (Reqb_spec a b); try lra end;
  apply okl; repeat first [reflexivity|apply consl|lra|(field; lra)].
Ltac r1 := try reflexivity; try zl; try lia; try lra.
Ltac case1 L := etransitivity; [apply L; r1|exV].
Ltac okeq E := etransitivity; [exact E|]; exV.

Example C43_er_case : @ti_er RA 4 [[1; 2; 1; 4]%R] [2%R] = Ok (OKAY, [[0; 1 / 2]%R]).
Proof.  etransitivity; [apply (er_fun 4 _ _ 2); r1; apply RA_int; zl|]. unfold er_at. exV. Qed.
Example C43_vi_case :
  (forall k, 0 <= k < 3 - 2 -> zsum (k + 1) (k + 2 + 1) (vi_range [3; 5; 6] [1; 2; 4] [2; 4; 5])%R <> 0%R) /\
  @ti_vi RA 3 [[3; 5; 6]%R; [1; 2; 4]%R; [2; 4; 5]%R] [2%R] = Ok (OKAY, [[8 / 5]%R; [2 / 5]%R]).
Proof.
  assert (H : forall k, 0 <= k < 3 - 2 -> zsum (k + 1) (k + 2 + 1) (vi_range [3; 5; 6] [1; 2; 4] [2; 4; 5])%R <> 0%R).
  { intros k Hk. replace k with 0 by lia. nums. lra. }
  split; [exact H|]. etransitivity; [apply (C43_vi 3 [3; 5; 6]%R [1; 2; 4]%R [2; 4; 5]%R 2); r1; exact H|]. exV.
Qed.
Example C43_tsi_case :
  (forall k, 0 <= k < 3 - 1 -> emaR 3 (ema_list 1 (tab 0 (3 - 1) (fun i => Rabs (zr [1; 3; 2] (i + 1) - zr [1; 3; 2] i))%R)) k <> 0%R) /\
  @ti_tsi RA 3 [[1; 3; 2]%R] [1%R; 3%R] = Ok (OKAY, [[100; 100 / 3]%R]).
Proof.
  assert (H : forall k, 0 <= k < 3 - 1 -> emaR 3 (ema_list 1 (tab 0 (3 - 1) (fun i => Rabs (zr [1; 3; 2] (i + 1) - zr [1; 3; 2] i))%R)) k <> 0%R).
  { intros k Hk. assert (E : k = 0 \/ k = 1) by lia. destruct E as [-> | ->]; nums; lra. }
  split; [exact H|]. etransitivity; [apply (C43_tsi 3 [1; 3; 2]%R 1 3); r1; exact H|]. exV.
Qed.
Example C43_rmi_case : @ti_rmi RA 3 [[1; 3; 2]%R] [3%R; 1%R] = Ok (OKAY, [[100; 200 / 3]%R]).
Proof.
  etransitivity; [apply (C43_rmi 3 [1; 3; 2]%R 3 1); r1|exV].
  intros k Hk. assert (E : k = 0 \/ k = 1) by lia. destruct E as [-> | ->]; nums; lra.
Qed.
Example C43_vwap_case : @ti_vwap RA 3 [[3; 6; 9]%R; [0; 3; 6]%R; [3; 3; 3]%R; [1; 3; 1]%R] [2%R] = Ok (OKAY, [[7 / 2; 9 / 2]%R]).
Proof.
  etransitivity; [apply (C43_vwap 3 [3; 6; 9]%R [0; 3; 6]%R [3; 3; 3]%R [1; 3; 1]%R 2); r1|exV].
  intros k Hk. assert (E : k = 0 \/ k = 1) by lia. destruct E as [-> | ->]; nums; lra.
Qed.
Example C43_copp_case : @ti_copp RA 5 [[2; 4; 4; 8; 2]%R] [1%R; 2%R; 2%R] = Ok (OKAY, [[250 / 3; - (25 / 3)]%R]).
Proof. etransitivity; [apply (C43_copp 5 [2; 4; 4; 8; 2]%R 1 2 2); r1|exV]. Qed.
Example C43_pfe_case : @ti_pfe RA 2 [[1; 1]%R] [1%R; 1%R] = Ok (OKAY, [[(-1) * 100 * sqrt 100 / sqrt 1]%R]).
Proof.
  etransitivity; [apply (C43_pfe 2 [1; 1]%R 1 1); r1|]. nums. destruct (Rltb_spec 0 (1 - 1)); [lra|].
  apply okl. repeat (apply consl; [|reflexivity]). rewrite Rplus_0_r. replace ((1 - 1) * (1 - 1))%R with 0%R by lra. rewrite !Rplus_0_l. reflexivity.
Qed.
Example C43_dwma_case : @ti_dwma RA 4 [[3; 6; 9; 0]%R] [2%R] = Ok (OKAY, [[7; 14 / 3]%R]).
Proof. etransitivity; [apply (C43_dwma 4 [3; 6; 9; 0]%R 2); r1|exV]. Qed.
Example C43_lma_case : @ti_lma RA 3 [[3; 6; 0]%R] [2%R] = Ok (OKAY, [[11 / 2; 1]%R]).
Proof. etransitivity; [apply (C43_lma 3 [3; 6; 0]%R 2); r1|exV]. Qed.
Example C43_shmma_case : @ti_shmma RA 3 [[3; 6; 0]%R] [2%R] = Ok (OKAY, [[6; 0]%R]).
Proof. etransitivity; [apply (C43_shmma 3 [3; 6; 0]%R 2); r1|exV]. Qed.
Example C43_idwma_case : @ti_idwma RA 2 [[3; 6]%R] [2%R; 2%R] = Ok (OKAY, [[27 / 5]%R]).
Proof.
  etransitivity; [apply (C43_idwma 2 [3; 6]%R 2 2); r1|]. unfold lagavg, idw. cbn [fpow RA].
  destruct (Req_EM_T 2 2); [|lra]. exV.
Qed.
Example C43_pwma_case : @ti_pwma RA 2 [[3; 6]%R] [2%R; 2%R] = Ok (OKAY, [[27 / 5]%R]).
Proof.
  etransitivity; [apply (C43_pwma 2 [3; 6]%R 2 2); r1|]. unfold lagavg, SpecR.pw. cbn [fpow RA].
  destruct (Req_EM_T 2 2); [|lra]. exV.
Qed.
Example C43_swma_case : @ti_swma RA 2 [[3; 6]%R] [2%R] = Ok (OKAY,
  [[(0 + sin (1 * Rtrigo1.PI / 6) * 6 + sin (2 * Rtrigo1.PI / 6) * 3) / (0 + sin (1 * Rtrigo1.PI / 6) + sin (2 * Rtrigo1.PI / 6))]%R]).
Proof.
  etransitivity; [apply (C43_swma 2 [3; 6]%R 2); r1; discriminate|]. unfold lagavg, sinew. cbv -[Rplus Rmult Rminus Rdiv Rinv Ropp IZR sin Rtrigo1.PI]. apply okl. repeat (apply consl; [|reflexivity]). unfold Rdiv. f_equal; [ring|]. f_equal. ring.
Qed.
Example C43_t3_case : @ti_t3 RA 2 [[1; 3]%R] [3%R; 1%R] = Ok (OKAY, [[1; 59 / 32]%R]).
Proof. etransitivity; [apply (C43_t3 2 [1; 3]%R 3 1%R); r1|exV]. Qed.
Example C43_fi_case : @ti_fi RA 3 [[1; 3; 2]%R; [5; 2; 4]%R] [3%R] = Ok (OKAY, [[4; 0]%R]).
Proof. etransitivity; [apply (C43_fi 3 [1; 3; 2]%R [5; 2; 4]%R 3); r1|exV]. Qed.
Example C43_pvt_case : @ti_pvt RA 3 [[1; 2; 1]%R; [5; 2; 4]%R] [] = Ok (OKAY, [[7; 5]%R]).
Proof.
  etransitivity; [apply (C43_pvt 3 [1; 2; 1]%R [5; 2; 4]%R); r1|exV].
  intros k Hk. assert (E : k = 0 \/ k = 1 \/ k = 2) by lia. destruct E as [-> | [-> | ->]]; nums; split; lra.
Qed.
Example C43_evwma_case : @ti_evwma RA 3 [[1; 2; 4]%R; [5; 2; 2]%R] [2%R; 1%R] = Ok (OKAY, [[2; 3]%R]).
Proof.
  etransitivity; [apply (evwma_fun 3 [1; 2; 4]%R [5; 2; 2]%R 2%R 1%R 2); r1|exV].
  - apply RA_int; zl.
  - intros k Hk. replace k with 2 by lia. nums. lra.
Qed.
Example C43_emsd_case : @ti_emsd RA 3 [[1; 3; 8]%R] [2%R; 1%R] = Ok (OKAY, [[sqrt 1; sqrt (25 / 4)]%R]).
Proof. etransitivity; [apply (C43_emsd 3 [1; 3; 8]%R 2 1); r1|]. nums. apply okl, consl; [|reflexivity]. apply consl; [f_equal; lra|]. apply consl; [f_equal; lra|reflexivity]. Qed.
Example C43_pbands_case : @ti_pbands RA 3 [[4; 7; 9]%R; [1; 0; 5]%R; [2; 4; 6]%R] [2%R] = Ok (OKAY, [[0; 2]%R; [7; 9]%R]).
Proof. etransitivity; [apply (C43_pbands 3 [4; 7; 9]%R [1; 0; 5]%R [2; 4; 6]%R 2); r1|]. unfold upband, lowband, lr_slope. exV. Qed.
Example C43_posc_case : @ti_posc RA 3 [[4; 7; 9]%R; [1; 0; 5]%R; [2; 4; 6]%R] [2%R; 3%R] = Ok (OKAY, [[400 / 7; 400 / 7]%R]).
Proof.
  etransitivity; [apply (C43_posc 3 [4; 7; 9]%R [1; 0; 5]%R [2; 4; 6]%R 2 3); r1|].
  - intros k Hk. assert (E : k = 0 \/ k = 1) by lia. destruct E as [-> | ->]; unfold upband, lowband, lr_slope; nums; lra.
  - unfold posc_list, posc_raw, upband, lowband, lr_slope. exV.
Qed.

(** C43, continued: what hurst, abands and kst compute over the reals. *)
From Coq Require Import Reals Lra.
From Verif Require Import M_stream4 M_osc Fun_exact6 RSum RArith Fun_basic Fun_exact Properties_value Properties_value2.
Open Scope Z_scope.

(** hurst: the logarithm to base p of R/S, where R is the spread of the running sums of the last p
    returns, newest first and less their mean, and S is their standard deviation; and 2 less it. *)
Definition rescaled_range (p : Z) (r : Z -> R) (v : R) : Prop :=
  let m := (zsum 0 p r / IZR p)%R in
  let cum := fun n => zsum 0 n (fun j => r j - m)%R in
  exists hi lo,
    (exists a, 1 <= a <= p /\ hi = cum a) /\ (forall n, 1 <= n <= p -> (cum n <= hi)%R) /\
    (exists b, 1 <= b <= p /\ lo = cum b) /\ (forall n, 1 <= n <= p -> (lo <= cum n)%R) /\
    v = (ln ((hi - lo) / sqrt (zsum 0 p (fun j => (r j - m) * (r j - m)) / IZR p)) / ln (IZR p))%R.
Theorem C43_hurst : forall size x p, zlen x = size -> 0 <= size <= INT_MAX -> 2 <= p <= INT_MAX ->
  (forall i, 0 <= i < size -> zr x i <> 0%R) ->
  let back := fun k j => ln (zr x (k + p - j) / zr x (k + p - j - 1))%R in
  (forall k, 0 <= k < size - p -> exists j, 1 <= j < p /\ back k j <> back k (j - 1)) ->
  exists y, @ti_hurst RA size [x] [IZR p] = Ok (OKAY, [y; map (fun v => 2 - v)%R y]) /\ zlen y = Z.max 0 (size - p) /\
    forall k, 0 <= k < zlen y -> rescaled_range p (back k) (zr y k).
Proof.
  intros size x p Hx Hs Hp Nz back Nf.
  assert (EB : forall k j, 0 <= k -> j < p -> ret_at x (k + p - j) = back k j).
  { intros k j Hk Hj. unfold ret_at, back. replace (k + p - j <? 1) with false by lia. reflexivity. }
  set (F := fun k => hurst_of p (fun j => ret_at x (k + p - j))). exists (tab 0 (size - p) F). split; [|split].
  - rewrite (hurst_fun size x p Hx Hs Hp Nz).
    + cbv zeta. fold F. do 4 f_equal. apply (list_eq_zn 0%R).
      * unfold zlen. rewrite map_length. change (zlen (tab 0 (size - p) (fun k => 2 - F k)%R) = zlen (tab 0 (size - p) F)). rewrite !zlen_tab. reflexivity.
      * intros i Hi. rewrite zlen_tab in Hi. change (zn 0%R (tab 0 (size - p) (fun k => (2 - F k)%R)) i) with (zr (tab 0 (size - p) (fun k => (2 - F k)%R)) i). rewrite zr_tab by lia.
        unfold zn. rewrite (nth_indep _ 0%R ((fun v => 2 - v)%R 0%R)) by (rewrite map_length; pose proof (zlen_tab 0 (size - p) F) as L; unfold zlen in L; lia).
        rewrite (map_nth (fun v => 2 - v)%R). change (nth (Z.to_nat i) (tab 0 (size - p) F) 0%R) with (zr (tab 0 (size - p) F) i). rewrite zr_tab by lia. reflexivity.
    + intros i Hi. destruct (Nf (i - p) ltac:(lia)) as (j & Hj & N). exists j. split; [exact Hj|]. rewrite <- !EB in N by lia. replace (i - p + p) with i in N by lia. exact N.
  - rewrite zlen_tab. lia.
  - intros k Hk. rewrite zlen_tab in Hk. rewrite zr_tab by lia. unfold F. clear F. unfold rescaled_range.
    assert (ES : forall n g, 0 <= n <= p -> zsum 0 n (fun j => g (ret_at x (k + p - j))) = zsum 0 n (fun j => g (back k j)) :> R) by (intros n g Hn; apply zsum_ext; intros j Hj; rewrite EB by lia; reflexivity).
    set (f := fun j => ret_at x (k + p - j)). set (m := (zsum 0 p (back k) / IZR p)%R).
    assert (Em : (zsum 0 p f / IZR p)%R = m) by (unfold m; f_equal; apply (ES p (fun v => v)); lia).
    assert (EC : forall n, 0 <= n <= p -> zsum 0 n (dev p f) = zsum 0 n (fun j => back k j - m)%R).
    { intros n Hn. apply zsum_ext. intros j Hj. unfold dev. rewrite Em. unfold f. rewrite EB by lia. reflexivity. }
    exists (run_hi p (dev p f)), (run_lo p (dev p f)). cbv zeta.
    assert (E0 : zsum 0 0 (dev p f) = zsum 0 p (dev p f)) by (rewrite dev_sum, zsum_nil by lia; reflexivity).
    split; [|split; [|split; [|split]]].
    + destruct (hi_in p (dev p f) ltac:(lia)) as (a & Ha & E). destruct (Z.eq_dec a 0) as [->|N].
      * exists p. split; [lia|]. rewrite E, E0. apply EC. lia.
      * exists a. split; [lia|]. rewrite E. apply EC. lia.
    + intros n Hn. rewrite <- EC by lia. apply hi_spec. lia.
    + destruct (lo_in p (dev p f) ltac:(lia)) as (a & Ha & E). destruct (Z.eq_dec a 0) as [->|N].
      * exists p. split; [lia|]. rewrite E, E0. apply EC. lia.
      * exists a. split; [lia|]. rewrite E. apply EC. lia.
    + intros n Hn. rewrite <- EC by lia. apply lo_spec. lia.
    + unfold hurst_of. fold f. do 5 f_equal. apply zsum_ext. intros j Hj. unfold dev. rewrite Em. unfold f. rewrite EB by lia. reflexivity.
Qed.
Print Assumptions C43_hurst.

(** abands: the means over p bars of l(1 - w), h(1 + w) and c, where w = 4(h - l)/(h + l). *)
Theorem C43_abands : forall size h l c p, zlen h = size -> zlen l = size -> zlen c = size -> 0 <= size <= INT_MAX -> 1 <= p <= 268435452 ->
  (forall i, 0 <= i < size -> (0 < zr h i + zr l i)%R) ->
  let w := fun i => (4 * (zr h i - zr l i) / (zr h i + zr l i))%R in
  @ti_abands RA size [h; l; c] [IZR p] = Ok (OKAY,
  [tab 0 (size - p + 1) (fun k => zsum k (k + p) (fun i => (1 - w i) * zr l i) / IZR p);
   tab 0 (size - p + 1) (fun k => zsum k (k + p) (fun i => (1 + w i) * zr h i) / IZR p);
   tab 0 (size - p + 1) (fun k => zsum k (k + p) (zr c) / IZR p)])%R.
Proof. intros size h l c p Hh Hl Hc Hs Hp Pos w. rewrite (abands_fun size h l c _ p); auto. apply (@to_int_of_Z RA RA_laws). zl. Qed.
Print Assumptions C43_abands.

(** kst: with S_j the exponential average of period m_j of the rate of change over r_j bars,
    (S_1 + 2 S_2 + 3 S_3 + 4 S_4)/10 from bar r_4 on, and its exponential average of period 9. *)
Theorem C43_kst : forall size x r1 r2 r3 r4 m1 m2 m3 m4, zlen x = size -> size <= INT_MAX -> 1 <= r1 < r2 -> r2 < r3 < r4 -> r4 < size ->
  1 <= m1 < INT_MAX -> 1 <= m2 < INT_MAX -> 1 <= m3 < INT_MAX -> 1 <= m4 < INT_MAX -> (forall i, 0 <= i < size -> zr x i <> 0%R) ->
  let change := fun r => tab 0 (size - r) (fun k => (zr x (k + r) - zr x k) / zr x k)%R in
  let S := fun r m i => emaR m (change r) (i - r) in
  let y := tab 0 (size - r4) (fun k => let i := (k + r4)%Z in (S r1 m1 i * 1 + S r2 m2 i * 2 + S r3 m3 i * 3 + S r4 m4 i * 4) / 10)%R in
  @ti_kst RA size [x] [IZR r1; IZR r2; IZR r3; IZR r4; IZR m1; IZR m2; IZR m3; IZR m4] = Ok (OKAY, [y; tab 0 (size - r4) (emaR 9 y)]).
Proof.
  intros size x r1 r2 r3 r4 m1 m2 m3 m4 Hx Hs H12 H34 H4 M1 M2 M3 M4 _ change S y. rewrite (kst_fun size x) by (assumption || lia).
  assert (E : kst_list r1 r2 r3 r4 m1 m2 m3 m4 x = y) by (unfold kst_list, y, kst_at, roc_ema, roc_list, S, change; change (@T RA) with R in *; rewrite Hx; reflexivity).
  rewrite E. unfold ema_list. replace (zlen y) with (size - r4); [reflexivity|]. unfold y. rewrite zlen_tab. lia.
Qed.
Print Assumptions C43_kst.

(** ** Cases *)
Example C43_abands_case : @ti_abands RA 3 [[3; 6; 9]%R; [1; 2; 7]%R; [2; 4; 8]%R] [2%R] = Ok (OKAY, [[- (3 / 2); 3 / 4]%R; [27 / 2; 63 / 4]%R; [3; 6]%R]).
Proof. etransitivity; [apply (C43_abands 3 [3; 6; 9]%R [1; 2; 7]%R [2; 4; 8]%R 2); r1; upto4; nums; lra|]. exW. Qed.
Example C43_kst_case : @ti_kst RA 6 [[1; 2; 4; 4; 8; 4]%R] [1%R; 2%R; 3%R; 4%R; 3%R; 1%R; 1%R; 1%R] = Ok (OKAY, [[159 / 40; 33 / 80]%R; [159 / 40; 261 / 80]%R]).
Proof. etransitivity; [apply (C43_kst 6 [1; 2; 4; 4; 8; 4]%R 1 2 3 4 3 1 1 1); r1|exW]. intros i Hi. assert (E : i = 0 \/ i = 1 \/ i = 2 \/ i = 3 \/ i = 4 \/ i = 5) by lia. repeat (destruct E as [-> | E]; [nums; lra|]). subst. nums. lra. Qed.
(** Returns ln 2 and ln (1/2): the running sums from the newest are -ln 2 and 0 less 0, R = S = ln 2, so hurst is 0. *)
Example C43_hurst_case : exists y, @ti_hurst RA 3 [[1; 2; 1]%R] [2%R] = Ok (OKAY, [y; map (fun v => 2 - v)%R y]) /\ zlen y = 1 /\ zr y 0 = 0%R.
Proof.
  assert (L2 : (0 < ln 2)%R) by (rewrite <- ln_1; apply ln_increasing; lra). assert (LH : ln (1 / 2) = (- ln 2)%R) by (replace (1 / 2)%R with (/ 2)%R by lra; apply ln_Rinv; lra).
  destruct (C43_hurst 3 [1; 2; 1]%R 2) as (y & E & L & V); [reflexivity|zl|zl|upto4; nums; lra| |].
  { intros k Hk. assert (k = 0) as -> by lia. exists 1. split; [lia|]. intros N. assert (N' : ln (2 / 1) = ln (1 / 2)) by exact N. rewrite LH in N'. replace (2 / 1)%R with 2%R in N' by lra. lra. }
  exists y. split; [exact E|]. split; [exact L|]. destruct (V 0 ltac:(lia)) as (hi & lo & (a & Ha & ->) & Hhi & (b & Hb & ->) & Hlo & ->).
  set (r := fun j => ln (zr [1; 2; 1]%R (0 + 2 - j) / zr [1; 2; 1]%R (0 + 2 - j - 1))%R) in *.
  assert (R0 : r 0 = (- ln 2)%R) by exact LH. assert (R1 : r 1 = ln 2) by (transitivity (ln (2 / 1)); [reflexivity|f_equal; lra]).
  set (m := (zsum 0 2 r / 2)%R) in *. assert (M0 : m = 0%R) by (unfold m; change 2%Z with (0 + 1 + 1)%Z; rewrite !zsum_snoc, zsum_nil by lia; change (0 + 1)%Z with 1%Z; rewrite R0, R1; lra).
  assert (C1 : zsum 0 1 (fun j => r j - m)%R = (- ln 2)%R) by (change 1%Z with (0 + 1)%Z; rewrite zsum_snoc, zsum_nil by lia; rewrite R0, M0; lra).
  assert (C2 : zsum 0 2 (fun j => r j - m)%R = 0%R) by (change 2%Z with (0 + 1 + 1)%Z; rewrite !zsum_snoc, zsum_nil by lia; change (0 + 1)%Z with 1%Z; rewrite R0, R1, M0; lra).
  assert (A : (zsum 0 2 (fun j => r j - m) <= zsum 0 a (fun j => r j - m))%R) by (apply (Hhi 2); lia). assert (B : (zsum 0 b (fun j => r j - m) <= zsum 0 1 (fun j => r j - m))%R) by (apply (Hlo 1); lia).
  assert (a = 2) as -> by (assert (a = 1 \/ a = 2) as [-> | ->] by lia; [|reflexivity]; rewrite C1, C2 in A; lra).
  assert (b = 1) as -> by (assert (b = 1 \/ b = 2) as [-> | ->] by lia; [reflexivity|]; rewrite C1, C2 in B; lra).
  change (ln ((zsum 0 2 (fun j => r j - m) - zsum 0 1 (fun j => r j - m)) / sqrt (zsum 0 2 (fun j => (r j - m) * (r j - m)) / 2)) / ln 2 = 0)%R. rewrite C1, C2.
  replace (zsum 0 2 (fun j => (r j - m) * (r j - m)))%R with (2 * (ln 2 * ln 2))%R by (symmetry; change (zsum 0 2) with (zsum 0 (0 + 1 + 1)); rewrite !zsum_snoc, zsum_nil by lia; change (0 + 1)%Z with 1%Z; rewrite R0, R1, M0; ring).
  replace (2 * (ln 2 * ln 2) / 2)%R with (ln 2 * ln 2)%R by field. rewrite sqrt_square by lra. replace ((0 - - ln 2) / ln 2)%R with 1%R by (field; lra). rewrite ln_1. unfold Rdiv. ring.
Qed.

(** C36, continued: the reference implementations of hfsma, hfema, hurst, abands and kst.
    [agree] is that of Properties_ref.v. *)
From Coq Require Import Reals Lra String Floats.SpecFloat.
From Verif Require Import M_stream4 M_stream8 M_osc Fun_exact5 Fun_exact6 RSum RArith F64 F64Ord F64Laws
  Properties_basic Properties_value Properties_value2 Properties_ref.
Open Scope Z_scope.

Theorem C36_hfsma : forall size x p k t, zlen x = size -> 0 <= size <= INT_MAX -> 1 <= p <= INT_MAX -> 1 <= k -> 2 * k + 1 <= INT_MAX -> p - 1 + 2 * k <= INT_MAX -> (0 <= t)%R ->
  agree (A := RA) ti_hfsma ti_hfsma_ref size [x] [IZR p; IZR k; t].
Proof. intros size x p k t H1 H2 H3 H4 H5 H6 H7. destruct (hfsma_agree size x p k t H1 H2 H3 H4 H5 H6 H7) as (y & E & E'). eapply agree_by; eassumption. Qed.
Print Assumptions C36_hfsma.
Theorem C36_hfema : forall size x p k t, zlen x = size -> 0 <= size <= INT_MAX -> 1 <= p <= INT_MAX -> 1 <= k -> 2 * k + 1 <= INT_MAX -> (0 <= t)%R ->
  agree (A := RA) ti_hfema ti_hfema_ref size [x] [IZR p; IZR k; t].
Proof. intros size x p k t H1 H2 H3 H4 H5 H7. destruct (hfema_agree size x p k t H1 H2 H3 H4 H5 H7) as (y & E & E'). eapply agree_by; eassumption. Qed.
Print Assumptions C36_hfema.
(** hurst: the returns in each window are defined and not all the same. *)
Theorem C36_hurst : forall size x p, zlen x = size -> 0 <= size <= INT_MAX -> 2 <= p <= INT_MAX -> (forall i, 0 <= i < size -> zr x i <> 0%R) ->
  (forall i, p <= i < size -> exists j, 1 <= j < p /\ ln (zr x (i - j) / zr x (i - j - 1)) <> ln (zr x (i - j + 1) / zr x (i - j))) ->
  agree (A := RA) ti_hurst ti_hurst_ref size [x] [IZR p].
Proof.
  intros size x p Hx Hs Hp Nz Nf. eapply agree_by; [apply hurst_fun|apply hurst_ref_fun]; auto. intros i Hi. destruct (Nf i Hi) as (j & Hj & N). exists j. split; [exact Hj|]. unfold ret_at.
  replace (i - j <? 1) with false by lia. replace (i - (j - 1) <? 1) with false by lia. replace (i - (j - 1) - 1) with (i - j) by lia. replace (i - (j - 1)) with (i - j + 1) by lia. exact N.
Qed.
Print Assumptions C36_hurst.
Theorem C36_abands : forall size h l c p, zlen h = size -> zlen l = size -> zlen c = size -> 0 <= size <= INT_MAX -> 1 <= p <= 268435452 -> p <= size + 1 ->
  (forall i, 0 <= i < size -> (0 < zr h i + zr l i)%R) -> agree (A := RA) ti_abands ti_abands_ref size [h; l; c] [IZR p].
Proof. intros size h l c p Hh Hl Hc Hs Hp Hp' Pos. eapply agree_by; [apply (abands_fun _ _ _ _ _ p)|apply abands_ref_fun]; auto; try (apply RA_int; zl); lia. Qed.
Print Assumptions C36_abands.
Theorem C36_kst : forall size x r1 r2 r3 r4 m1 m2 m3 m4, zlen x = size -> size <= INT_MAX -> 1 <= r1 < r2 -> r2 < r3 < r4 -> r4 < size ->
  1 <= m1 < INT_MAX -> 1 <= m2 < INT_MAX -> 1 <= m3 < INT_MAX -> 1 <= m4 < INT_MAX -> (forall i, 0 <= i < size -> zr x i <> 0%R) ->
  agree (A := RA) ti_kst ti_kst_ref size [x] [IZR r1; IZR r2; IZR r3; IZR r4; IZR m1; IZR m2; IZR m3; IZR m4].
Proof. intros size x r1 r2 r3 r4 m1 m2 m3 m4 Hx Hs H12 H34 H4 M1 M2 M3 M4 Nz. eapply agree_by; [apply kst_fun|apply kst_ref_fun]; auto; lia. Qed.
Print Assumptions C36_kst.

(** ** Cases *)
Example C36_rest_case : let x := [1; 2; 1; 4; 3; 8]%R in
  agree (A := RA) ti_hfsma ti_hfsma_ref 6 [x] [2%R; 1%R; 1%R] /\ agree (A := RA) ti_hfema ti_hfema_ref 6 [x] [2%R; 1%R; 1%R] /\
  agree (A := RA) ti_hurst ti_hurst_ref 3 [[1; 2; 1]%R] [2%R] /\ agree (A := RA) ti_abands ti_abands_ref 3 [[3; 6; 9]%R; [1; 2; 7]%R; [2; 4; 8]%R] [2%R] /\
  agree (A := RA) ti_kst ti_kst_ref 6 [x] [1%R; 2%R; 3%R; 4%R; 3%R; 1%R; 1%R; 2%R].
Proof.
  cbv zeta. split; [apply (C36_hfsma 6 _ 2 1); r1|]. split; [apply (C36_hfema 6 _ 2 1); r1|]. split; [|split].
  - apply (C36_hurst 3 _ 2); r1; [upto4; nums; lra|]. intros i Hi. assert (i = 2) as -> by lia. exists 1. split; [lia|]. intros N. assert (N' : ln (2 / 1) = ln (1 / 2)) by exact N.
    assert (L2 : (0 < ln 2)%R) by (rewrite <- ln_1; apply ln_increasing; lra). assert (LH : ln (1 / 2) = (- ln 2)%R) by (replace (1 / 2)%R with (/ 2)%R by lra; apply ln_Rinv; lra).
    rewrite LH in N'. replace (2 / 1)%R with 2%R in N' by lra. lra.
  - apply (C36_abands 3 _ _ _ 2); r1; upto4; nums; lra.
  - apply (C36_kst 6 _ 1 2 3 4 3 1 1 2); r1. intros i Hi. assert (E : i = 0 \/ i = 1 \/ i = 2 \/ i = 3 \/ i = 4 \/ i = 5) by lia. repeat (destruct E as [-> | E]; [nums; lra|]). subst. nums. lra.
Qed.

(** ** Refuted without the conditions *)
(** h + l = 0: abands gives numbers, its reference infinities.  A price of 0: kst gives NaN, its reference a number. *)
Theorem C36_zero_test2_refuted : exists h l x : list (@T F64c),
  h = [dbl 1 0; dbl 1 0] /\ l = [dbl (-1) 0; dbl (-1) 0] /\ x = [dbl 0 0; dbl 1 0; dbl 1 0; dbl 1 0; dbl 0 0] /\
  @ti_abands F64c 2 [h; l; h] [dbl 2 0] = Ok (OKAY, [[dbl (-1) 0]; [dbl 1 0]; [dbl 1 0]]) /\ @ti_abands_ref F64c 2 [h; l; h] [dbl 2 0] = Ok (OKAY, [[S754_infinity false]; [S754_infinity false]; [dbl 1 0]]) /\
  @ti_kst F64c 5 [x] [dbl 1 0; dbl 2 0; dbl 3 0; dbl 4 0; dbl 1 0; dbl 1 0; dbl 1 0; dbl 1 0] = Ok (OKAY, [[S754_nan]; [S754_nan]]) /\
  @ti_kst_ref F64c 5 [x] [dbl 1 0; dbl 2 0; dbl 3 0; dbl 4 0; dbl 1 0; dbl 1 0; dbl 1 0; dbl 1 0] = Ok (OKAY, [[dbl (-6) 1]; [dbl (-6) 1]]).
Proof. do 3 eexists. do 3 (split; [reflexivity|]). vm_compute. repeat split. Qed.
Print Assumptions C36_zero_test2_refuted.
(** A flat series: hurst gives 0 and 2, its reference NaN; shown with a log that gives log 1 = 0 and
    keeps NaN, and a pow with pow(0, 2) = 0. *)
Theorem C36_hurst_refuted : exists lm pw, lm Llog (dbl 1 0) = dbl 0 0 /\ lm Llog S754_nan = S754_nan /\ pw (dbl 0 0) (dbl 2 0) = dbl 0 0 /\
  @ti_hurst (F64 lm pw) 3 [[dbl 7 0; dbl 7 0; dbl 7 0]] [dbl 2 0] = Ok (OKAY, [[dbl 0 0]; [dbl 2 0]]) /\
  @ti_hurst_ref (F64 lm pw) 3 [[dbl 7 0; dbl 7 0; dbl 7 0]] [dbl 2 0] = Ok (OKAY, [[S754_nan]; [S754_nan]]).
Proof.
  exists (fun _ v => match v with S754_nan => S754_nan | _ => if SFeqb v (dbl 1 0) then dbl 0 0 else v end), (fun a _ => a).
  repeat split; vm_compute; reflexivity.
Qed.
Print Assumptions C36_hurst_refuted.

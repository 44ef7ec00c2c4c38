(** C43, continued: the indicators built on running extremes, in exact arithmetic.

    Reading guide: [hiR x a b] and [loR x a b] are the largest and the smallest of x[a] .. x[b],
    [wild p f] is Wilder's average of f 0, f 1, .. and [tr_at h l c i] the true range of bar i; the
    first theorems say so.  Division by zero means nothing over the reals, so zero divisors and
    logarithms of non-positive numbers are excluded by hypothesis. *)
From Coq Require Import Reals Lra String.
From Verif Require Import M_stream4 M_stream5 M_stream6 M_ref Fun_exact4 RSum RArith Fun_window Properties_basic Properties_window Properties_value F64.
Open Scope Z_scope.

(** ** The vocabulary *)
Theorem C43_window_extreme_meaning : forall (x : list R) a b, 0 <= a <= b -> b < zlen x ->
  ((exists j, a <= j <= b /\ hiR x a b = zr x j) /\ forall j, a <= j <= b -> (zr x j <= hiR x a b)%R) /\
  ((exists j, a <= j <= b /\ loR x a b = zr x j) /\ forall j, a <= j <= b -> (loR x a b <= zr x j)%R).
Proof.
  intros x a b Ha Hb. split.
  - destruct (hi_latest _ RA_ord x a b) as (B & H & _); [assumption|assumption|intros i Hi; exact I|]. split; [exists (@hi_at RA x a b); split; [lia|reflexivity]|].
    intros j Hj. specialize (H j Hj). change (Rleb (zr x j) (hiR x a b) = true) in H. destruct (Rleb_spec (zr x j) (hiR x a b)); [assumption|discriminate].
  - destruct (lo_latest _ RA_ord x a b) as (B & H & _); [assumption|assumption|intros i Hi; exact I|]. split; [exists (@lo_at RA x a b); split; [lia|reflexivity]|].
    intros j Hj. specialize (H j Hj). change (Rleb (loR x a b) (zr x j) = true) in H. destruct (Rleb_spec (loR x a b) (zr x j)); [assumption|discriminate].
Qed.
Print Assumptions C43_window_extreme_meaning.
(** The mean of the first p values, then the share 1/p of the way to each later one. *)
Theorem C43_wilder_meaning : forall p (f : Z -> R), 1 <= p -> @wild RA p f 0 = (zsum 0 p f / IZR p)%R /\
  forall k, 0 <= k -> @wild RA p f (k + 1) = ((f (p + k)%Z - @wild RA p f k) * (1 / IZR p) + @wild RA p f k)%R.
Proof. intros p f Hp. split; [apply wild_0; exact Hp|]. intros. apply wild_S. assumption. Qed.
Print Assumptions C43_wilder_meaning.
(** high - low on the first bar, afterwards stretched to include the close before. *)
Theorem C43_true_range_meaning : forall h l c : list R, @tr_at RA h l c 0 = (zr h 0 - zr l 0)%R /\
  forall i, 1 <= i -> (zr l i <= zr h i)%R -> @tr_at RA h l c i = (Rmax (zr h i) (zr c (i - 1)) - Rmin (zr l i) (zr c (i - 1)))%R.
Proof.
  intros h l c. split; [reflexivity|]. intros i Hi Hle. unfold tr_at. replace (i =? 0) with false by lia.
  change (@zf RA h) with (zr h). change (@zf RA l) with (zr l). change (@zf RA c) with (zr c). rewrite <- stdtr_tr by assumption.
  unfold stdtr, stdmax, stdmin, Rmax, Rmin. cbn -[Rltb]. destruct (Rltb_spec (zr h i) (zr c (i - 1))), (Rltb_spec (zr c (i - 1)) (zr l i)), (Rle_dec (zr h i) (zr c (i - 1))), (Rle_dec (zr l i) (zr c (i - 1))); lra.
Qed.
Print Assumptions C43_true_range_meaning.

(** ** The indicators *)
(** ce: the highest high less k average true ranges, the lowest low plus k of them. *)
Theorem C43_ce : forall size h l c p k, zlen h = size -> zlen l = size -> zlen c = size -> 0 <= size <= INT_MAX -> 2 <= p <= INT_MAX ->
  (forall i, 0 <= i < size -> (zr l i <= zr h i)%R) -> @ti_ce RA size [h; l; c] [IZR p; k] = Ok (OKAY,
  [tab 0 (size - p + 1) (fun j => hiR h j (j + p - 1) - k * @wild RA p (@tr_at RA h l c) j)%R;
   tab 0 (size - p + 1) (fun j => loR l j (j + p - 1) + k * @wild RA p (@tr_at RA h l c) j)%R]).
Proof. intros. apply ce_fun; auto; [apply RA_int; zl|lia]. Qed.
Print Assumptions C43_ce.
(** mhlma: simple and exponential average of the middle of the last p values (fewer at the start). *)
Theorem C43_mhlma : forall size x p q, zlen x = size -> 0 <= size <= INT_MAX -> 1 <= p <= INT_MAX -> 2 <= q < INT_MAX ->
  let mid := tab 0 size (fun i => (hiR x (Z.max 0 (i - p + 1)) i + loR x (Z.max 0 (i - p + 1)) i) / 2)%R in
  @ti_mhlma RA size [x] [IZR p; IZR q] = Ok (OKAY,
  [tab 0 (size - q + 1) (fun k => mean (window k q mid)); tab 0 (size - q + 1) (fun k => emaR q mid (k + q - 1))]).
Proof. intros size x p q Hx Hs Hp Hq mid. rewrite (mhlma_fun size x _ _ p q); auto; [|apply RA_int; zl|apply RA_int; zl|lia]. unfold mhlma_outs, mhl_list, mhl_at. change (@T RA) with R in *. rewrite Hx. reflexivity. Qed.
Print Assumptions C43_mhlma.
(** smi: the twice averaged distance of the close from the middle of the range, in percent of half
    the twice averaged range. *)
Theorem C43_smi : forall size h l c q r s, zlen h = size -> zlen l = size -> zlen c = size -> 0 <= size <= INT_MAX -> 2 <= q <= INT_MAX -> 1 <= r -> 1 <= s ->
  let dist := tab 0 (size - q + 1) (fun k => zr c (k + q - 1) - (hiR h k (k + q - 1) + loR l k (k + q - 1)) / 2)%R in
  let range := tab 0 (size - q + 1) (fun k => hiR h k (k + q - 1) - loR l k (k + q - 1))%R in
  (forall k, 0 <= k < size - q + 1 -> emaR s (ema_list r range) k <> 0%R) ->
  @ti_smi RA size [h; l; c] [IZR q; IZR r; IZR s] = Ok (OKAY,
  [tab 0 (size - q + 1) (fun k => 100 * (emaR s (ema_list r dist) k / (emaR s (ema_list r range) k / 2)))%R]).
Proof.
  intros size h l c q r s Hh Hl Hc Hs Hq Hr Hs' dist range _. rewrite smi_fun by auto. unfold smi_at, smi_num, smi_den. change (@T RA) with R in *. rewrite Hh, Hc. reflexivity.
Qed.
Print Assumptions C43_smi.
(** cmi: the logarithm to base p of the spread of the true ranges over their sum, in percent. *)
Theorem C43_cmi : forall size h l c p, zlen h = size -> zlen l = size -> zlen c = size -> 0 <= size <= INT_MAX -> 2 <= p <= INT_MAX ->
  (forall i, 0 <= i < size -> (zr l i <= zr h i)%R) ->
  let tr := tab 0 size (@tr_at RA h l c) in
  (forall k, 0 <= k < size - p + 1 -> (loR tr k (k + p - 1) < hiR tr k (k + p - 1))%R /\ (0 < Rsum (window k p tr))%R) ->
  @ti_cmi RA size [h; l; c] [IZR p] = Ok (OKAY,
  [tab 0 (size - p + 1) (fun k => ln ((hiR tr k (k + p - 1) - loR tr k (k + p - 1)) / Rsum (window k p tr)) / ln (IZR p) * 100)%R]).
Proof. intros size h l c p Hh Hl Hc Hs Hp HL tr _. rewrite (cmi_fun size h l c _ p); auto; [|apply RA_int; zl|lia]. unfold cmi_at. change (@T RA) with R in *. rewrite Hh. reflexivity. Qed.
Print Assumptions C43_cmi.

(** ** Cases *)
Ltac un1 a b := lazymatch a with context [Rleb] => fail | context [Rltb] => fail | _ => lazymatch b with context [Rleb] => fail | context [Rltb] => fail | _ => idtac end end.
Ltac unlt := repeat match goal with |- context [Rleb ?a ?b] => un1 a b; destruct (Rleb_spec a b); try lra | |- context [Rltb ?a ?b] => un1 a b; destruct (Rltb_spec a b); try lra end.
Ltac exW := nums; unlt; apply okl; repeat first [reflexivity|apply consl|lra|(field; lra)].
Ltac upto4 := let k := fresh "k" in let E := fresh "E" in intros k ?; assert (E : k = 0 \/ k = 1 \/ k = 2 \/ k = 3) by lia; destruct E as [-> | [-> | [-> | ->]]]; try (exfalso; lia).
Example C43_ce_case : @ti_ce RA 3 [[3; 6; 9]%R; [1; 3; 5]%R; [2; 4; 8]%R] [2%R; 1%R] = Ok (OKAY, [[3; 5]%R; [4; 7]%R]).
Proof. etransitivity; [apply (C43_ce 3 [3; 6; 9]%R [1; 3; 5]%R [2; 4; 8]%R 2 1%R); r1; upto4; nums; lra|]. exW. Qed.
Example C43_mhlma_case : @ti_mhlma RA 3 [[1; 3; 2]%R] [2%R; 2%R] = Ok (OKAY, [[3 / 2; 9 / 4]%R; [5 / 3; 20 / 9]%R]).
Proof. etransitivity; [apply (C43_mhlma 3 [1; 3; 2]%R 2 2); r1|]. exW. Qed.
Example C43_smi_case : @ti_smi RA 3 [[3; 6; 9]%R; [1; 3; 5]%R; [2; 4; 8]%R] [2%R; 1%R; 3%R] = Ok (OKAY, [[20; 500 / 11]%R]).
Proof. etransitivity; [apply (C43_smi 3 [3; 6; 9]%R [1; 3; 5]%R [2; 4; 8]%R 2 1 3); r1; upto4; nums; unlt; lra|]. exW. Qed.
Example C43_cmi_case : @ti_cmi RA 3 [[3; 6; 9]%R; [1; 3; 5]%R; [2; 4; 8]%R] [2%R] = Ok (OKAY, [[ln (1 / 3) / ln 2 * 100; ln (1 / 9) / ln 2 * 100]%R]).
Proof.
  etransitivity; [apply (C43_cmi 3 [3; 6; 9]%R [1; 3; 5]%R [2; 4; 8]%R 2); r1; upto4; cbv -[Rplus Rmult Rminus Rdiv Rinv Ropp IZR Rabs Rltb Rleb Rlt Rle]; unabs; unlt; lra|].
  cbv -[Rplus Rmult Rminus Rdiv Rinv Ropp IZR Rabs Rltb Rleb ln]; unabs; unlt. apply okl, consl; [|reflexivity]. apply consl; [|apply consl; [|reflexivity]]; do 3 f_equal; field.
Qed.

(** C36: the reference implementation of an indicator against the optimised one.

    Reading guide: [agree f g size inputs options]: both calls are defined, return TI_OKAY and
    write the same outputs.  The exact theorems are over the reals; there the quotient by zero
    means nothing, so series with a zero divisor are excluded by hypothesis, and what binary64
    does on them is shown by the refutations. *)
From Coq Require Import Reals Lra String Floats.SpecFloat.
From Verif Require Import C_ref M_stream4 M_stream5 M_stream6 M_stream7 M_window Fun_exact Fun_exact2 Fun_exact3 RSum RArith Fun_window F64 F64Ord F64Laws
  Properties_basic Properties_value.
Open Scope Z_scope.

Definition agree {A : Arith} (f g : batchfn) (size : Z) (inputs : list (list T)) (options : list T) : Prop :=
  exists outs, f size inputs options = Ok (OKAY, outs) /\ g size inputs options = Ok (OKAY, outs).
Lemma agree_by {A : Arith} (f g : batchfn) size inputs options outs :
  f size inputs options = Ok (OKAY, outs) -> g size inputs options = Ok (OKAY, outs) -> agree f g size inputs options.
Proof. intros. exists outs. auto. Qed.

(** ** Every arithmetic, so binary64 bit for bit *)
(** The same code under two names: equal on every call, accepted or not. *)
Theorem C36_same_code : forall {A : Arith} size inputs options,
  ti_mgdyn size inputs options = ti_mgdyn_ref size inputs options /\
  ti_gf1 size inputs options = ti_gf1_ref size inputs options /\
  ti_gf2 size inputs options = ti_gf2_ref size inputs options /\
  ti_gf3 size inputs options = ti_gf3_ref size inputs options /\
  ti_gf4 size inputs options = ti_gf4_ref size inputs options /\
  ti_pwma size inputs options = ti_pwma_ref size inputs options.
Proof.
  intros. split; [apply mgdyn_ref_same|]. split; [apply gf1_ref_same|]. split; [apply gf2_ref_same|]. split; [apply gf3_ref_same|].
  split; [apply gf4_ref_same|apply pwma_ref_same].
Qed.
Print Assumptions C36_same_code.
Example C36_same_code_case : let x := [dbl 1 0; dbl 2 0; dbl 4 0] in
  agree (A := F64c) ti_gf1 ti_gf1_ref 3 [x] [dbl 2 0] /\ agree (A := F64c) ti_mgdyn ti_mgdyn_ref 3 [x] [dbl 2 0].
Proof. cbv zeta. split; (eapply agree_by; vm_compute; reflexivity). Qed.

Theorem C36_ahma : forall {A : Arith}, IntLaws A -> forall size x n, zlen x = size -> 0 <= size <= INT_MAX -> 1 <= n <= INT_MAX ->
  agree ti_ahma ti_ahma_ref size [x] [#n].
Proof. intros A L size x n Hx Hs Hn. apply ahma_ref_same; [repeat constructor; auto; lia|exists n; auto|exact I]. Qed.
Print Assumptions C36_ahma.
Theorem C36_hwma : forall {A : Arith}, IntLaws A -> forall size x o n, zlen x = size -> 0 <= size <= INT_MAX -> to_int o = Some n -> 7 <= n <= 13 ->
  agree ti_hwma ti_hwma_ref size [x] [o].
Proof. intros A L size x o n Hx Hs Ho Hn. apply hwma_ref_same; [repeat constructor; auto; lia|exists o, n; auto|exact I]. Qed.
Print Assumptions C36_hwma.
(** The periods for which the table entries k = 1 .. 12 are enough; above, the reference computes sines. *)
Theorem C36_swma : forall {A : Arith}, IntLaws A -> forall size x o n, zlen x = size -> 0 <= size <= INT_MAX -> to_int o = Some n ->
  In n [1; 2; 3; 4; 7; 8; 9; 10] -> agree ti_swma ti_swma_ref size [x] [o].
Proof. intros A L size x o n Hx Hs Ho Hn. apply swma_ref_same; [repeat constructor; auto; lia|exists o, n; auto|exact I]. Qed.
Print Assumptions C36_swma.
Theorem C36_atr : forall {A : Arith}, IntLaws A -> forall size h l c o n, zlen h = size -> zlen l = size -> zlen c = size -> 0 <= size <= INT_MAX ->
  to_int o = Some n -> 1 <= n <= INT_MAX -> agree ti_atr ti_atr_ref size [h; l; c] [o].
Proof. intros A L size h l c o n Hh Hl Hc Hs Ho Hn. apply atr_ref_ok; [repeat constructor; auto; lia|exists o, n; auto|exact I]. Qed.
Print Assumptions C36_atr.
(** hf: wherever the indicator is defined, the reference is, with the same result. *)
Theorem C36_hf : forall {A : Arith} size inputs options r, 0 <= size -> ti_hf size inputs options = Ok r -> ti_hf_ref size inputs options = Ok r.
Proof. exact @hf_ref_refine. Qed.
Print Assumptions C36_hf.
(** max and min, over values totally preordered by <= (doubles without NaN, reals). *)
Theorem C36_max : forall {A : Arith}, IntLaws A -> forall good, OrdLaws A good -> forall size x o p, zlen x = size -> 0 <= size <= INT_MAX ->
  to_int o = Some p -> 1 <= p -> (forall i, 0 <= i < size -> good (zf x i)) ->
  agree ti_max ti_max_ref size [x] [o] /\ agree ti_min ti_min_ref size [x] [o].
Proof.
  intros A L good OL size x o p Hx Hs Ho Hp Hg. assert (G : allgood good x) by (intros i Hi; apply Hg; lia).
  split; (eapply agree_by; [first [apply (max_fun good OL)|apply (min_fun good OL)]|first [apply (max_ref_fun good OL)|apply (min_ref_fun good OL)]]); eassumption.
Qed.
Print Assumptions C36_max.
Example C36_any_case : let x := [dbl 1 0; dbl 4 0; dbl 2 0; dbl 3 0; dbl 7 0; dbl 5 0; dbl 6 0; dbl 8 0] in
  agree (A := F64c) ti_ahma ti_ahma_ref 8 [x] [dbl 2 0] /\ agree (A := F64c) ti_hwma ti_hwma_ref 8 [x] [dbl 7 0] /\
  agree (A := F64c) ti_swma ti_swma_ref 8 [x] [dbl 3 0] /\ agree (A := F64c) ti_atr ti_atr_ref 8 [x; x; x] [dbl 2 0] /\
  agree (A := F64c) ti_hf ti_hf_ref 8 [x] [dbl 1 0; dbl 1 0] /\
  agree (A := F64c) ti_max ti_max_ref 8 [x] [dbl 3 0] /\ agree (A := F64c) ti_min ti_min_ref 8 [x] [dbl 3 0].
Proof. cbv zeta. repeat split; (eapply agree_by; vm_compute; reflexivity). Qed.

(** ** Exact arithmetic *)
Ltac both F G := eapply agree_by; [apply F|apply G]; eauto; try (apply RA_int; zl); try zl; try lia.
Theorem C36_er : forall size x p, zlen x = size -> 0 <= size <= INT_MAX -> 1 <= p < INT_MAX ->
  agree (A := RA) ti_er ti_er_ref size [x] [IZR p].
Proof. intros size x p Hx Hs Hp. eapply agree_by; [apply (er_fun _ _ _ p)|apply (er_ref_fun _ _ _ p)]; auto; try (apply RA_int; zl); lia. Qed.
Print Assumptions C36_er.
Theorem C36_t3 : forall size x p v, zlen x = size -> 0 <= size <= INT_MAX -> 1 <= p <= INT_MAX -> (0 <= v)%R ->
  agree (A := RA) ti_t3 ti_t3_ref size [x] [IZR p; v].
Proof. intros size x p v Hx Hs Hp Hv. both t3_fun t3_ref_fun. Qed.
Print Assumptions C36_t3.
Theorem C36_fi : forall size c v p, zlen c = size -> zlen v = size -> 0 <= size <= INT_MAX -> 1 <= p <= INT_MAX ->
  agree (A := RA) ti_fi ti_fi_ref size [c; v] [IZR p].
Proof. intros size c v p Hc Hv Hs Hp. both fi_fun fi_ref_fun. Qed.
Print Assumptions C36_fi.
Theorem C36_idwma : forall size x p e, zlen x = size -> 0 <= size <= INT_MAX -> 1 <= p <= INT_MAX -> (1 <= e <= 2)%R ->
  agree (A := RA) ti_idwma ti_idwma_ref size [x] [IZR p; e].
Proof. intros size x p e Hx Hs Hp He. eapply agree_by; [apply (idwma_fun _ _ _ _ p)|apply idwma_ref_fun]; auto; apply RA_int; zl. Qed.
Print Assumptions C36_idwma.
(** swma, every accepted period: the table against the sines. *)
Theorem C36_swma_exact : forall size x p, zlen x = size -> 0 <= size <= INT_MAX -> 1 <= p < INT_MAX -> p mod 6 <> 0 -> p mod 6 <> 5 ->
  agree (A := RA) ti_swma ti_swma_ref size [x] [IZR p].
Proof. intros size x p Hx Hs Hp H6 H5. eapply agree_by; [apply (swma_fun _ _ _ p)|apply (swma_ref_fun _ _ _ p)]; auto; apply RA_int; zl. Qed.
Print Assumptions C36_swma_exact.
Theorem C36_pvt : forall size c v, zlen c = size -> zlen v = size -> 2 <= size <= INT_MAX ->
  (forall i, 0 <= i < size -> zr v i <> 0%R /\ zr c i <> 0%R) -> agree (A := RA) ti_pvt ti_pvt_ref size [c; v] [].
Proof. intros size c v Hc Hv Hs Hz. eapply agree_by; [apply pvt_fun|apply pvt_ref_fun]; auto; try lia. intros i Hi. apply (Hz i Hi). Qed.
Print Assumptions C36_pvt.
(** evwma: volumes that are whole numbers, whose partial window sums fit an int. *)
Theorem C36_evwma : forall size c n p g, zlen c = size -> zlen n = size -> 0 <= size <= INT_MAX -> 1 <= p <= INT_MAX -> (0 < g)%R ->
  (forall i j, p <= i < size -> i - p + 1 <= j <= i + 1 -> INT_MIN <= fold_right Z.add 0 (tab (i - p + 1) j (zn 0 n)) <= INT_MAX) ->
  (forall i, p <= i < size -> zsum (i - p + 1) (i + 1) (zr (map IZR n)) <> 0%R) ->
  agree (A := RA) ti_evwma ti_evwma_ref size [c; map IZR n] [IZR p; g].
Proof.
  intros size c n p g Hc Hn Hs Hp Hg Hr Hz. eapply agree_by; [apply (evwma_fun _ _ _ _ _ p)|apply (evwma_ref_fun _ _ _ _ _ p)]; auto; try (apply RA_int; zl); try lia.
  unfold zlen in *. rewrite map_length. assumption.
Qed.
Print Assumptions C36_evwma.
Theorem C36_vi : forall size h l c p, zlen h = size -> zlen l = size -> zlen c = size -> size <= INT_MAX -> 1 <= p < size ->
  (forall k, 0 <= k < size - p -> zsum (k + 1) (k + p + 1) (vi_range h l c) <> 0%R) ->
  agree (A := RA) ti_vi ti_vi_ref size [h; l; c] [IZR p].
Proof. intros size h l c p Hh Hl Hc Hs Hp _. eapply agree_by; [apply (vi_fun _ _ _ _ _ p)|apply (vi_ref_fun _ _ _ _ _ p)]; auto; try (apply RA_int; zl); lia. Qed.
Print Assumptions C36_vi.
Theorem C36_tsi : forall size x y z, zlen x = size -> 1 <= size <= INT_MAX -> 1 <= y <= INT_MAX -> 1 <= z <= INT_MAX ->
  (forall k, 0 <= k < size - 1 -> emaR z (ema_list y (tab 0 (size - 1) (fun i => Rabs (zr x (i + 1) - zr x i)))) k <> 0%R) ->
  agree (A := RA) ti_tsi ti_tsi_ref size [x] [IZR y; IZR z].
Proof. intros size x y z Hx Hs Hy Hz _. both tsi_fun tsi_ref_fun. Qed.
Print Assumptions C36_tsi.
Theorem C36_rmi : forall size x p n, zlen x = size -> 0 <= size <= INT_MAX -> 1 <= p <= INT_MAX -> 1 <= n <= size ->
  (forall k, 0 <= k < size - n -> (emaR p (tab 0 (size - n) (rise n x)) k + emaR p (tab 0 (size - n) (fall n x)) k <> 0)%R) ->
  agree (A := RA) ti_rmi ti_rmi_ref size [x] [IZR p; IZR n].
Proof. intros size x p n Hx Hs Hp Hn _. both rmi_fun rmi_ref_fun. Qed.
Print Assumptions C36_rmi.
Theorem C36_vwap : forall size h l c v p, zlen h = size -> zlen l = size -> zlen c = size -> zlen v = size -> size <= INT_MAX -> 1 <= p <= size ->
  (forall k, 0 <= k < size - p + 1 -> zsum k (k + p) (zr v) <> 0%R) ->
  agree (A := RA) ti_vwap ti_vwap_ref size [h; l; c; v] [IZR p].
Proof. intros size h l c v p Hh Hl Hc Hv Hs Hp _. both vwap_fun vwap_ref_fun. Qed.
Print Assumptions C36_vwap.
Theorem C36_emsd : forall size x p q, zlen x = size -> 0 <= size <= INT_MAX -> 1 <= p <= INT_MAX -> 1 <= q < INT_MAX ->
  agree (A := RA) ti_emsd ti_emsd_ref size [x] [IZR p; IZR q].
Proof. intros size x p q Hx Hs Hp Hq. eapply agree_by; [apply (emsd_fun _ _ _ _ p q)|apply emsd_ref_fun]; auto; try (apply RA_int; zl); lia. Qed.
Print Assumptions C36_emsd.
Theorem C36_lma : forall size x p, zlen x = size -> size <= INT_MAX -> 1 <= p <= size + 1 -> p * (p + 1) <= INT_MAX ->
  agree (A := RA) ti_lma ti_lma_ref size [x] [IZR p].
Proof.
  intros size x p Hx Hs Hp Hq. eapply agree_by; [apply (lma_fun _ _ _ p)|apply lma_ref_fun]; auto; try lia. apply RA_int. unfold INT_MIN, INT_MAX in *. nia.
Qed.
Print Assumptions C36_lma.
Theorem C36_dwma : forall size x p, zlen x = size -> size <= INT_MAX -> 1 <= p <= size + 1 -> p * (p + 1) <= INT_MAX ->
  agree (A := RA) ti_dwma ti_dwma_ref size [x] [IZR p].
Proof.
  intros size x p Hx Hs Hp Hq. eapply agree_by; [apply (dwma_fun _ _ _ p)|apply dwma_ref_fun]; auto; try apply RA_int; unfold INT_MIN, INT_MAX in *; nia.
Qed.
Print Assumptions C36_dwma.
Theorem C36_shmma : forall size x p, zlen x = size -> 0 <= size <= INT_MAX -> 1 <= p -> (p + 1) * p <= INT_MAX ->
  agree (A := RA) ti_shmma ti_shmma_ref size [x] [IZR p].
Proof.
  intros size x p Hx Hs Hp Hq. eapply agree_by; [apply (shmma_fun _ _ _ p)|apply shmma_ref_fun]; auto; try apply RA_int; unfold INT_MIN, INT_MAX in *; nia.
Qed.
Print Assumptions C36_shmma.
Theorem C36_copp : forall size x s l w, zlen x = size -> 0 <= size <= INT_MAX -> 1 <= s <= l -> 1 <= w -> l + w <= INT_MAX -> w * (w + 1) <= INT_MAX ->
  (forall i, 0 <= i < size -> zr x i <> 0%R) -> agree (A := RA) ti_copp ti_copp_ref size [x] [IZR s; IZR l; IZR w].
Proof. intros size x s l w Hx Hs H1 H2 H3 H4 Hz. eapply agree_by; [apply copp_fun|apply copp_ref_fun]; auto. Qed.
Print Assumptions C36_copp.
Theorem C36_pfe : forall size x p q, zlen x = size -> 0 <= size <= INT_MAX -> 1 <= p < INT_MAX -> 1 <= q < INT_MAX ->
  agree (A := RA) ti_pfe ti_pfe_ref size [x] [IZR p; IZR q].
Proof. intros size x p q Hx Hs Hp Hq. eapply agree_by; [apply (pfe_fun _ _ _ _ p q)|apply pfe_ref_fun]; auto; apply RA_int; zl. Qed.
Print Assumptions C36_pfe.
Theorem C36_pbands : forall size h l c p, zlen h = size -> zlen l = size -> zlen c = size -> size <= INT_MAX -> 2 <= p <= size + 1 ->
  p * (p + 1) * (2 * p + 1) <= INT_MAX -> agree (A := RA) ti_pbands ti_pbands_ref size [h; l; c] [IZR p].
Proof.
  intros size h l c p Hh Hl Hc Hs Hp Hi. eapply agree_by; [apply (pbands_fun _ _ _ _ _ p)|apply pbands_ref_fun]; auto; try apply RA_int; unfold INT_MIN, INT_MAX in *; nia.
Qed.
Print Assumptions C36_pbands.
Theorem C36_posc : forall size h l c p q, zlen h = size -> zlen l = size -> zlen c = size -> size <= INT_MAX -> 2 <= p <= size + 1 -> 1 <= q < INT_MAX ->
  p * (p + 1) * (2 * p + 1) <= INT_MAX -> (forall k, 0 <= k < size - p + 1 -> upband p h c k <> lowband p l c k) ->
  agree (A := RA) ti_posc ti_posc_ref size [h; l; c] [IZR p; IZR q].
Proof. intros size h l c p q Hh Hl Hc Hs Hp Hq Hi _. eapply agree_by; [apply posc_fun|apply posc_ref_fun]; auto; unfold INT_MAX in *; nia. Qed.
Print Assumptions C36_posc.

(** Cases over the reals (the divisors were computed in Properties_value.v); the values are there. *)
Example C36_exact_case : agree (A := RA) ti_er ti_er_ref 4 [[1; 2; 1; 4]%R] [2%R] /\ agree (A := RA) ti_t3 ti_t3_ref 2 [[1; 3]%R] [3%R; 1%R] /\
  agree (A := RA) ti_fi ti_fi_ref 3 [[1; 3; 2]%R; [5; 2; 4]%R] [3%R] /\ agree (A := RA) ti_idwma ti_idwma_ref 2 [[3; 6]%R] [2%R; 2%R] /\
  agree (A := RA) ti_swma ti_swma_ref 16 [[1; 2; 3; 4; 5; 6; 7; 8; 1; 2; 3; 4; 5; 6; 7; 9]%R] [15%R] /\
  agree (A := RA) ti_emsd ti_emsd_ref 3 [[1; 3; 8]%R] [2%R; 1%R] /\ agree (A := RA) ti_lma ti_lma_ref 3 [[3; 6; 0]%R] [2%R] /\
  agree (A := RA) ti_dwma ti_dwma_ref 4 [[3; 6; 9; 0]%R] [2%R] /\ agree (A := RA) ti_shmma ti_shmma_ref 3 [[3; 6; 0]%R] [2%R] /\
  agree (A := RA) ti_pfe ti_pfe_ref 2 [[1; 1]%R] [1%R; 1%R] /\
  agree (A := RA) ti_pbands ti_pbands_ref 3 [[4; 7; 9]%R; [1; 0; 5]%R; [2; 4; 6]%R] [2%R].
Proof.
  split; [apply (C36_er 4 _ 2); r1|]. split; [apply (C36_t3 2 _ 3); r1|]. split; [apply (C36_fi 3 _ _ 3); r1|]. split; [apply (C36_idwma 2 _ 2); r1|].
  split; [apply (C36_swma_exact 16 _ 15); r1; discriminate|]. split; [apply (C36_emsd 3 _ 2 1); r1|]. split; [apply (C36_lma 3 _ 2); r1|].
  split; [apply (C36_dwma 4 _ 2); r1|]. split; [apply (C36_shmma 3 _ 2); r1|]. split; [apply (C36_pfe 2 _ 1 1); r1|]. apply (C36_pbands 3 _ _ _ 2); r1.
Qed.
Example C36_quotient_case : agree (A := RA) ti_vi ti_vi_ref 3 [[3; 5; 6]%R; [1; 2; 4]%R; [2; 4; 5]%R] [2%R] /\
  agree (A := RA) ti_tsi ti_tsi_ref 3 [[1; 3; 2]%R] [1%R; 3%R] /\ agree (A := RA) ti_rmi ti_rmi_ref 3 [[1; 3; 2]%R] [3%R; 1%R] /\
  agree (A := RA) ti_vwap ti_vwap_ref 3 [[3; 6; 9]%R; [0; 3; 6]%R; [3; 3; 3]%R; [1; 3; 1]%R] [2%R] /\
  agree (A := RA) ti_copp ti_copp_ref 5 [[2; 4; 4; 8; 2]%R] [1%R; 2%R; 2%R] /\
  agree (A := RA) ti_pvt ti_pvt_ref 3 [[1; 2; 1]%R; [5; 2; 4]%R] [] /\
  agree (A := RA) ti_evwma ti_evwma_ref 3 [[1; 2; 4]%R; map IZR [5; 2; 2]] [2%R; 1%R] /\
  agree (A := RA) ti_posc ti_posc_ref 3 [[4; 7; 9]%R; [1; 0; 5]%R; [2; 4; 6]%R] [2%R; 3%R].
Proof.
  split; [apply (C36_vi 3 _ _ _ 2); r1; apply (proj1 C43_vi_case)|]. split; [apply (C36_tsi 3 _ 1 3); r1; apply (proj1 C43_tsi_case)|].
  split; [apply (C36_rmi 3 _ 3 1); r1; intros k Hk; assert (E : k = 0 \/ k = 1) by lia; destruct E as [-> | ->]; nums; lra|].
  split; [apply (C36_vwap 3 _ _ _ _ 2); r1; intros k Hk; assert (E : k = 0 \/ k = 1) by lia; destruct E as [-> | ->]; nums; lra|].
  split; [apply (C36_copp 5 _ 1 2 2); r1; intros k Hk; assert (E : k = 0 \/ k = 1 \/ k = 2 \/ k = 3 \/ k = 4) by lia; destruct E as [-> | [-> | [-> | [-> | ->]]]]; nums; lra|].
  split; [apply (C36_pvt 3); r1; intros k Hk; assert (E : k = 0 \/ k = 1 \/ k = 2) by lia; destruct E as [-> | [-> | ->]]; nums; split; lra|].
  split.
  - apply (C36_evwma 3 [1; 2; 4]%R [5; 2; 2] 2 1%R); r1.
    + intros i j Hi Hj. replace i with 2 in * by lia. assert (E : j = 1 \/ j = 2 \/ j = 3) by lia. destruct E as [-> | [-> | ->]]; vm_compute; split; discriminate.
    + intros k Hk. replace k with 2 by lia. nums. lra.
  - apply (C36_posc 3 _ _ _ 2 3); r1. intros k Hk. assert (E : k = 0 \/ k = 1) by lia. destruct E as [-> | ->]; unfold upband, lowband, lr_slope; nums; lra.
Qed.

(** ** Where they disagree (binary64) *)
(** Flat or zero series: the indicator tests for zero and writes 0, the reference divides 0 by 0. *)
Theorem C36_zero_test_refuted : exists f z : list (@T F64c),
  f = [dbl 1 0; dbl 1 0; dbl 1 0; dbl 1 0] /\ z = [dbl 0 0; dbl 0 0; dbl 0 0; dbl 0 0] /\
  @ti_vi F64c 4 [f; f; f] [dbl 3 0] = Ok (OKAY, [[dbl 0 0]; [dbl 0 0]]) /\ @ti_vi_ref F64c 4 [f; f; f] [dbl 3 0] = Ok (OKAY, [[S754_nan]; [S754_nan]]) /\
  @ti_tsi F64c 2 [[dbl 1 0; dbl 1 0]] [dbl 2 0; dbl 2 0] = Ok (OKAY, [[dbl 0 0]]) /\ @ti_tsi_ref F64c 2 [[dbl 1 0; dbl 1 0]] [dbl 2 0; dbl 2 0] = Ok (OKAY, [[S754_nan]]) /\
  @ti_rmi F64c 4 [f] [dbl 2 0; dbl 3 0] = Ok (OKAY, [[dbl 0 0]]) /\ @ti_rmi_ref F64c 4 [f] [dbl 2 0; dbl 3 0] = Ok (OKAY, [[S754_nan]]) /\
  @ti_vwap F64c 4 [z; z; z; z] [dbl 4 0] = Ok (OKAY, [[dbl 0 0]]) /\ @ti_vwap_ref F64c 4 [z; z; z; z] [dbl 4 0] = Ok (OKAY, [[S754_nan]]) /\
  @ti_posc F64c 4 [f; f; f] [dbl 4 0; dbl 2 0] = Ok (OKAY, [[dbl 0 0]]) /\ @ti_posc_ref F64c 4 [f; f; f] [dbl 4 0; dbl 2 0] = Ok (OKAY, [[S754_nan]]) /\
  @ti_smi F64c 4 [f; f; f] [dbl 4 0; dbl 2 0; dbl 2 0] = Ok (OKAY, [[dbl 0 0]]) /\ @ti_smi_ref F64c 4 [f; f; f] [dbl 4 0; dbl 2 0; dbl 2 0] = Ok (OKAY, [[S754_nan]]).
Proof. do 2 eexists. do 2 (split; [reflexivity|]). vm_compute. repeat split. Qed.
Print Assumptions C36_zero_test_refuted.
(** evwma: the reference keeps the window's volume in an int, so fractional volumes are lost. *)
Theorem C36_evwma_refuted : exists c v : list (@T F64c),
  v = [dbl 5 1; dbl 5 1; dbl 5 1] /\ c = [dbl 1 0; dbl 2 0; dbl 4 0] /\
  @ti_evwma F64c 3 [c; v] [dbl 2 0; dbl 1 0] = Ok (OKAY, [[dbl 2 0; dbl 3 0]]) /\
  @ti_evwma_ref F64c 3 [c; v] [dbl 2 0; dbl 1 0] = Ok (OKAY, [[dbl 2 0; S754_nan]]).
Proof. do 2 eexists. do 2 (split; [reflexivity|]). vm_compute. split; reflexivity. Qed.
Print Assumptions C36_evwma_refuted.
(** ehma: the reference passes the fractional periods through ti_ema, which truncates them. *)
Theorem C36_ehma_refuted : exists (x : list (@T F64c)) a b, x = [dbl 1 0; dbl 2 0] /\
  @ti_ehma F64c 2 [x] [dbl 3 0] = Ok (OKAY, [a]) /\ @ti_ehma_ref F64c 2 [x] [dbl 3 0] = Ok (OKAY, [b]) /\ b = [dbl 1 0; dbl 25 1] /\ a <> b.
Proof. do 3 eexists. split; [reflexivity|]. split; [vm_compute; reflexivity|]. split; [vm_compute; reflexivity|]. split; [reflexivity|discriminate]. Qed.
Print Assumptions C36_ehma_refuted.
(** copp: one of the two old prices 0: the indicator drops both rates of change, the reference one. *)
Theorem C36_copp_refuted : exists x : list (@T F64c), x = [dbl 0 0; dbl 2 0; dbl 4 0] /\
  @ti_copp F64c 3 [x] [dbl 1 0; dbl 2 0; dbl 1 0] = Ok (OKAY, [[dbl 0 0]]) /\
  @ti_copp_ref F64c 3 [x] [dbl 1 0; dbl 2 0; dbl 1 0] = Ok (OKAY, [[dbl 50 0]]).
Proof. eexists. split; [reflexivity|]. vm_compute. split; reflexivity. Qed.
Print Assumptions C36_copp_refuted.
(** pvt: a bar without volume resets the indicator, not the reference. *)
Theorem C36_pvt_refuted : exists c v : list (@T F64c), c = [dbl 1 0; dbl 2 0; dbl 4 0] /\ v = [dbl 1 0; dbl 0 0; dbl 1 0] /\
  @ti_pvt F64c 3 [c; v] [] = Ok (OKAY, [[dbl 0 0; dbl 0 0]]) /\ @ti_pvt_ref F64c 3 [c; v] [] = Ok (OKAY, [[dbl 1 0; dbl 2 0]]).
Proof. do 2 eexists. do 2 (split; [reflexivity|]). vm_compute. split; reflexivity. Qed.
Print Assumptions C36_pvt_refuted.
(** Short series, accepted by the indicator: the reference allocates a negative size, reads outside
    the series, writes one value more, or fails its assert. *)
Theorem C36_short_refuted : exists x : list (@T F64c), x = [dbl 1 0] /\
  @ti_lma F64c 1 [x] [dbl 3 0] = Ok (OKAY, [[]]) /\ @ti_lma_ref F64c 1 [x] [dbl 3 0] = Ub BadSize /\
  @ti_dwma F64c 1 [x] [dbl 3 0] = Ok (OKAY, [[]]) /\ @ti_dwma_ref F64c 1 [x] [dbl 3 0] = Ub BadSize /\
  @ti_cmi F64c 1 [x; x; x] [dbl 3 0] = Ok (OKAY, [[]]) /\ @ti_cmi_ref F64c 1 [x; x; x] [dbl 3 0] = Ub BadSize /\
  @ti_pbands F64c 1 [x; x; x] [dbl 3 0] = Ok (OKAY, [[]; []]) /\ @ti_pbands_ref F64c 1 [x; x; x] [dbl 3 0] = Ub BadSize /\
  @ti_pvt F64c 1 [x; x] [] = Ok (OKAY, [[]]) /\ @ti_pvt_ref F64c 1 [x; x] [] = Ub OobRead /\
  @ti_vwap F64c 1 [x; x; x; x] [dbl 2 0] = Ok (OKAY, [[]]) /\ @ti_vwap_ref F64c 1 [x; x; x; x] [dbl 2 0] = Ok (OKAY, [[dbl 1 0]]) /\
  @ti_abands F64c 1 [x; x; x] [dbl 3 0] = Ok (OKAY, [[]; []; []]) /\ @ti_abands_ref F64c 1 [x; x; x] [dbl 3 0] = Ub Assert.
Proof. eexists. split; [reflexivity|]. vm_compute. repeat split. Qed.
Print Assumptions C36_short_refuted.
(** Fractional period, accepted by the indicator: lma_ref's vectors are too short. *)
Theorem C36_fraction_refuted : exists x : list (@T F64c), x = [dbl 1 0; dbl 2 0; dbl 4 0] /\
  (exists y, @ti_lma F64c 3 [x] [dbl 25 1] = Ok (OKAY, [y])) /\ @ti_lma_ref F64c 3 [x] [dbl 25 1] = Ub OobRead.
Proof. eexists. split; [reflexivity|]. split; [eexists; vm_compute; reflexivity|vm_compute; reflexivity]. Qed.
Print Assumptions C36_fraction_refuted.

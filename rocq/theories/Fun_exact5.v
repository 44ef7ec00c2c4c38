(** What the remaining reference implementations compute, over the reals (for C36). *)
From Verif Require Export Fun_exact4 Fun_rank C_stream8.
From Verif Require Import Rank64 Properties_stream5.
From Coq Require Import Reals Lra Permutation.

Section R.
Local Existing Instance RA.

(** ** The middle of 2k+1 values is unique. *)
Lemma filter_part (w : list R) (f : R -> bool) : (length (filter f w) + length (filter (fun u => negb (f u)) w) = length w)%nat.
Proof. induction w as [|a w IH]; [reflexivity|]. cbn. destruct (f a); cbn; lia. Qed.
Lemma filter_le (w : list R) (f g : R -> bool) : (forall u, f u = true -> g u = true) -> (length (filter f w) <= length (filter g w))%nat.
Proof. intros H. induction w as [|a w IH]; [apply le_n|]. cbn. destruct (f a) eqn:E; [rewrite (H a E); cbn; lia|]. destruct (g a); cbn; lia. Qed.
Lemma middle_le k (w : list R) (v v' : R) : zlen w = 2 * k + 1 -> @middle RA k w v -> @middle RA k w v' -> (v' <= v)%R.
Proof.
  intros Hw (_ & _ & H2) (_ & H3 & _). destruct (Rle_or_lt v' v) as [L|L]; [exact L|]. exfalso.
  pose proof (filter_part w (fun u => Rltb v u)) as P. assert (Q : (length (filter (fun u => negb (Rltb v u)) w) <= length (filter (fun u => Rltb u v') w))%nat).
  { apply filter_le. intros u Hu. destruct (Rltb_spec v u); [discriminate|]. destruct (Rltb_spec u v'); [reflexivity|lra]. }
  change (zlen (filter (fun u => Rltb v u) w) <= k) in H2. change (zlen (filter (fun u => Rltb u v') w) <= k) in H3. unfold zlen in *. lia.
Qed.
Lemma middle_eq k (w : list R) (v v' : R) : zlen w = 2 * k + 1 -> @middle RA k w v -> @middle RA k w v' -> v = v'.
Proof. intros Hw H H'. apply Rle_antisym; eapply middle_le; eassumption. Qed.
Lemma mad_eq k (w : list R) (m m' d d' : R) : zlen w = 2 * k + 1 -> @mad RA k w m d -> @mad RA k w m' d' -> m = m' /\ d = d'.
Proof.
  intros Hw (M & D) (M' & D'). assert (m = m') as <- by (eapply middle_eq; eassumption). split; [reflexivity|].
  eapply middle_eq; [|exact D|exact D']. unfold zlen in *. rewrite map_length. exact Hw.
Qed.

(** ** hfsma and hfema *)
Lemma tab_move lo hi d n (g : Z -> R) : hi = lo + n -> d = 0 -> tab lo hi g = tab d (n - d) (fun j => g (lo + j)).
Proof.
  intros -> ->. apply (list_eq_zn 0%R); rewrite !zlen_tab; [lia|]. intros i Hi. rewrite !zn_tab by lia. try (f_equal; lia).
Qed.
Definition hfs_pick (t : R) (c m d : R) : R := if Rleb (Rabs (c - m)) (t * (14826 / 10000) * d) then c else m.
Definition hfs_rule (k : Z) (t : R) (g : Z -> R) (j : Z) (v : R) : Prop := exists m d, @mad RA k (tab j (j + 2 * k + 1) g) m d /\ v = hfs_pick t (g (j + k)) m d.
Lemma hfs_rule_eq k t g g' j v v' : (forall i, j <= i <= j + 2 * k -> g i = g' i) -> 0 <= k -> hfs_rule k t g j v -> hfs_rule k t g' j v' -> v = v'.
Proof.
  intros E Hk (m & d & M & ->) (m' & d' & M' & ->). rewrite (tab_ext _ _ g g') in M by (intros; apply E; lia). rewrite E by lia.
  destruct (mad_eq k (tab j (j + 2 * k + 1) g') m m' d d' ltac:(rewrite zlen_tab; lia) M M') as [-> ->]. reflexivity.
Qed.
Lemma hfs_ref_out_R k (t : R) g j : 1 <= k -> exists v, @hfs_ref_out RA k t (tab j (j + 2 * k + 1) g) (g (j + k)) = Ok v /\ hfs_rule k t g j v.
Proof.
  intros Hk. set (w := tab j (j + 2 * k + 1) g). assert (Gw : Forall (fun _ : R => True) w) by (apply Forall_forall; intros; exact I).
  destruct (sort_sorted _ _ RA_rank w Gw) as (S1 & S2 & S3). set (s := fold_right (@ms_ins RA) [] w) in *.
  destruct (mad_ok _ _ RA_rank _ RA_ord (fun _ _ _ _ => I) k s g j (j + 2 * k + 1) Hk ltac:(lia)) as (m & d & Em & Ed & M).
  { split; [exact S1|]. split; [exact S2|]. fold w. rewrite !map_id. exact S3. }
  exists (hfs_pick t (g (j + k)) m d). split.
  - unfold hfs_ref_out, std_sort at 1. assert (F : forall l : list R, forallb (fun x => @fle RA x x) l = true).
    { intros l. apply forallb_forall. intros z _. cbn. destruct (Rleb_spec z z); [reflexivity|lra]. }
    rewrite F. cbn [check bind]. fold s. rewrite Em. cbn [bind]. unfold median_deviation in Ed. destruct (zlen s =? 2 * k + 1); [|discriminate]. cbn [check bind] in Ed. unfold nth_elem in Ed.
    destruct (std_sort (map (fun p => @fabs RA (@fsub RA p m)) s)) as [l|]; [|discriminate]. cbn [bind] in *. rewrite Ed. cbn [bind]. reflexivity.
  - exists m, d. split; [apply M; reflexivity|reflexivity].
Qed.
Lemma hfs_ref_R k (t : R) (sm : list R) len : 1 <= k -> len <= zlen sm -> exists y, @hfs_ref RA k t sm len = Ok y /\ zlen y = Z.max 0 (len - 2 * k) /\
  forall j, 0 <= j < zlen y -> hfs_rule k t (zr sm) j (zr y j).
Proof.
  intros Hk Hl. destruct (Z.le_gt_cases len (2 * k)) as [L|L].
  { exists []. split; [unfold hfs_ref; rewrite for_nil by lia; reflexivity|]. split; [unfold zlen; cbn [length]; lia|]. intros j Hj. unfold zlen in Hj; cbn [length] in Hj. lia. }
  apply (zind (fun n => n <= len -> exists y, @hfs_ref RA k t sm n = Ok y /\ zlen y = Z.max 0 (n - 2 * k) /\ forall j, 0 <= j < zlen y -> hfs_rule k t (zr sm) j (zr y j)) (2 * k) len ltac:(lia)); [| |lia].
  - intros _. exists []. split; [unfold hfs_ref; rewrite for_nil by lia; reflexivity|]. split; [unfold zlen; cbn [length]; lia|]. intros j Hj. unfold zlen in Hj; cbn [length] in Hj. lia.
  - intros n Hn IH Hle. destruct IH as (y & E & Ly & V); [lia|]. unfold hfs_ref in *. rewrite for_snoc by lia. rewrite E. cbn [bind].
    rewrite (@for_tab RA 0 (2 * k + 1) _ (fun j => zr sm (n - 2 * k + j))).
    2: { intros i o Hi. rewrite rdr by lia. cbn [bind]. rewrite Z.sub_0_r. reflexivity. }
    cbn [bind]. rewrite rdr by lia. cbn [bind]. destruct (hfs_ref_out_R k t (zr sm) (n - 2 * k) Hk) as (v & Ev & Rv).
    replace (n - 2 * k + k) with (n - k) in Ev by lia.
    change (@T RA) with R in *. rewrite (tab_move (n - 2 * k) (n - 2 * k + 2 * k + 1) 0 (2 * k + 1) (zr sm)) in Ev by lia.
    rewrite Ev. cbn [bind]. exists (y ++ [v]). split; [reflexivity|]. rewrite zlen_app. change (zlen [v]) with 1. split; [lia|]. intros j Hj.
    destruct (Z.eq_dec j (n - 2 * k)) as [->|N].
    + unfold zn. rewrite app_nth2 by (unfold zlen in *; lia). replace (Z.to_nat (n - 2 * k) - length y)%nat with 0%nat by (unfold zlen in *; lia). exact Rv.
    + unfold zn at 2. rewrite app_nth1 by (unfold zlen in *; lia). apply V. lia.
Qed.
Lemma hfs_lists k t (g : Z -> R) (y y' : list R) : 0 <= k -> zlen y = zlen y' -> (forall j, 0 <= j < zlen y -> hfs_rule k t g j (zr y j)) -> (forall j, 0 <= j < zlen y' -> hfs_rule k t g j (zr y' j)) -> y = y'.
Proof. intros Hk L V V'. apply (list_eq_zn 0%R); [exact L|]. intros i Hi. eapply hfs_rule_eq; [reflexivity|exact Hk|apply V; lia|apply V'; lia]. Qed.
Lemma hfs_rule_ext k t g g' j v : (forall i, j <= i <= j + 2 * k -> g i = g' i) -> 0 <= k -> hfs_rule k t g j v -> hfs_rule k t g' j v.
Proof. intros E Hk (m & d & M & ->). exists m, d. rewrite (tab_ext _ _ g g') in M by (intros; apply E; lia). split; [exact M|]. rewrite E by lia. reflexivity. Qed.
Lemma hfsma_agree size (x : list R) p k t : zlen x = size -> 0 <= size <= INT_MAX -> 1 <= p <= INT_MAX -> 1 <= k -> 2 * k + 1 <= INT_MAX -> p - 1 + 2 * k <= INT_MAX -> (0 <= t)%R ->
  exists y, @ti_hfsma RA size [x] [IZR p; IZR k; t] = Ok (OKAY, [y]) /\ @ti_hfsma_ref RA size [x] [IZR p; IZR k; t] = Ok (OKAY, [y]).
Proof.
  intros Hx Hs Hp Hk Hk2 Hpk Ht. assert (Op : @to_int RA (IZR p) = Some p) by (apply (@to_int_of_Z RA RA_laws p); zl). assert (Ok' : @to_int RA (IZR k) = Some k) by (apply (@to_int_of_Z RA RA_laws k); zl).
  assert (Ft : @flt RA t (@of_Z RA 0) = false) by (cbn; destruct (Rltb_spec t 0); [lra|reflexivity]).
  destruct (@hfsma_values RA _ RA_rank _ RA_ord (fun _ _ _ _ => I) p size x (IZR p) (IZR k) t k) as (y & E & L & V); try assumption; try lia; try (intros; exact I).
  set (sm := tab 0 (size - p + 1) (fun k => mean (window k p x))). assert (Ls : zlen sm = Z.max 0 (size - p + 1)) by (unfold sm; rewrite zlen_tab; lia).
  destruct (hfs_ref_R k t sm (size - (p - 1)) Hk ltac:(lia)) as (y' & E' & L' & V').
  assert (G : forall i, 0 <= i < size - p + 1 -> @hs_at RA p x (i + p - 1) = zr sm i).
  { intros i Hi. unfold sm. rewrite zr_tab by lia. unfold hs_at. rewrite hs_sum_R by lia. rewrite Z.max_r by lia. unfold mean. rewrite Rsum_window, zlen_window by lia.
    replace (i + p - 1 - p + 1) with i by lia. cbn. f_equal. replace (zsum i (i + p) (zr x)) with (zsum i (i + p - 1 + 1) (zr x)) by (f_equal; lia). rewrite zsum_snoc by lia. reflexivity. }
  exists y. split; [exact E|]. change (@T RA) with R in *. assert (Ey : y' = y).
  { apply (hfs_lists k t (zr sm)); [lia|lia|exact V'|]. intros j Hj. destruct (V j Hj) as (m & d & M & Ev). exists m, d. split.
    - replace (tab j (j + 2 * k + 1) (zr sm)) with (tab (j + p - 1) (j + p + 2 * k) (@hs_at RA p x)); [exact M|].
      apply (list_eq_zn 0%R); rewrite !zlen_tab; [lia|]. intros i Hi. rewrite !zn_tab by lia. rewrite <- G by lia. f_equal. lia.
    - change (@zf RA y j) with (zr y j) in Ev. rewrite Ev. cbv zeta. replace (j + p - 1 + k) with (j + k + p - 1) by lia. rewrite G by lia. reflexivity. }
  unfold ti_hfsma_ref. rewrite !cast_IZR by zl. cbn [bind]. replace (p <? 1) with false by lia. replace (k <? 1) with false by lia. rewrite Ft.
  rewrite (sma_fun size x _ p) by (assumption || lia). cbn [bind nth]. rewrite ck_ok by zl. cbn [bind]. unfold start_p1. rewrite cast_IZR by zl. cbn [bind]. rewrite ck_ok by zl. cbn [bind]. fold sm. rewrite E'. cbn [bind]. rewrite Ey. reflexivity.
Qed.
Lemma hfema_agree size (x : list R) p k t : zlen x = size -> 0 <= size <= INT_MAX -> 1 <= p <= INT_MAX -> 1 <= k -> 2 * k + 1 <= INT_MAX -> (0 <= t)%R ->
  exists y, @ti_hfema RA size [x] [IZR p; IZR k; t] = Ok (OKAY, [y]) /\ @ti_hfema_ref RA size [x] [IZR p; IZR k; t] = Ok (OKAY, [y]).
Proof.
  intros Hx Hs Hp Hk Hk2 Ht. assert (Op : @to_int RA (IZR p) = Some p) by (apply (@to_int_of_Z RA RA_laws p); zl). assert (Ok' : @to_int RA (IZR k) = Some k) by (apply (@to_int_of_Z RA RA_laws k); zl).
  assert (Ft : @flt RA t (@of_Z RA 0) = false) by (cbn; destruct (Rltb_spec t 0); [lra|reflexivity]).
  destruct (@hfema_values RA _ RA_rank _ RA_ord (fun _ _ _ _ => I) p size x (IZR p) (IZR k) t k) as (y & E & L & V); try assumption; try lia; try (intros; exact I).
  set (sm := ema_list p x). assert (Ls : zlen sm = size) by (unfold sm; rewrite ema_list_len; exact Hx).
  destruct (hfs_ref_R k t sm size Hk ltac:(lia)) as (y' & E' & L' & V').
  assert (G : forall i, 0 <= i < size -> @he_at RA p x i = zr sm i).
  { intros i Hi. unfold sm. rewrite zr_ema by lia. apply (zind (fun i => i < size -> @he_at RA p x i = emaR p x i) 0 i ltac:(lia)); [| |lia].
    - intros _. rewrite emaR_0. apply (@he_at_0 RA).
    - intros n Hn IH Hlt. rewrite (@he_at_S RA) by lia. rewrite emaR_S by lia. replace (n + 1 - 1) with n by lia. rewrite IH by lia. toR. unfold Rdiv. replace (1 + IZR p)%R with (IZR p + 1)%R by ring. ring. }
  exists y. split; [exact E|]. change (@T RA) with R in *. assert (Ey : y' = y).
  { apply (hfs_lists k t (zr sm)); [lia|lia|exact V'|]. intros j Hj. destruct (V j Hj) as (m & d & M & Ev). exists m, d. split.
    - rewrite <- (tab_ext _ _ (@he_at RA p x)); [exact M|]. intros i Hi. apply G. lia.
    - change (@zf RA y j) with (zr y j) in Ev. rewrite Ev. cbv zeta. rewrite G by lia. reflexivity. }
  unfold ti_hfema_ref. rewrite !cast_IZR by zl. cbn [bind]. replace (p <? 1) with false by lia. replace (k <? 1) with false by lia. rewrite Ft.
  rewrite (ema_list_fun size x _ p) by (assumption || lia). cbn [bind nth]. rewrite ck_ok by zl. cbn [bind]. fold sm. rewrite E'. cbn [bind]. rewrite Ey. reflexivity.
Qed.
End R.

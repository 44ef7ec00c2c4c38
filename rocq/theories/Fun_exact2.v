(** What the streamed indicators compute, in exact real arithmetic: vi, tsi, rmi, vwap, emsd, shmma. *)
From Verif Require Export Fun_exact.
From Verif Require Import M_stream4 M_stream5.
From Coq Require Import Reals Lra.
Open Scope Z_scope.
Section R.
Local Existing Instance RA.

(** vi *)
Lemma fmaxf_R (a b : R) : @fmaxf RA a b = Rmax a b.
Proof.
  unfold fmaxf. cbn. unfold Rmax. repeat match goal with |- context[Reqb ?x ?x] => destruct (Reqb_spec x x); [|congruence] end. cbn [negb].
  repeat match goal with |- context[Rltb ?x ?y] => destruct (Rltb_spec x y) end; destruct (Rle_dec a b); lra.
Qed.
Lemma vi_terms_R (h l c : list R) i size : zlen h = size -> zlen l = size -> zlen c = size -> 1 <= i < size ->
  @vi_terms RA h l c i = Ok (vi_up h l i, vi_down h l i, vi_range h l c i).
Proof. intros. unfold vi_terms. rewrite !rdr by lia. cbn [bind]. unfold vi_tr. rewrite !fmaxf_R. reflexivity. Qed.
Lemma vi_fun size (h l c : list R) o p : zlen h = size -> zlen l = size -> zlen c = size -> 0 <= size <= INT_MAX -> @to_int RA o = Some p -> 1 <= p < size ->
  @ti_vi RA size [h; l; c] [o] = Ok (OKAY, [tab 0 (size - p) (vi_at (vi_up h l) (vi_range h l c) p); tab 0 (size - p) (vi_at (vi_down h l) (vi_range h l c) p)]).
Proof.
  intros Hh Hl Hc Hs Ho Hp. unfold ti_vi, cast. rewrite Ho. cbn [bind]. replace ((p <? 1) || (p >=? size))%bool with false by lia.
  set (u := vi_up h l). set (d := vi_down h l). set (r := vi_range h l c).
  set (St := fun i => (zsum (Z.max 1 (i - p)) i u, zsum (Z.max 1 (i - p)) i d, zsum (Z.max 1 (i - p)) i r)).
  apply (@batch_tab RA _ (fun i s => s = St i) [vi_at u r p; vi_at d r p] p); [lia|lia|unfold St; rewrite !zsum_nil by lia; reflexivity|].
  assert (W : forall f i, p <= i -> vi_at f r p (i - p) = (zsum (i + 1 - p) (i + 1) f / zsum (i + 1 - p) (i + 1) r)%R).
  { intros f i Hi. unfold vi_at. replace (i - p + p + 1) with (i + 1) by lia. replace (i - p + 1) with (i + 1 - p) by lia. reflexivity. }
  assert (Rt : forall a b, @vi_ratio RA a b = (a / b)%R) by (intros a b; unfold vi_ratio; apply truth_div).
  intros i s Hi ->. disp. destruct (i <? 1) eqn:E1; [|destruct (i <? p) eqn:E2; [|destruct (i <? p + 1) eqn:E3]].
  - replace (i <? p) with true by lia. cbn [skip wp fst snd map repeat]. split; [reflexivity|]. unfold St. rewrite !zsum_nil by lia. reflexivity.
  - rewrite (vi_terms_R _ _ _ _ size) by lia. fold u d r. cbn [bind wp fst snd map]. unfold St. cbn [wp fst snd]. split; [reflexivity|].
    replace (Z.max 1 (i + 1 - p)) with 1 by lia. replace (Z.max 1 (i - p)) with 1 by lia. rewrite !zsum_snoc by lia. reflexivity.
  - assert (i = p) as -> by lia. rewrite (vi_terms_R _ _ _ _ size) by lia. fold u d r. unfold St. cbn [bind wp fst snd map]. rewrite !W, !Rt by lia.
    replace (Z.max 1 (p + 1 - p)) with 1 by lia. replace (Z.max 1 (p - p)) with 1 by lia. replace (p + 1 - p) with 1 by lia.
    rewrite !zsum_snoc by lia. split; reflexivity.
  - rewrite !(vi_terms_R _ _ _ _ size) by lia. fold u d r. unfold St. cbn [bind wp fst snd map]. rewrite !W, !Rt by lia.
    replace (Z.max 1 (i + 1 - p)) with (i + 1 - p) by lia. replace (Z.max 1 (i - p)) with (i - p) by lia.
    rewrite !zsum_roll by lia.
    assert (EE : forall a b e : R, @fadd RA (@fsub RA a b) e = (a + e - b)%R) by (intros; toR; ring). rewrite !EE. split; reflexivity.
Qed.
Lemma vi_ref_fun size (h l c : list R) o p : zlen h = size -> zlen l = size -> zlen c = size -> 0 <= size <= INT_MAX -> @to_int RA o = Some p -> 1 <= p < size ->
  @ti_vi_ref RA size [h; l; c] [o] = Ok (OKAY, [tab 0 (size - p) (vi_at (vi_up h l) (vi_range h l c) p); tab 0 (size - p) (vi_at (vi_down h l) (vi_range h l c) p)]).
Proof.
  intros Hh Hl Hc Hs Ho Hp. unfold ti_vi_ref, cast. rewrite Ho. cbn [bind]. replace ((p <? 1) || (p >=? size))%bool with false by lia.
  set (u := vi_up h l). set (d := vi_down h l). set (r := vi_range h l c).
  assert (W : forall f i, p <= i -> vi_at f r p (i - p) = (zsum (i + 1 - p) (i + 1) f / zsum (i + 1 - p) (i + 1) r)%R).
  { intros f i Hi. unfold vi_at. replace (i - p + p + 1) with (i + 1) by lia. replace (i - p + 1) with (i + 1 - p) by lia. reflexivity. }
  set (Z0 := fun f i => if i =? 0 then 0%R else f i).
  assert (T1 : forall f m, 1 <= m -> tab 0 (m + 1) (Z0 f) = tab 0 m (Z0 f) ++ [f m]) by (intros f m Hm; rewrite tab_snoc by lia; unfold Z0 at 2; replace (m =? 0) with false by lia; reflexivity).
  match goal with |- (let* _ := for_ 1 size ?f ?s0 in _) = _ =>
    destruct (for_rel (fun i (s : list (@T RA) * list (@T RA) * list (@T RA)) (_ : unit) => s = (tab 0 i (Z0 u), tab 0 i (Z0 d), tab 0 i (Z0 r))) 1 size f (fun _ s => Ok s) s0 tt) as (s' & [] & -> & _ & ->) end.
  { lia. } { reflexivity. }
  { intros i s [] Hi ->. rewrite (vi_terms_R _ _ _ _ size) by lia. fold u d r. cbn [bind wp]. rewrite !T1 by lia. reflexivity. }
  cbn [bind].
  assert (RD : forall f i, 1 <= i < size -> @rd R (tab 0 size (Z0 f)) i = Ok (f i)).
  { intros f i Hi. rewrite rdr by (rewrite zlen_tab; lia). rewrite zr_tab by lia. unfold Z0. replace (i =? 0) with false by lia. reflexivity. }
  match goal with |- (let* _ := for_ 1 (p + 1) ?f ?s0 in _) = _ =>
    destruct (for_rel (fun i (s : @T RA * @T RA * @T RA) (_ : unit) => s = (zsum 1 i u, zsum 1 i d, zsum 1 i r)) 1 (p + 1) f (fun _ s => Ok s) s0 tt) as (s' & [] & -> & _ & ->) end.
  { lia. } { rewrite !zsum_nil by lia. reflexivity. }
  { intros i s [] Hi ->. rewrite !RD by lia. cbn [bind wp]. rewrite !zsum_snoc by lia. reflexivity. }
  cbn [bind].
  match goal with |- (let* _ := for_ (p + 1) size ?f ?s0 in _) = _ =>
    destruct (for_rel (fun i (s : (@T RA * @T RA * @T RA) * list (@T RA) * list (@T RA)) (_ : unit) =>
      s = ((zsum (i - p) i u, zsum (i - p) i d, zsum (i - p) i r), tab 0 (i - p) (vi_at u r p), tab 0 (i - p) (vi_at d r p))) (p + 1) size f (fun _ s => Ok s) s0 tt) as (s' & [] & -> & _ & ->) end.
  { lia. }
  { replace (p + 1 - p) with 1 by lia. reflexivity. }
  { intros i s [] Hi ->. rewrite !RD by lia. cbn [bind wp].
    assert (EE : forall a b e : R, @fadd RA (@fsub RA a b) e = (a + e - b)%R) by (intros; toR; ring). rewrite !EE.
    replace (i + 1 - p) with (i - p + 1) by lia. rewrite !tab_snoc by lia. rewrite !W by lia.
    replace (i - p + 1) with (i + 1 - p) by lia. rewrite !zsum_roll by lia. reflexivity. }
  reflexivity.
Qed.

(** tsi *)
Lemma truth_div' (a b : R) : (if @truth RA b then @fdiv RA a b else @of_Z RA 0) = (a / b)%R.
Proof. unfold truth. toR. destruct (Reqb_spec b 0) as [->|N]; cbn [negb]; [|reflexivity]. unfold Rdiv. rewrite Rinv_0. ring. Qed.
Lemma flt_IZR_1 p : 1 <= p -> @flt RA (IZR p) (@of_Z RA 1) = false.
Proof. intros. cbn; destruct (Rltb_spec (IZR p) 1) as [C|]; [apply lt_IZR in C; lia|reflexivity]. Qed.
Lemma emaR_step p x i d : 1 <= i -> d = zr x i -> @fadd RA (@fdiv RA (@fmul RA (@fsub RA d (emaR p x (i - 1))) (@of_Z RA 2)) (@fadd RA (@of_Z RA 1) (IZR p))) (emaR p x (i - 1)) = emaR p x i.
Proof. intros Hi ->. rewrite (emaR_S' p x i) by lia. toR. unfold Rdiv. rewrite (Rplus_comm 1). ring. Qed.
Lemma tsi_fun size (x : list R) y z : zlen x = size -> 0 <= size <= INT_MAX -> 1 <= y -> 1 <= z ->
  @ti_tsi RA size [x] [IZR y; IZR z] = Ok (OKAY, [tab 0 (size - 1) (tsi_at y z x)]).
Proof.
  intros Hx Hs Hy Hz. unfold ti_tsi. rewrite !flt_IZR_1 by lia.
  set (m := tab 0 (zlen x - 1) (fun i => (zr x (i + 1) - zr x i)%R)). set (a := tab 0 (zlen x - 1) (fun i => Rabs (zr x (i + 1) - zr x i))).
  assert (Hm : forall i, 1 <= i < size -> zr m (i - 1) = (zr x i - zr x (i - 1))%R) by (intros i Hi; unfold m; rewrite zr_tab by lia; replace (i - 1 + 1) with i by lia; reflexivity).
  assert (Ha : forall i, 1 <= i < size -> zr a (i - 1) = Rabs (zr x i - zr x (i - 1))) by (intros i Hi; unfold a; rewrite zr_tab by lia; replace (i - 1 + 1) with i by lia; reflexivity).
  assert (Lm : zlen m = Z.max 0 (size - 1)) by (unfold m; rewrite zlen_tab; lia). assert (La : zlen a = Z.max 0 (size - 1)) by (unfold a; rewrite zlen_tab; lia).
  set (St := fun i => (emaR y m i, emaR z (ema_list y m) i, emaR y a i, emaR z (ema_list y a) i)).
  apply (@batch_tab RA _ (fun i s => (1 <= i -> fst s = Some (zr x (i - 1))) /\ (2 <= i -> snd s = Some (St (i - 2)))) [tsi_at y z x] 1); [lia|lia|split; lia|].
  intros i [pr e] Hi [E1 E2]. cbn [fst snd] in E1, E2. disp. destruct (i <? 1) eqn:F1; [|destruct (i <? 2) eqn:F2].
  - rewrite !rdr by lia. cbn [bind wp fst snd map]. split; [reflexivity|]. split; [intros _; replace (i + 1 - 1) with i by lia; reflexivity|lia].
  - rewrite !rdr by lia. rewrite E1 by lia. cbn [bind val wp fst snd map]. assert (i = 1) as -> by lia.
    assert (Es : St 0 = ((zr x 1 - zr x (1 - 1))%R, (zr x 1 - zr x (1 - 1))%R, Rabs (zr x 1 - zr x (1 - 1)), Rabs (zr x 1 - zr x (1 - 1)))).
    { unfold St. rewrite !emaR_0, !zr_ema, !emaR_0 by lia. pose proof (Hm 1 ltac:(lia)) as Q1. pose proof (Ha 1 ltac:(lia)) as Q2. change (1 - 1) with 0 in *. rewrite Q1, Q2. reflexivity. }
    rewrite truth_div'. change (1 + 1 - 2) with 0. rewrite Es. split.
    + unfold tsi_at. fold m a. unfold St in Es. change (1 - 1) with 0 in *. injection Es as _ Q1 _ Q2. rewrite Q1, Q2. reflexivity.
    + split; reflexivity.
  - rewrite !rdr by lia. rewrite E1, E2 by lia. cbn [bind val wp fst snd map]. unfold St. replace (i - 2) with (i - 1 - 1) by lia.
    rewrite !(emaR_step y) by (try (rewrite ?Hm, ?Ha by lia); lia || reflexivity).
    rewrite !(emaR_step z) by (try (rewrite zr_ema by lia); lia || reflexivity).
    rewrite truth_div'. cbn [wp fst snd]. split; [reflexivity|]. split; [replace (i + 1 - 1) with i by lia; reflexivity|].
    intros _. replace (i + 1 - 2) with (i - 1) by lia. reflexivity.
Qed.
Lemma tsi_ref_fun size (x : list R) y z : zlen x = size -> 1 <= size <= INT_MAX -> 1 <= y <= INT_MAX -> 1 <= z <= INT_MAX ->
  @ti_tsi_ref RA size [x] [IZR y; IZR z] = Ok (OKAY, [tab 0 (size - 1) (tsi_at y z x)]).
Proof.
  intros Hx Hs Hy Hz. unfold ti_tsi_ref. rewrite !flt_IZR_1 by lia. replace (0 <=? size - 1) with true by lia. cbn [check bind]. unfold call1.
  assert (Oy : @to_int RA (IZR y) = Some y) by (apply (@to_int_of_Z RA RA_laws y); zl). assert (Oz : @to_int RA (IZR z) = Some z) by (apply (@to_int_of_Z RA RA_laws z); zl).
  rewrite (@mom_fun RA RA_laws size x (@of_Z RA 1) 1) by (try assumption; try lia; apply (@to_int_of_Z RA RA_laws 1); zl). cbn [bind]. rewrite rd1. cbn [bind].
  set (m := tab 0 (zlen x - 1) (fun i => (zr x (i + 1) - zr x i)%R)). set (a := tab 0 (zlen x - 1) (fun i => Rabs (zr x (i + 1) - zr x i))).
  assert (Lm : zlen m = size - 1) by (unfold m; rewrite zlen_tab; lia). assert (La : zlen a = size - 1) by (unfold a; rewrite zlen_tab; lia).
  change (tab 0 (size - 1) (fun k => @fsub RA (@zf RA x (k + 1)) (@zf RA x k))) with (tab 0 (size - 1) (fun i => (zr x (i + 1) - zr x i)%R)).
  replace (tab 0 (size - 1) (fun i => (zr x (i + 1) - zr x i)%R)) with m by (unfold m; rewrite Hx; reflexivity).
  unfold ti_abs. rewrite (@SIMPLE1_fun RA _ (size - 1) m (fun i => Rabs (zr m i))) by (try exact Lm; try lia; reflexivity).
  cbn [bind]. rewrite rd1. cbn [bind]. change (@T RA) with R. replace (tab 0 (size - 1) (fun i => Rabs (zr m i))) with a.
  2:{ unfold a. rewrite Hx. apply tab_ext. intros i Hi. unfold m. rewrite zr_tab by lia. reflexivity. }
  rewrite !(ema_list_fun (size - 1) m _ y) by (assumption || lia). cbn [bind]. rewrite rd1. cbn [bind].
  rewrite !(ema_list_fun (size - 1) (ema_list y m) _ z) by (rewrite ?ema_list_len; assumption || lia). cbn [bind]. rewrite rd1. cbn [bind].
  rewrite !(ema_list_fun (size - 1) a _ y) by (assumption || lia). cbn [bind]. rewrite rd1. cbn [bind].
  rewrite !(ema_list_fun (size - 1) (ema_list y a) _ z) by (rewrite ?ema_list_len; assumption || lia). cbn [bind]. rewrite rd1. cbn [bind].
  rewrite (@for_tab RA 0 (size - 1) _ (tsi_at y z x)).
  - cbn [bind]. do 3 f_equal. apply tab_eq; lia.
  - intros i o Hi. rewrite !rdr by (rewrite !ema_list_len; lia). rewrite !zr_ema by (rewrite ema_list_len; lia). cbn [bind]. rewrite Z.sub_0_r.
    unfold tsi_at. fold m a. toR. unfold Rdiv. rewrite Rmult_assoc. reflexivity.
Qed.

(** rmi *)
Lemma MAXf_R (a b : R) : @MAXf RA a b = Rmax a b.
Proof. unfold MAXf. cbn. unfold Rmax. destruct (Rltb_spec b a), (Rle_dec a b); lra. Qed.
Lemma rmi_out_R (g l : R) : @rmi_out RA g l = (g / (g + l) * 100)%R.
Proof. unfold rmi_out, truth. toR. destruct (Reqb_spec g 0) as [->|N]; cbn [negb]; [|reflexivity]. unfold Rdiv. ring. Qed.
Lemma rmi_fun size (x : list R) p n : zlen x = size -> 0 <= size <= INT_MAX -> 1 <= p -> 1 <= n <= INT_MAX ->
  @ti_rmi RA size [x] [IZR p; IZR n] = Ok (OKAY, [tab 0 (size - n) (rmi_at p n x)]).
Proof.
  intros Hx Hs Hp Hn. unfold ti_rmi. rewrite !flt_IZR_1 by lia.
  replace (@flt RA (@of_Z RA size) (@fadd RA (IZR n) (@of_Z RA 1))) with (size <? n + 1)
    by (cbn; rewrite <- plus_IZR; destruct (Rltb_spec (IZR size) (IZR (n + 1))) as [C|C]; [apply lt_IZR in C; lia|apply Rnot_lt_le, le_IZR in C; lia]).
  destruct (size <? n + 1) eqn:E; [rewrite tab_nil by lia; reflexivity|]. rewrite cast_IZR by zl. cbn [bind].
  set (G := tab 0 (zlen x - n) (rise n x)). set (L := tab 0 (zlen x - n) (fall n x)).
  assert (HG : forall i, n <= i < size -> zr G (i - n) = Rmax 0 (zr x i - zr x (i - n))) by (intros i Hi; unfold G; rewrite zr_tab by lia; unfold rise; replace (i - n + n) with i by lia; reflexivity).
  assert (HL : forall i, n <= i < size -> zr L (i - n) = Rmax 0 (zr x (i - n) - zr x i)) by (intros i Hi; unfold L; rewrite zr_tab by lia; unfold fall; replace (i - n + n) with i by lia; reflexivity).
  apply (@batch_tab RA _ (fun i s => n + 1 <= i -> s = (Some (emaR p G (i - n - 1)), Some (emaR p L (i - n - 1)))) [rmi_at p n x] n); [lia|lia|lia|].
  intros i s Hi HI. disp. destruct (i <? n) eqn:E1; [|destruct (i <? n + 1) eqn:E2].
  - cbn [skip wp fst snd repeat map]. split; [reflexivity|lia].
  - assert (i = n) as -> by lia. destruct s as [a b]. rewrite !rdr by lia. cbn [bind wp fst snd map]. rewrite !MAXf_R, rmi_out_R.
    replace (n + 1 - n - 1) with 0 by lia. unfold rmi_at. fold G L. rewrite Z.sub_diag, !emaR_0.
    pose proof (HG n ltac:(lia)) as Q1. pose proof (HL n ltac:(lia)) as Q2. rewrite Z.sub_diag in Q1, Q2. rewrite Q1, Q2. split; reflexivity.
  - rewrite HI by lia. cbn iota. rewrite !rdr by lia. cbn [bind val wp fst snd map]. rewrite !MAXf_R. replace (i - n - 1) with ((i - n) - 1) by lia.
    rewrite !(emaR_step p) by (try (rewrite ?HG, ?HL by lia); lia || reflexivity). rewrite rmi_out_R. split; [reflexivity|].
    intros _. replace (i + 1 - n - 1) with (i - n) by lia. reflexivity.
Qed.
Lemma rmi_ref_fun size (x : list R) p n : zlen x = size -> 0 <= size <= INT_MAX -> 1 <= p <= INT_MAX -> 1 <= n <= size ->
  @ti_rmi_ref RA size [x] [IZR p; IZR n] = Ok (OKAY, [tab 0 (size - n) (rmi_at p n x)]).
Proof.
  intros Hx Hs Hp Hn. unfold ti_rmi_ref, ti_rmi_start. rewrite !flt_IZR_1 by lia. rewrite cast_IZR by zl. cbn [bind].
  replace (0 <=? size - n) with true by lia. cbn [check bind].
  assert (Op : @to_int RA (IZR p) = Some p) by (apply (@to_int_of_Z RA RA_laws p); zl).
  set (G := tab 0 (zlen x - n) (rise n x)). set (L := tab 0 (zlen x - n) (fall n x)).
  assert (LG : zlen G = size - n) by (unfold G; rewrite zlen_tab; lia). assert (LL : zlen L = size - n) by (unfold L; rewrite zlen_tab; lia).
  match goal with |- (let* _ := for_ n size ?f ?s0 in _) = _ =>
    destruct (for_rel (fun i (s : list (@T RA) * list (@T RA)) (_ : unit) => s = (tab 0 (i - n) (rise n x), tab 0 (i - n) (fall n x))) n size f (fun _ s => Ok s) s0 tt) as (s' & [] & -> & _ & ->) end.
  { lia. } { rewrite Z.sub_diag. reflexivity. }
  { intros i s [] Hi ->. rewrite !rdr by lia. cbn [bind wp]. rewrite !MAXf_R. replace (i + 1 - n) with (i - n + 1) by lia. rewrite !tab_snoc by lia.
    unfold rise at 3, fall at 3. replace (i - n + n) with i by lia. reflexivity. }
  cbn [bind]. change (@T RA) with R. replace (tab 0 (size - n) (rise n x)) with G by (unfold G; rewrite Hx; reflexivity). replace (tab 0 (size - n) (fall n x)) with L by (unfold L; rewrite Hx; reflexivity).
  rewrite (ema_list_fun (size - n) G _ p) by (assumption || lia). cbn [bind]. rewrite rd1. cbn [bind].
  rewrite (ema_list_fun (size - n) L _ p) by (assumption || lia). cbn [bind]. rewrite rd1. cbn [bind].
  unfold ti_add. rewrite (@SIMPLE2_fun RA _ (size - n)) by (try (etransitivity; [apply ema_list_len|]); assumption || lia). cbn [bind]. rewrite rd1. cbn [bind].
  rewrite (@for_tab RA 0 (size - n) _ (rmi_at p n x)).
  - cbn [bind]. do 3 f_equal. apply tab_eq; lia.
  - intros i o Hi. rewrite !rdr by (rewrite ?ema_list_len, ?zlen_tab; lia). rewrite zr_tab by lia. cbn [bind].
    change (@zf RA (ema_list p G) i) with (zr (ema_list p G) i). change (@zf RA (ema_list p L) i) with (zr (ema_list p L) i). rewrite !zr_ema by lia. rewrite Z.sub_0_r. reflexivity.
Qed.

(** vwap *)
Lemma vwap_fun size (h l c v : list R) p : zlen h = size -> zlen l = size -> zlen c = size -> zlen v = size -> 0 <= size <= INT_MAX -> 1 <= p <= INT_MAX ->
  @ti_vwap RA size [h; l; c; v] [IZR p] = Ok (OKAY, [tab 0 (size - p + 1) (vwap_at p h l c v)]).
Proof.
  intros Hh Hl Hc Hv Hs Hp. unfold ti_vwap. rewrite flt_IZR_1 by lia.
  replace (@fadd RA (@fopp RA (IZR p)) (@of_Z RA 1)) with (IZR (- p + 1)) by (cbn; rewrite plus_IZR, opp_IZR; reflexivity).
  rewrite !cast_IZR by zl. cbn [bind]. set (t := fun i => (typ h l c i * zr v i)%R).
  assert (B : forall i, 0 <= i < size -> @vwap_bar RA h l c v i = Ok (t i, zr v i)) by (intros i Hi; unfold vwap_bar; rewrite !rdr by lia; reflexivity).
  assert (W : forall i, p - 1 <= i -> vwap_at p h l c v (i - (p - 1)) = (zsum (i + 1 - p) (i + 1) t / zsum (i + 1 - p) (i + 1) (zr v))%R).
  { intros i Hi. unfold vwap_at. fold t. replace (i - (p - 1) + p) with (i + 1) by lia. replace (i - (p - 1)) with (i + 1 - p) by lia. reflexivity. }
  assert (V : forall a b, @vwap_value RA a b = (a / b)%R) by (intros; apply truth_div).
  set (St := fun i => (zsum (Z.max 0 (i - p)) i t, zsum (Z.max 0 (i - p)) i (zr v))).
  etransitivity; [apply (@batch_tab RA _ (fun i s => s = St i) [vwap_at p h l c v] (p - 1)); [lia|lia|unfold St; rewrite !zsum_nil by lia; reflexivity|]|].
  - intros i s Hi ->. disp. unfold St. destruct (i <? - (- p + 1)) eqn:E1; [|destruct (i <? 1 - (- p + 1)) eqn:E2].
    + rewrite B by lia. cbn [bind wp fst snd map]. replace (i <? p - 1) with true by lia. split; [reflexivity|].
      replace (Z.max 0 (i + 1 - p)) with 0 by lia. replace (Z.max 0 (i - p)) with 0 by lia. rewrite !zsum_snoc by lia. reflexivity.
    + rewrite B by lia. cbn [bind wp fst snd map]. replace (i <? p - 1) with false by lia. rewrite W, V by lia.
      replace (Z.max 0 (i + 1 - p)) with 0 by lia. replace (Z.max 0 (i - p)) with 0 by lia. replace (i + 1 - p) with 0 by lia. rewrite !zsum_snoc by lia. split; reflexivity.
    + rewrite !B by lia. cbn [bind wp fst snd map]. replace (i <? p - 1) with false by lia. rewrite W, V by lia.
      replace (Z.max 0 (i + 1 - p)) with (i + 1 - p) by lia. replace (Z.max 0 (i - p)) with (i - p) by lia. rewrite !zsum_roll by lia.
      assert (EE : forall a b e : R, @fadd RA a (@fsub RA b e) = (a + b - e)%R) by (intros; toR; ring). rewrite !EE. split; reflexivity.
  - cbn [map]. do 3 f_equal. apply tab_eq; lia.
Qed.
Lemma vwap_ref_fun size (h l c v : list R) p : zlen h = size -> zlen l = size -> zlen c = size -> zlen v = size -> size <= INT_MAX -> 1 <= p <= size ->
  @ti_vwap_ref RA size [h; l; c; v] [IZR p] = Ok (OKAY, [tab 0 (size - p + 1) (vwap_at p h l c v)]).
Proof.
  intros Hh Hl Hc Hv Hs Hp. unfold ti_vwap_ref. rewrite flt_IZR_1 by lia.
  rewrite (@typprice_fun RA size h l c) by (assumption || lia). cbn [bind]. rewrite rd1. cbn [bind]. rewrite ceilto_IZR, cast_IZR by zl. cbn [bind].
  set (t := fun i => (typ h l c i * zr v i)%R). replace (Z.min size p) with p by lia.
  set (ty := tab 0 size _). assert (RT : forall i, 0 <= i < size -> @rd R ty i = Ok (typ h l c i)).
  { intros i Hi. unfold ty. rewrite rdr by (rewrite zlen_tab; lia). rewrite zr_tab by lia. f_equal. unfold typ. toR. unfold Rdiv. ring. }
  assert (W : forall i, p - 1 <= i -> vwap_at p h l c v (i + 1 - p) = (zsum (i + 1 - p) (i + 1) t / zsum (i + 1 - p) (i + 1) (zr v))%R).
  { intros i Hi. unfold vwap_at. fold t. replace (i + 1 - p + p) with (i + 1) by lia. reflexivity. }
  match goal with |- (let* (_, _) := for_ 0 p ?f ?s0 in _) = _ =>
    destruct (for_rel (fun i (s : @T RA * @T RA) (_ : unit) => s = (zsum 0 i t, zsum 0 i (zr v))) 0 p f (fun _ s => Ok s) s0 tt) as (s' & [] & -> & _ & ->) end.
  { lia. } { rewrite !zsum_nil by lia. reflexivity. }
  { intros i s [] Hi ->. rewrite RT, rdr by lia. cbn [bind wp]. rewrite !zsum_snoc by lia. reflexivity. }
  cbn [bind].
  match goal with |- (let* _ := for_ p size ?f ?s0 in _) = _ =>
    destruct (for_rel (fun i (s : @T RA * @T RA * list (@T RA)) (_ : unit) => s = (zsum (i - p) i t, zsum (i - p) i (zr v), tab 0 (i - p + 1) (vwap_at p h l c v))) p size f (fun _ s => Ok s) s0 tt) as (s' & [] & -> & _ & ->) end.
  { lia. }
  { rewrite Z.sub_diag. rewrite tab_snoc, tab_nil by lia. unfold vwap_at. fold t. rewrite Z.add_0_l. reflexivity. }
  { intros i s [] Hi ->. rewrite !RT, !rdr by lia. cbn [bind wp]. rewrite (tab_snoc 0 (i + 1 - p)) by lia. rewrite W by lia. rewrite !zsum_roll by lia.
    replace (i - p + 1) with (i + 1 - p) by lia. reflexivity. }
  reflexivity.
Qed.

(** emsd: the standard deviation of the window; the exponential average is computed but not used *)
Lemma fpow_2_R (a : R) : @fpow RA a (@of_Z RA 2) = (a * a)%R.
Proof. cbn. destruct (Req_EM_T 2 2); [reflexivity|lra]. Qed.
Lemma emsd_step (x : list R) size p i k St : zlen x = size -> 1 <= p -> p - 1 <= i < size ->
  St = (zsum (i - p + 1) (i + 1) (zr x), zsum (i - p + 1) (i + 1) (fun j => zr x j * zr x j)%R) -> k = i - (p - 1) ->
  (snd St / IZR p - fst St / IZR p * (fst St / IZR p))%R = popvar (window k p x).
Proof.
  intros Hx Hp Hi -> ->. rewrite popvar_zsum by lia. replace (i - (p - 1) + p) with (i + 1) by lia. replace (i - (p - 1)) with (i - p + 1) by lia.
  cbn [fst snd]. unfold Rdiv. rewrite Rmult_1_l. reflexivity.
Qed.
Lemma emsd_fun size (x : list R) o1 o2 p q : zlen x = size -> 0 <= size <= INT_MAX -> @to_int RA o1 = Some p -> 1 <= p -> @to_int RA o2 = Some q -> 1 <= q < INT_MAX ->
  @ti_emsd RA size [x] [o1; o2] = Ok (OKAY, [tab 0 (size - p + 1) (fun k => sqrt (popvar (window k p x)))]).
Proof.
  intros Hx Hs Ho1 Hp Ho2 Hq. unfold ti_emsd, cast. rewrite Ho1, Ho2. cbn [bind]. replace (p <? 1) with false by lia. replace (q <? 1) with false by lia.
  set (F := fun k => sqrt (popvar (window k p x))). set (g := fun j => (zr x j * zr x j)%R). set (lo := fun i => Z.max 0 (i - p + 1)).
  etransitivity; [apply (@batch_tab RA _ (fun i s => fst s = (zsum (lo i) i (zr x), zsum (lo i) i g) /\ (p <= i -> exists e, snd s = Some e)) [F] (p - 1)); [lia|lia| |]|].
  - cbn [fst snd]. split; [rewrite !zsum_nil by (unfold lo; lia); reflexivity|lia].
  - intros i [[s s2] e] Hi [E1 E2]. cbn [fst snd] in E1, E2. injection E1 as -> ->. disp.
    assert (SS : forall f, zsum (lo i) (i + 1) f = @fadd RA (zsum (lo i) i f) (f i)) by (intros f; unfold lo; rewrite zsum_snoc by lia; reflexivity).
    assert (SD : p - 1 <= i -> forall f, @fsub RA (zsum (i - p + 1) (i + 1) f) (f (i - p + 1)) = zsum (lo (i + 1)) (i + 1) f).
    { intros Hpi f. unfold lo. rewrite (zsum_cons (i - p + 1)) by lia. replace (Z.max 0 (i + 1 - p + 1)) with (i - p + 1 + 1) by lia. toR. ring. }
    change (@fmul RA (zr x i) (zr x i)) with (g i). destruct (i <? p - 1) eqn:F1; [|destruct (i <? p) eqn:F2].
    + rewrite !rdr by lia. cbn [bind wp fst snd map]. split; [reflexivity|]. split; [|lia]. replace (lo (i + 1)) with (lo i) by (unfold lo; lia). rewrite !SS. reflexivity.
    + rewrite !rdr by lia. cbn [bind wp fst snd map]. change (@fmul RA (zr x i) (zr x i)) with (g i). rewrite <- !SS. replace (lo i) with (i - p + 1) by (unfold lo; lia).
      rewrite fpow_2_R. split.
      * unfold F. rewrite <- (emsd_step x size p i _ _ Hx Hp ltac:(lia) eq_refl eq_refl). reflexivity.
      * split; [|eauto]. change (@fmul RA (zr x (i - p + 1)) (zr x (i - p + 1))) with (g (i - p + 1)). rewrite !SD by lia. reflexivity.
    + destruct E2 as (e' & ->); [lia|]. rewrite !rdr by lia. cbn [bind val wp fst snd map]. rewrite ck_ok by zl. cbn [bind wp fst snd].
      change (@fmul RA (zr x i) (zr x i)) with (g i). rewrite <- !SS. replace (lo i) with (i - p + 1) by (unfold lo; lia). split.
      * unfold F. rewrite <- (emsd_step x size p i _ _ Hx Hp ltac:(lia) eq_refl eq_refl). reflexivity.
      * split; [|eauto]. change (@fmul RA (zr x (i - p + 1)) (zr x (i - p + 1))) with (g (i - p + 1)). rewrite !SD by lia. reflexivity.
  - cbn [map]. do 3 f_equal. apply tab_eq; lia.
Qed.
Lemma emsd_ref_fun size (x : list R) p q : zlen x = size -> 0 <= size <= INT_MAX -> 1 <= p <= INT_MAX -> 1 <= q < INT_MAX ->
  @ti_emsd_ref RA size [x] [IZR p; IZR q] = Ok (OKAY, [tab 0 (size - p + 1) (fun k => sqrt (popvar (window k p x)))]).
Proof.
  intros Hx Hs Hp Hq. rewrite <- (emsd_fun size x (IZR p) (IZR q) p q) by (assumption || lia || (apply (@to_int_of_Z RA RA_laws); zl)).
  unfold ti_emsd_ref, ti_emsd. rewrite !flt_IZR_1 by lia. replace (@fsub RA (IZR p) (@of_Z RA 1)) with (IZR (p - 1)) by (cbn; rewrite minus_IZR; reflexivity).
  rewrite !ceilto_IZR by zl. cbn [bind]. rewrite !cast_IZR by zl. cbn [bind]. replace (p <? 1) with false by lia. replace (q <? 1) with false by lia.
  unfold batch_loops. f_equal. rewrite !run_loops_dispatch by lia. unfold emits. apply for_ext. intros i [[[s s2] e] o] Hi. disp.
  destruct (i <? p - 1); [reflexivity|]. destruct (i <? p); [reflexivity|]. rewrite ck_ok by zl. cbn [bind].
  change (@of_Z RA (q + 1)) with (IZR (q + 1)). rewrite plus_IZR. reflexivity.
Qed.
End R.

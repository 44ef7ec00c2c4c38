(** aroon, aroonosc, willr, stoch, fisher and vhf: closed forms. *)
From Verif Require Export Fun_window BufferP.

Section F.
Context {A : Arith} {L : IntLaws A} (good : T -> Prop) (OL : OrdLaws A good).
Notation allgood := (allgood good).

Lemma aroon_fun size h l o p : zlen h = size -> zlen l = size -> 0 <= size <= INT_MAX -> to_int o = Some p -> 1 <= p ->
  allgood h -> allgood l ->
  ti_aroon size [h; l] [o] = Ok (OKAY,
    [tab 0 (size - p) (fun k => (#p .- #(k + p - lo_at l k (k + p))) .* (#100 ./ #p));
     tab 0 (size - p) (fun k => (#p .- #(k + p - hi_at h k (k + p))) .* (#100 ./ #p))]).
Proof.
  openfun ti_aroon.
  match goal with |- context[[tab 0 ?s ?F0; tab 0 ?s ?F1]] => set (G0 := F0); set (G1 := F1) end.
  loop (fun i s => exists sx sn, s = (i - p, sx, sn, tab 0 (i - p) G0, tab 0 (i - p) G1) /\
     mstate gef (zf h) (i - p) i sx /\ mstate lef (zf l) (i - p) i sn).
  - zl.
  - do 2 eexists. split; [rewrite !Z.sub_diag; reflexivity|]. split; left; cbn; lia.
  - intros i s Hi (sx & sn & -> & Hx & Hn). wps. rewrite (highest_eq good OL h) by (auto; zl). wps.
    rewrite (lowest_eq good OL l) by (auto; zl). wps. cbn [fst].
    do 2 eexists. split; [|split].
    + repeat apply peq; try reflexivity; try lia;
      (apply (tab_next' _ (i - p)); [zl|zl|reflexivity|]); [unfold G0|unfold G1]; rewrite Z.sub_add; reflexivity.
    + replace (i + 1 - p) with (i - p + 1) by lia. apply (highest_next good OL); auto; zl.
    + replace (i + 1 - p) with (i - p + 1) by lia. apply (lowest_next good OL); auto; zl.
  - intros s (sx & sn & -> & _). wps; try zl. reflexivity.
Qed.
Lemma aroonosc_fun size h l o p : zlen h = size -> zlen l = size -> 0 <= size <= INT_MAX -> to_int o = Some p -> 1 <= p ->
  allgood h -> allgood l ->
  ti_aroonosc size [h; l] [o] = Ok (OKAY,
    [tab 0 (size - p) (fun k => #(hi_at h k (k + p) - lo_at l k (k + p)) .* (#100 ./ #p))]).
Proof.
  openfun ti_aroonosc. setF.
  loop (fun i s => exists sx sn, s = (i - p, sx, sn, tab 0 (i - p) F) /\
     mstate gef (zf h) (i - p) i sx /\ mstate lef (zf l) (i - p) i sn).
  - zl.
  - do 2 eexists. split; [rewrite !Z.sub_diag; reflexivity|]. split; left; cbn; lia.
  - intros i s Hi (sx & sn & -> & Hx & Hn). wps. rewrite (highest_eq good OL h) by (auto; zl). wps.
    rewrite (lowest_eq good OL l) by (auto; zl). wps. cbn [fst].
    do 2 eexists. split; [|split].
    + repeat apply peq; try reflexivity; try lia.
      apply (tab_next' _ (i - p)); [zl|zl|reflexivity|]. unfold F. rewrite Z.sub_add. reflexivity.
    + replace (i + 1 - p) with (i - p + 1) by lia. apply (highest_next good OL); auto; zl.
    + replace (i + 1 - p) with (i - p + 1) by lia. apply (lowest_next good OL); auto; zl.
  - intros s (sx & sn & -> & _). fintab.
Qed.
Lemma willr_fun size h l c o p : zlen h = size -> zlen l = size -> zlen c = size -> 0 <= size <= INT_MAX ->
  to_int o = Some p -> 1 <= p -> allgood h -> allgood l ->
  ti_willr size [h; l; c] [o] = Ok (OKAY, [tab 0 (size - p + 1) (fun k =>
    let hh := hi_val h k (k + p - 1) in let ll := lo_val l k (k + p - 1) in
    if (hh .- ll) .== #0 then #0 else #(-100) .* ((hh .- zf c (k + p - 1)) ./ (hh .- ll)))]).
Proof.
  openfun ti_willr. setF.
  loop (fun i s => exists sx sn, s = (i - p + 1, sx, sn, tab 0 (i - p + 1) F) /\
     mstate gef (zf h) (i - p + 1) i sx /\ mstate lef (zf l) (i - p + 1) i sn).
  - zl.
  - do 2 eexists. split; [replace (p - 1 - p + 1) with 0 by lia; rewrite tab_nil by lia; reflexivity|]. split; left; cbn; lia.
  - intros i s Hi (sx & sn & -> & Hx & Hn). wps. rewrite (highest_eq good OL h) by (auto; zl). wps.
    rewrite (lowest_eq good OL l) by (auto; zl). apply wp_bind. apply wp_ret. cbn [fst snd].
    assert (Ev : wp (if (hi_val h (i - p + 1) i .- lo_val l (i - p + 1) i) .== #0 then Ok #0 else
               let* c0 := rd c i in Ok (#(-100) .* ((hi_val h (i - p + 1) i .- c0) ./ (hi_val h (i - p + 1) i .- lo_val l (i - p + 1) i))))
              (fun r => r = F (i - p + 1))).
    { unfold F. replace (i - p + 1 + p - 1) with i by lia. wps; rewrite ?E; reflexivity. }
    first [apply wp_bind|idtac]; apply wp_mono with (1 := Ev); intros r ->; apply wp_ret.
    do 2 eexists. split; [|split].
    + repeat apply peq; try reflexivity; try lia.
      apply (tab_next' _ (i - p + 1)); [zl|zl|reflexivity|]. reflexivity.
    + replace (i + 1 - p + 1) with (i - p + 1 + 1) by lia. apply (highest_next good OL); auto; zl.
    + replace (i + 1 - p + 1) with (i - p + 1 + 1) by lia. apply (lowest_next good OL); auto; zl.
  - intros s (sx & sn & -> & _). fintab.
Qed.
End F.

(** ** Extremes of a real window *)
Lemma RA_allgood (x : list (@T RA)) : @allgood RA (fun _ => True) x.
Proof. intros i _. exact I. Qed.
Lemma hi_at_R (x : list R) lo hi : 0 <= lo <= hi -> hi < zlen x ->
  lo <= @hi_at RA x lo hi <= hi /\ (forall j, lo <= j <= hi -> (zr x j <= @hi_val RA x lo hi)%R) /\
  (forall j, @hi_at RA x lo hi < j <= hi -> (zr x j < @hi_val RA x lo hi)%R).
Proof.
  intros H1 H2. destruct (@hi_latest RA _ RA_ord x lo hi H1 H2 (RA_allgood x)) as (R & H & H').
  split; [exact R|]. unfold hi_val. unfold gef in *. toR.
  split; intros j Hj; [specialize (H j Hj)|specialize (H' j Hj)].
  - destruct (Rleb_spec (zr x j) (zr x (@hi_at RA x lo hi))); [assumption|discriminate].
  - destruct (Rleb_spec (zr x (@hi_at RA x lo hi)) (zr x j)); [discriminate|lra].
Qed.
Lemma lo_at_R (x : list R) lo hi : 0 <= lo <= hi -> hi < zlen x ->
  lo <= @lo_at RA x lo hi <= hi /\ (forall j, lo <= j <= hi -> (@lo_val RA x lo hi <= zr x j)%R) /\
  (forall j, @lo_at RA x lo hi < j <= hi -> (@lo_val RA x lo hi < zr x j)%R).
Proof.
  intros H1 H2. destruct (@lo_latest RA _ RA_ord x lo hi H1 H2 (RA_allgood x)) as (R & H & H').
  split; [exact R|]. unfold lo_val. unfold lef in *. toR.
  split; intros j Hj; [specialize (H j Hj)|specialize (H' j Hj)].
  - destruct (Rleb_spec (zr x (@lo_at RA x lo hi)) (zr x j)); [assumption|discriminate].
  - destruct (Rleb_spec (zr x j) (zr x (@lo_at RA x lo hi))); [discriminate|lra].
Qed.

(** ** Buffers of reals *)
(** The buffer has received f lo, ..., f (n-1). *)
Definition bufR (b : @buffer RA) (size : Z) (f : Z -> R) (lo n : Z) : Prop :=
  lo <= n /\ @slots_ok RA b size (tab lo n f) /\ bpushes b = n - lo /\ bsum b = zsum (Z.max lo (n - size)) n f.
Lemma bufR_new size f lo : 1 <= size <= 268435452 -> exists b, @buffer_new RA size = Ok b /\ bufR b size f lo lo.
Proof.
  intros H. destruct (@buffer_new_ok RA size H) as (b & E & Hs & Hp & Hsum). exists b. split; [exact E|].
  split; [lia|]. rewrite tab_nil by lia. rewrite zsum_nil by lia. rewrite Hp, Z.sub_diag. auto.
Qed.
Lemma bufR_push b size f lo n v : bufR b size f lo n -> v = f n ->
  exists b', @buffer_push RA b v = Ok b' /\ bufR b' size f lo (n + 1) /\ bsum b' = zsum (Z.max lo (n + 1 - size)) (n + 1) f.
Proof.
  intros (Hle & Hs & Hp & Hsum) ->. assert (Hsz : 0 < size) by apply Hs.
  destruct (@buffer_push_ok RA b size (tab lo n f) (f n) Hs) as (b' & E & Hs' & Hp' & Hsum').
  { rewrite Hp. change (@T RA) with R. rewrite zlen_tab. lia. }
  assert (G : bsum b' = zsum (Z.max lo (n + 1 - size)) (n + 1) f).
  { rewrite Hsum', Hsum. unfold push_sum. change (@T RA) with R. rewrite zlen_tab. toR.
    destruct (Z.max 0 (n - lo) >=? size) eqn:Es.
    - change (@T RA) with R. rewrite zn_tab by lia. replace (Z.max lo (n - size)) with (n - size) by lia.
      replace (Z.max lo (n + 1 - size)) with (n + 1 - size) by lia. rewrite zsum_roll by lia.
      replace (lo + (Z.max 0 (n - lo) - size)) with (n - size) by lia. change (@T RA) with R. lra.
    - replace (Z.max lo (n - size)) with (Z.max lo (n + 1 - size)) by lia. rewrite zsum_snoc by lia. reflexivity. }
  exists b'. split; [exact E|]. split; [|exact G]. split; [lia|].
  rewrite tab_snoc by lia. split; [exact Hs'|]. split; [|exact G].
  change (@T RA) with R in *. rewrite Hp', zlen_snoc, zlen_tab. lia.
Qed.

(** Raw stochastic %K of bar i over the last kp bars (fewer at the beginning). *)
Definition raw_k (h l c : list R) (kp i : Z) : R :=
  let hh := @hi_val RA h (Z.max 0 (i - kp + 1)) i in
  let ll := @lo_val RA l (Z.max 0 (i - kp + 1)) i in
  if Reqb (hh - ll) 0 then 0%R else (100 * ((zr c i - ll) / (hh - ll)))%R.
(** Smoothed %K: mean of the last ks raw values. *)
Definition slow_k (h l c : list R) (kp ks i : Z) : R :=
  (zsum (i - ks + 1) (i + 1) (raw_k h l c kp) / IZR ks)%R.

Lemma stoch_fun size (h l c : list R) o1 o2 o3 kp ks d : zlen h = size -> zlen l = size -> zlen c = size -> 0 <= size <= INT_MAX ->
  @to_int RA o1 = Some kp -> @to_int RA o2 = Some ks -> @to_int RA o3 = Some d -> 1 <= kp -> 1 <= ks <= 268435452 -> 1 <= d <= 268435452 ->
  kp + ks + d <= INT_MAX ->
  let st := kp + ks + d - 3 in
  @ti_stoch RA size [h; l; c] [o1; o2; o3] = Ok (OKAY,
    [tab 0 (size - st) (fun k => slow_k h l c kp ks (k + st));
     tab 0 (size - st) (fun k => (zsum (k + st - d + 1) (k + st + 1) (slow_k h l c kp ks) / IZR d)%R)]).
Proof.
  intros Hh Hl Hc Hs H1 H2 H3 Hkp Hks Hd Hsum st. assert (Est : st = kp + ks + d - 3) by reflexivity. clearbody st.
  change (@T RA) with R in *.
  ranges. apply wp_eq. unfold ti_stoch, ti_stoch_start. wps; contra; try zl.
  { rewrite !tab_nil by zl. reflexivity. }
  match goal with |- context[[tab 0 ?s ?F0; tab 0 ?s ?F1]] => set (G0 := F0); set (G1 := F1) end.
  destruct (bufR_new ks (raw_k h l c kp) 0 ltac:(lia)) as (b1 & Eb1 & B1).
  destruct (bufR_new d (slow_k h l c kp ks) (kp + ks - 2) ltac:(lia)) as (b2 & Eb2 & B2).
  rewrite Eb1. wps. rewrite Eb2. wps.
  apply (wp_for (fun i s => exists sx sn b1 b2, s = (Z.max 0 (i - kp), sx, sn, b1, b2, tab 0 (i - st) G0, tab 0 (i - st) G1) /\
     mstate (@gef RA) (@zf RA h) (Z.max 0 (i - kp + 1)) i sx /\ mstate (@lef RA) (@zf RA l) (Z.max 0 (i - kp + 1)) i sn /\
     bufR b1 ks (raw_k h l c kp) 0 i /\ bufR b2 d (slow_k h l c kp ks) (kp + ks - 2) (Z.max (kp + ks - 2) i))).
  - zl.
  - do 4 eexists. split; [rewrite !tab_nil by lia; replace (Z.max 0 (0 - kp)) with 0 by lia; reflexivity|].
    split; [left; cbn; lia|]. split; [left; cbn; lia|]. split; [exact B1|].
    replace (Z.max (kp + ks - 2) 0) with (kp + ks - 2) by lia. exact B2.
  - clear b1 b2 Eb1 Eb2 B1 B2. intros i s Hi (sx & sn & b1 & b2 & -> & Hx & Hn & B1 & B2).
    assert (Et : (if i >=? kp then Z.max 0 (i - kp) + 1 else Z.max 0 (i - kp)) = Z.max 0 (i - kp + 1)) by (destruct (i >=? kp) eqn:?; lia).
    cbn beta iota zeta. rewrite Et. change (@T RA) with R in *.
    rewrite (highest_eq _ RA_ord h) by (auto using RA_allgood; zl). apply wp_bind, wp_ret.
    rewrite (lowest_eq _ RA_ord l) by (auto using RA_allgood; zl). apply wp_bind, wp_ret. cbn [fst snd].
    apply wp_bind. apply (wp_mono _ (fun v => v = raw_k h l c kp i)).
    { unfold raw_k. wps; toR; branches; try rewrite (rd_ok 0%R) by lia; reflexivity. }
    intros v Ev. destruct (bufR_push _ _ _ _ _ v B1 Ev) as (b1' & Eb1 & B1' & S1). rewrite Eb1. apply wp_bind, wp_ret.
    assert (Hx' : mstate (@gef RA) (@zf RA h) (Z.max 0 (i + 1 - kp + 1)) (i + 1)
       (@hi_at RA h (Z.max 0 (i - kp + 1)) i, @hi_val RA h (Z.max 0 (i - kp + 1)) i)).
    { destruct (Z.lt_ge_cases i (kp - 1)).
      - replace (Z.max 0 (i + 1 - kp + 1)) with (Z.max 0 (i - kp + 1)) by lia.
        apply (highest_same _ RA_ord h); auto using RA_allgood; zl.
      - replace (Z.max 0 (i + 1 - kp + 1)) with (Z.max 0 (i - kp + 1) + 1) by lia.
        apply (highest_next _ RA_ord h); auto using RA_allgood; zl. }
    assert (Hn' : mstate (@lef RA) (@zf RA l) (Z.max 0 (i + 1 - kp + 1)) (i + 1)
       (@lo_at RA l (Z.max 0 (i - kp + 1)) i, @lo_val RA l (Z.max 0 (i - kp + 1)) i)).
    { destruct (Z.lt_ge_cases i (kp - 1)).
      - replace (Z.max 0 (i + 1 - kp + 1)) with (Z.max 0 (i - kp + 1)) by lia.
        apply (lowest_same _ RA_ord l); auto using RA_allgood; zl.
      - replace (Z.max 0 (i + 1 - kp + 1)) with (Z.max 0 (i - kp + 1) + 1) by lia.
        apply (lowest_next _ RA_ord l); auto using RA_allgood; zl. }
    rewrite S1. destruct (i >=? kp - 1 + ks - 1) eqn:Ek.
    + assert (Esl : (zsum (Z.max 0 (i + 1 - ks)) (i + 1) (raw_k h l c kp) * (1 / IZR ks))%R = slow_k h l c kp ks i).
      { unfold slow_k. replace (Z.max 0 (i + 1 - ks)) with (i - ks + 1) by lia. unfold Rdiv. ring. }
      toR. rewrite Esl. replace (Z.max (kp + ks - 2) i) with i in B2 by lia.
      destruct (bufR_push _ _ _ _ _ _ B2 eq_refl) as (b2' & Eb2 & B2' & S2). rewrite Eb2. apply wp_bind, wp_ret.
      destruct (i >=? kp - 1 + ks - 1 + d - 1) eqn:Ed; apply wp_ret; do 4 eexists; (split; [|split; [exact Hx'|split; [exact Hn'|split; [exact B1'|]]]]).
      * repeat apply peq; try reflexivity; try lia; (apply (tab_next' _ (i - st)); [zl|zl|reflexivity|]).
        -- unfold G0. rewrite Z.sub_add. reflexivity.
        -- unfold G1. rewrite Z.sub_add. rewrite S2. replace (Z.max (kp + ks - 2) (i + 1 - d)) with (i - d + 1) by lia.
           unfold Rdiv. ring.
      * replace (Z.max (kp + ks - 2) (i + 1)) with (i + 1) by lia. exact B2'.
      * repeat apply peq; try reflexivity; try lia; rewrite !tab_nil by lia; reflexivity.
      * replace (Z.max (kp + ks - 2) (i + 1)) with (i + 1) by lia. exact B2'.
    + apply wp_ret. do 4 eexists. split; [|split; [exact Hx'|split; [exact Hn'|split; [exact B1'|]]]].
      * repeat apply peq; try reflexivity; try lia; rewrite !tab_nil by lia; reflexivity.
      * replace (Z.max (kp + ks - 2) (i + 1)) with (Z.max (kp + ks - 2) i) by lia. exact B2.
  - intros s (sx & sn & b1' & b2' & -> & _). wps; try zl. reflexivity.
Qed.

Lemma raw_k_range h l c kp i : zlen h = zlen c -> zlen l = zlen c -> 1 <= kp -> 0 <= i < zlen c ->
  (forall j, 0 <= j < zlen c -> (zr l j <= zr c j <= zr h j)%R) -> (0 <= raw_k h l c kp i <= 100)%R.
Proof.
  intros Hh Hl Hk Hi Hb. unfold raw_k. set (lo := Z.max 0 (i - kp + 1)).
  destruct (hi_at_R h lo i) as (_ & Hhi & _); [lia|lia|].
  destruct (lo_at_R l lo i) as (_ & Hlo & _); [lia|lia|].
  specialize (Hhi i ltac:(lia)). specialize (Hlo i ltac:(lia)). specialize (Hb i Hi).
  set (hh := @hi_val RA h lo i) in *. set (ll := @lo_val RA l lo i) in *. cbn in hh, ll.
  destruct (Reqb_spec (hh - ll) 0) as [E|N]; [lra|].
  assert (0 < hh - ll)%R by lra.
  assert (0 <= (zr c i - ll) / (hh - ll) <= 1)%R; [|lra].
  split; [apply Rmult_le_pos; [lra|left; apply Rinv_0_lt_compat; lra]|].
  apply (Rmult_le_reg_r (hh - ll)); [lra|]. unfold Rdiv. rewrite Rmult_assoc, Rinv_l by lra. lra.
Qed.
Lemma zmean_range lo n f a b : 1 <= n -> (forall i, lo <= i < lo + n -> (a <= f i <= b)%R) -> (a <= zsum lo (lo + n) f / IZR n <= b)%R.
Proof.
  intros Hn H. assert (1 <= IZR n)%R by (apply IZR_le; lia).
  assert (IZR n * a <= zsum lo (lo + n) f <= IZR n * b)%R.
  { assert (Ec : forall c, (IZR n * c)%R = zsum lo (lo + n) (fun _ => c)) by (intros; rewrite zsum_const by lia; do 2 f_equal; lia).
    rewrite !Ec. split; apply zsum_le; intros; apply H; lia. }
  split; apply (Rmult_le_reg_r (IZR n)); try lra; unfold Rdiv; rewrite Rmult_assoc, Rinv_l by lra; lra.
Qed.

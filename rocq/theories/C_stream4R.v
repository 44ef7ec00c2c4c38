(** Streams of M_stream4 that agree with the batch function in exact arithmetic only. *)
From Verif Require Export C_stream4 C_stream3R Fun_window.
From Verif Require Import RArith RSum Fun_basic.
From Coq Require Import Reals Lra.
Open Scope Z_scope.

Lemma stdmax_R a b : @stdmax RA a b = Rmax a b.
Proof. unfold stdmax. cbn. destruct (Rltb_spec a b); unfold Rmax; destruct (Rle_dec a b); lra. Qed.
Lemma stdmin_R a b : @stdmin RA a b = Rmin a b.
Proof. unfold stdmin. cbn. destruct (Rltb_spec b a); unfold Rmin; destruct (Rle_dec a b); lra. Qed.

(** rmi: MAX(0, x) and std::max(0., x) differ on NaN and on -0 only. *)
Lemma rmi_sim : @sim RA _ _ 1 1 o_rmi always ti_rmi_start ti_rmi ti_rmi_stream_new rmi_loops.
Proof.
  intros options v (p & n & -> & Hn & ->). unfold ti_rmi, ti_rmi_stream_new, ti_rmi_start.
  destruct (p .< #1) eqn:E1; cbn [orb]; [reject_tac2|].
  rewrite flt_of_Z by zl. destruct (n <? 1) eqn:E2; [reject_tac2|]. destruct (n <? INT_MAX) eqn:E3; [|exact I].
  rewrite (cast_of_Z n) by zl. rewrite (fadd_of_Z n 1) by zl. rewrite (cast_of_Z (n + 1)) by zl. cbn [bind].
  hist0 (n + 1). accept_tac. rewrite flt_of_Z by zl.
  replace (size <? n + 1) with (size <=? n) by lia.
  guard_tac (fun (i : Z) (a : option (@T RA) * option (@T RA)) (b : @T RA * @T RA * ring) =>
    let '(g, l, r) := b in (n < i -> a = (Some g, Some l)) /\ hist r (n + 1) (zp x) i).
  - split; [lia|]. apply hist_of_ok; [exact Hr|]. intros; apply zp_neg; lia.
  - replace (0 - - n) with n by lia. replace (1 - - n) with (n + 1) by lia. unfold skip.
    assert (EM : forall y : @T RA, @MAXf RA #0 y = @stdmax RA #0 y).
    { intros y. rewrite MAXf_R, stdmax_R. reflexivity. }
    destruct (i <? n) eqn:Ea; [|destruct (i <? n + 1) eqn:Eb].
    + wpr. emit. apply hist_step; assumption.
    + wpr. zpn. rewrite !EM. emit. apply hist_step; assumption.
    + match goal with HA : _ -> (?u, ?v) = _ |- _ => rename HA into HG; specialize (HG ltac:(lia)); injection HG; intros; subst end.
      rewrite (fadd_comm #1 p). wpr. zpn. rewrite !EM. emit. apply hist_step; assumption.
Qed.
Lemma rmi_online {A : Arith} : online 1 rmi_loops. Proof. online_tac @rmi_loops. Qed.

(** frama *)
(** One extremum with the bar it was (last) seen at. *)
Definition extr (cmp : R -> R -> bool) (g : Z -> R) (lo hi : Z) (e : R * Z) : Prop := e = (g (argext cmp g lo hi), argext cmp g lo hi).
Section Track.
Context (cmp : R -> R -> bool) (PO : preord cmp (fun _ => True)).
Lemma track_ok g store i out top c2 m : 0 <= top < out -> c2 = out - top ->
  (forall k, 0 <= k < out -> rd store k = Ok (g (i - k))) ->
  extr cmp g (i - out) (i - top - 1) m ->
  exists e, @frama_track RA cmp store i out (out - 1) top c2 m = Ok e /\ extr cmp g (i - out + 1) (i - top) e.
Proof.
  intros Ht -> Hs Hm. eexists. split; [|reflexivity]. unfold extr in Hm. subst m. unfold frama_track. cbn [fst snd].
  assert (Hl : latest cmp g (i - out) (i - top - 1) (argext cmp g (i - out) (i - top - 1))) by (apply (argext_latest cmp (fun _ => True)); [exact PO|lia|auto]).
  destruct (argext cmp g (i - out) (i - top - 1) =? i - out) eqn:E.
  - rewrite Hs by lia. cbn [bind]. replace (i - (out - 1)) with (i - out + 1) by lia. apply wp_eq.
    apply (wp_for (fun j s => s = (g (argext cmp g (i - out + 1) (i - out + j)), argext cmp g (i - out + 1) (i - out + j)))).
    + lia.
    + rewrite argext_one. reflexivity.
    + intros j s Hj ->. rewrite Hs by lia. cbn [bind wp]. replace (i - out + (j + 1)) with (i - out + j + 1) by lia. rewrite argext_snoc by lia.
      replace (i - (out - 1 - j)) with (i - out + j + 1) by lia. destruct (cmp _ _); reflexivity.
    + intros s ->. replace (i - out + (out - top)) with (i - top) by lia. reflexivity.
  - rewrite Hs by lia. cbn [bind].
    assert (Hl2 : latest cmp g (i - out + 1) (i - top) (if cmp (g (i - top)) (g (argext cmp g (i - out) (i - top - 1))) then i - top else argext cmp g (i - out) (i - top - 1))).
    { apply (latest_step cmp (fun _ => True)); [exact PO|auto|]. apply latest_shrink with (lo := i - out); [exact Hl|]. destruct Hl. lia. }
    apply (latest_argext cmp (fun _ => True) PO) in Hl2; [|auto]. rewrite <- Hl2. destruct (cmp _ _); reflexivity.
Qed.
Lemma push_ok g lo i e : lo < i -> extr cmp g lo (i - 1) e -> extr cmp g lo i (if cmp (g i) (fst e) then (g i, i) else e).
Proof.
  intros H He. unfold extr in *. subst e. cbn [fst]. pose proof (argext_snoc cmp g lo (i - 1) ltac:(lia)) as E. rewrite Z.sub_add in E.
  rewrite E. destruct (cmp _ _); reflexivity.
Qed.
Lemma extr_one g i : extr cmp g i i (g i, i). Proof. unfold extr. rewrite argext_one. reflexivity. Qed.
End Track.
Definition ext (cmp : R -> R -> bool) (x : list R) lo hi : R := zf x (argext cmp (@zf RA x) lo hi).
Lemma geR_po : preord (@gef RA) (fun _ => True). Proof. apply gef_po. apply RA_ord. Qed.
Lemma leR_po : preord (@lef RA) (fun _ => True). Proof. apply lef_po. apply RA_ord. Qed.
Lemma ext_one cmp x i : ext cmp x i i = @zf RA x i. Proof. unfold ext. rewrite argext_one. reflexivity. Qed.
(** The batch function keeps the old value on ties, the stream takes the new one. *)
Lemma max_strict x lo j : lo <= j -> (if @zf RA x j .> ext (@gef RA) x lo (Z.max lo (j - 1)) then @zf RA x j else ext (@gef RA) x lo (Z.max lo (j - 1))) = ext (@gef RA) x lo j.
Proof.
  intros H. destruct (Z.eq_dec j lo) as [->|N].
  - replace (Z.max lo (lo - 1)) with lo by lia. rewrite ext_one. destruct (_ .> _); reflexivity.
  - replace (Z.max lo (j - 1)) with (j - 1) by lia. unfold ext. pose proof (@argext_snoc R (@gef RA) (@zf RA x) lo (j - 1) ltac:(lia)) as E. rewrite Z.sub_add in E. rewrite E.
    set (a := argext _ _ _ _). unfold gef. cbn. destruct (Rltb_spec (@zf RA x a) (@zf RA x j)); destruct (Rleb_spec (@zf RA x a) (@zf RA x j)); try reflexivity; lra.
Qed.
Lemma min_strict x lo j : lo <= j -> (if @zf RA x j .< ext (@lef RA) x lo (Z.max lo (j - 1)) then @zf RA x j else ext (@lef RA) x lo (Z.max lo (j - 1))) = ext (@lef RA) x lo j.
Proof.
  intros H. destruct (Z.eq_dec j lo) as [->|N].
  - replace (Z.max lo (lo - 1)) with lo by lia. rewrite ext_one. destruct (_ .< _); reflexivity.
  - replace (Z.max lo (j - 1)) with (j - 1) by lia. unfold ext. pose proof (@argext_snoc R (@lef RA) (@zf RA x) lo (j - 1) ltac:(lia)) as E. rewrite Z.sub_add in E. rewrite E.
    set (a := argext _ _ _ _). unfold lef. cbn. destruct (Rltb_spec (@zf RA x j) (@zf RA x a)); destruct (Rleb_spec (@zf RA x j) (@zf RA x a)); try reflexivity; lra.
Qed.
Lemma max_join x lo c hi : lo < c <= hi -> Rmax (ext (@gef RA) x c hi) (ext (@gef RA) x lo (c - 1)) = ext (@gef RA) x lo hi.
Proof.
  intros H. apply (zind (fun h => Rmax (ext (@gef RA) x c h) (ext (@gef RA) x lo (c - 1)) = ext (@gef RA) x lo h) c hi); [lia| |].
  - rewrite ext_one. rewrite <- (max_strict x lo c) by lia. replace (Z.max lo (c - 1)) with (c - 1) by lia. set (u := ext _ _ _ _). cbn.
    destruct (Rltb_spec u (@zf RA x c)); unfold Rmax; destruct (Rle_dec _ _); lra.
  - intros h Hh IH. rewrite <- (max_strict x lo (h + 1)), <- (max_strict x c (h + 1)) by lia. replace (Z.max lo (h + 1 - 1)) with h by lia. replace (Z.max c (h + 1 - 1)) with h by lia.
    rewrite <- IH. generalize (ext (@gef RA) x c h), (ext (@gef RA) x lo (c - 1)). intros u v. cbn.
    destruct (Rltb_spec u (@zf RA x (h + 1))); destruct (Rltb_spec (Rmax u v) (@zf RA x (h + 1))); unfold Rmax in *; repeat destruct (Rle_dec _ _); lra.
Qed.
Lemma min_join x lo c hi : lo < c <= hi -> Rmin (ext (@lef RA) x c hi) (ext (@lef RA) x lo (c - 1)) = ext (@lef RA) x lo hi.
Proof.
  intros H. apply (zind (fun h => Rmin (ext (@lef RA) x c h) (ext (@lef RA) x lo (c - 1)) = ext (@lef RA) x lo h) c hi); [lia| |].
  - rewrite ext_one. rewrite <- (min_strict x lo c) by lia. replace (Z.max lo (c - 1)) with (c - 1) by lia. set (u := ext _ _ _ _). cbn.
    destruct (Rltb_spec (@zf RA x c) u); unfold Rmin; destruct (Rle_dec _ _); lra.
  - intros h Hh IH. rewrite <- (min_strict x lo (h + 1)), <- (min_strict x c (h + 1)) by lia. replace (Z.max lo (h + 1 - 1)) with h by lia. replace (Z.max c (h + 1 - 1)) with h by lia.
    rewrite <- IH. generalize (ext (@lef RA) x c h), (ext (@lef RA) x lo (c - 1)). intros u v. cbn.
    destruct (Rltb_spec (@zf RA x (h + 1)) u); destruct (Rltb_spec (@zf RA x (h + 1)) (Rmin u v)); unfold Rmin in *; repeat destruct (Rle_dec _ _); lra.
Qed.
(** What the batch loop over one window finds. *)
Lemma scan_ok (high low : list (@T RA)) f c i : 0 <= f < c -> c <= i -> i < zlen high -> i < zlen low ->
  for_ f (i + 1) (@frama_scan RA high low c) ((zf high f, zf low f), (None, None), (None, None)) =
  Ok ((ext (@gef RA) high f i, ext (@lef RA) low f i), (Some (ext (@gef RA) high f (c - 1)), Some (ext (@lef RA) low f (c - 1))), (Some (ext (@gef RA) high c i), Some (ext (@lef RA) low c i))).
Proof.
  intros H1 H2 H3 H4. apply wp_eq.
  apply (wp_for (fun j s => s = ((ext (@gef RA) high f (Z.max f (j - 1)), ext (@lef RA) low f (Z.max f (j - 1))),
     (if c <? j then (Some (ext (@gef RA) high f (c - 1)), Some (ext (@lef RA) low f (c - 1))) else (None, None)),
     (if c <? j then (Some (ext (@gef RA) high c (j - 1)), Some (ext (@lef RA) low c (j - 1))) else (None, None))))); [lia| | |].
  - replace (Z.max f (f - 1)) with f by lia. rewrite !ext_one. replace (c <? f) with false by lia. reflexivity.
  - intros j s Hj ->. unfold frama_scan. rewrite !rd_zf by lia. cbn [bind]. replace (Z.max f (j + 1 - 1)) with j by lia.
    rewrite <- (max_strict high f j), <- (min_strict low f j) by lia.
    destruct (Z.lt_trichotomy j c) as [L|[->|L]].
    + replace (c <? j) with false by lia. replace (c <? j + 1) with false by lia. replace (j =? c) with false by lia. replace (j >=? c) with false by lia. reflexivity.
    + replace (c <? c) with false by lia. replace (c <? c + 1) with true by lia. replace (c =? c) with true by lia. replace (c >=? c) with true by lia.
      cbn [bind wp]. replace (Z.max f (c - 1)) with (c - 1) by lia. replace (c + 1 - 1) with c by lia. rewrite !ext_one. reflexivity.
    + replace (c <? j) with true by lia. replace (c <? j + 1) with true by lia. replace (j =? c) with false by lia. replace (j >=? c) with true by lia.
      cbn [val bind wp]. replace (j + 1 - 1) with j by lia. rewrite <- (max_strict high c j), <- (min_strict low c j) by lia. replace (Z.max c (j - 1)) with (j - 1) by lia. reflexivity.
  - intros s ->. replace (Z.max f (i + 1 - 1)) with i by lia. replace (c <? i + 1) with true by lia. replace (i + 1 - 1) with i by lia. reflexivity.
Qed.
(** A deque with the last m bars before bar i, newest first. *)
Definition stored (q x : list (@T RA)) (i m : Z) : Prop := zlen q = m /\ forall k, 0 <= k < m -> rd q k = Ok (zf x (i - 1 - k)).
Lemma rd_cons_S {X} (a : X) l k : 1 <= k -> rd (a :: l) k = rd l (k - 1).
Proof.
  intros H. unfold rd. rewrite zlen_cons. replace ((0 <=? k) && (k <? zlen l + 1)) with ((0 <=? k - 1) && (k - 1 <? zlen l)) by lia.
  replace (Z.to_nat k) with (S (Z.to_nat (k - 1))) by lia. reflexivity.
Qed.
Lemma stored_push q x i m : 0 <= m -> stored q x i m -> stored (@zf RA x i :: q) x (i + 1) (m + 1).
Proof.
  intros Hm [H1 H2]. split; [rewrite zlen_cons; lia|]. intros k Hk. destruct (Z.eq_dec k 0) as [->|N].
  - rewrite rd_zf by (rewrite zlen_cons; lia). change (Ok (@zf RA x i) = Ok (@zf RA x (i + 1 - 1 - 0))). do 2 f_equal. lia.
  - rewrite rd_cons_S by lia. rewrite H2 by lia. do 2 f_equal. lia.
Qed.
Lemma rd_removelast {X} (l : list X) k : 0 <= k < zlen l - 1 -> rd (removelast l) k = rd l k.
Proof.
  intros H. destruct (@exists_last _ l) as (l' & a & ->); [intros ->; cbn in H; lia|].
  rewrite removelast_last. rewrite zlen_app in H. unfold zlen at 2 in H. cbn [length] in H. unfold rd. rewrite zlen_app. unfold zlen at 3. cbn [length].
  replace ((0 <=? k) && (k <? zlen l')) with true by lia. replace (_ && _) with true by lia.
  rewrite nth_error_app1; [reflexivity|]. unfold zlen in H. lia.
Qed.
Lemma stored_roll q x i m : 1 <= m -> stored q x i m -> stored (@zf RA x i :: removelast q) x (i + 1) m.
Proof.
  intros Hm [H1 H2]. replace m with (m - 1 + 1) by lia. apply stored_push; [lia|]. split; [rewrite zlen_removelast; lia|].
  intros k Hk. rewrite rd_removelast by lia. apply H2. lia.
Qed.
Lemma clamp_R (al u v : R) : @MINf RA (@MAXf RA al u) v = if Rltb v (if Rltb al u then u else al) then v else if Rltb al u then u else al.
Proof.
  rewrite MAXf_R, MINf_R. destruct (Rltb_spec al u) as [a|a].
  - rewrite Rmax_right by lra. unfold Rmin. destruct (Rltb_spec v u), (Rle_dec u v); lra.
  - rewrite Rmax_left by lra. unfold Rmin. destruct (Rltb_spec v al), (Rle_dec al v); lra.
Qed.
Definition o_frama_stream : @optspec RA := fun options v => exists n ap, options = [@of_Z RA n; ap] /\ INT_MIN <= n <= INT_MAX /\
  v = if (n <? 1) || negb (Z.rem n 2 =? 0) then Reject else if ap .< #2 then Outside else Accept 0.
Definition frama_rel (x y : list (@T RA)) (h i : Z) (a : option (@T RA)) (b : @frama_state RA) : Prop :=
  let '(filt, (mx1, mn1), (mx2, mn2), hs, ls) := b in
  (1 <= i -> a = Some filt) /\ stored hs x i (Z.min i (2 * h)) /\ stored ls y i (Z.min i (2 * h)) /\
  (1 <= i -> let lo := Z.max 0 (i - 2 * h) in let hi := if i <=? h then i - 1 else Z.max (h - 1) (i - h - 1) in
     extr gef (@zf RA x) lo hi mx2 /\ extr lef (@zf RA y) lo hi mn2) /\
  (h < i -> let lo := Z.max h (i - h) in extr gef (@zf RA x) lo (i - 1) mx1 /\ extr lef (@zf RA y) lo (i - 1) mn1).
Lemma half_R h : (@of_Z RA (2 * h) ./ #2) = @of_Z RA h.
Proof. change (IZR (2 * h) / IZR 2 = IZR h)%R. rewrite mult_IZR. lra. Qed.
Lemma frama_sim : @sim RA _ _ 2 1 o_frama_stream always ti_frama_start ti_frama ti_frama_stream_new frama_loops.
Proof.
  intros options v (n & ap & -> & Hn & ->). unfold ti_frama, ti_frama_stream_new. cbn [ti_frama_start].
  rewrite flt_of_Z by zl. destruct (n <? 1) eqn:E1; cbn [orb]; [reject_tac2|].
  rewrite (cast_of_Z n) by zl. cbn [bind]. destruct (negb (Z.rem n 2 =? 0)) eqn:E2.
  { split; [reflexivity|]. intros size inputs (? & ? & ?). lists. destruct (ap .< #2); reflexivity. }
  destruct (ap .< #2) eqn:E3; [exact I|].
  assert (exists h, n = 2 * h /\ Z.quot n 2 = h) as (h & -> & Hh).
  { exists (Z.quot n 2). split; [|reflexivity]. pose proof (Z.quot_rem' n 2). lia. }
  rewrite half_R. rewrite !ceilto_of_Z, !cast_of_Z by zl. cbn [bind]. accept_tac.
  match goal with |- exists s' outs, ?m = _ /\ _ => match m with context[emits 0 _ ?f1 ?s0] => match m with context[emits (2 * h) _ ?f2 _] =>
    assert (Em : m = if size <=? 0 then Ok (OKAY, repeat [] 1) else batch_loops 1 size {| Stream.bounded := [(2 * h, f1)]; Stream.final := f2 |} None) end end end.
  { destruct (size <=? 0); [reflexivity|]. unfold batch_loops, run_loops. cbn [phases Stream.bounded Stream.final repeat].
    replace (Z.max 0 (Z.min (2 * h) size)) with (Z.min (2 * h) size) by lia. destruct (emits 0 _ _ _) as [so|]; cbn [bind]; [|reflexivity].
    destruct (Z.le_gt_cases (2 * h) size) as [L|L].
    - replace (Z.min (2 * h) size) with (2 * h) by lia. destruct (emits _ _ _ _) as [[? ?]|]; reflexivity.
    - replace (Z.min (2 * h) size) with size by lia. unfold emits. rewrite !for_nil by lia. cbn [bind]. destruct so; reflexivity. }
  rewrite Em. clear Em.
  guard_tac (frama_rel x x0 h).
  - split; [lia|]. rewrite Z.min_l by lia. split; [split; [reflexivity|intros; lia]|]. split; [split; [reflexivity|intros; lia]|]. split; lia.
  - unfold frama_rel in *. destruct HR as (HF & Hq1 & Hq2 & HE2 & HE1).
    assert (H1h : 1 <= h) by lia. replace (0 <=? i) with true by lia. rewrite !Hh, Z.eqb_refl. replace (- 0 + i) with i by lia. change (1 - - 0) with 1.
    replace (h - - 0) with h by lia. replace (h + 1 - - 0) with (h + 1) by lia. replace (2 * h - - 0) with (2 * h) by lia.
    destruct (i <? 2 * h) eqn:Ei.
    + assert (EM : Z.min (i + 1) (2 * h) = Z.min i (2 * h) + 1) by lia.
      destruct (i <? 1) eqn:Ea; [|destruct (i <? h) eqn:Eb; [|destruct (i <? h + 1) eqn:Ec]].
      * assert (i = 0) as -> by lia. rewrite !rd_zf by lia. cbn [bind wp fst snd]. split; [reflexivity|]. split; [split; [reflexivity|repeat constructor]|].
        split; [reflexivity|]. rewrite EM. split; [apply stored_push; [lia|exact Hq1]|]. split; [apply stored_push; [lia|exact Hq2]|].
        split; [|lia]. intros _. replace (Z.max 0 (0 + 1 - 2 * h)) with 0 by lia. replace (0 + 1 <=? h) with true by lia. split; apply extr_one.
      * rewrite !rd_zf by lia. cbn [bind wp fst snd]. split; [reflexivity|]. split; [split; [reflexivity|repeat constructor]|].
        split; [reflexivity|]. rewrite EM. split; [apply stored_push; [lia|exact Hq1]|]. split; [apply stored_push; [lia|exact Hq2]|].
        split; [|lia]. intros _. replace (i + 1 <=? h) with true by lia. replace (i + 1 - 1) with i by lia.
        destruct HE2 as [Hx Hy]; [lia|]. replace (i <=? h) with true in * by lia. replace (Z.max 0 (i - 2 * h)) with 0 in * by lia. replace (Z.max 0 (i + 1 - 2 * h)) with 0 by lia.
        split; [apply (push_ok (@gef RA) (@zf RA x)) | apply (push_ok (@lef RA) (@zf RA x0))]; (lia || assumption).
      * assert (i = h) as -> by lia. rewrite !rd_zf by lia. cbn [bind wp fst snd]. split; [reflexivity|]. split; [split; [reflexivity|repeat constructor]|].
        split; [reflexivity|]. rewrite EM. split; [apply stored_push; [lia|exact Hq1]|]. split; [apply stored_push; [lia|exact Hq2]|].
        split.
        { intros _. destruct HE2 as [Hx Hy]; [lia|]. replace (h + 1 <=? h) with false by lia. replace (h <=? h) with true in * by lia.
          replace (Z.max 0 (h + 1 - 2 * h)) with (Z.max 0 (h - 2 * h)) by lia. replace (Z.max (h - 1) (h + 1 - h - 1)) with (h - 1) by lia. split; assumption. }
        intros _. replace (Z.max h (h + 1 - h)) with h by lia. replace (h + 1 - 1) with h by lia. split; apply extr_one.
      * rewrite !rd_zf by lia. cbn [bind wp fst snd]. split; [reflexivity|]. split; [split; [reflexivity|repeat constructor]|].
        split; [reflexivity|]. rewrite EM. split; [apply stored_push; [lia|exact Hq1]|]. split; [apply stored_push; [lia|exact Hq2]|].
        split.
        { intros _. destruct HE2 as [Hx Hy]; [lia|]. replace (i + 1 <=? h) with false by lia. replace (i <=? h) with false in * by lia.
          replace (Z.max 0 (i + 1 - 2 * h)) with (Z.max 0 (i - 2 * h)) by lia. replace (Z.max (h - 1) (i + 1 - h - 1)) with (Z.max (h - 1) (i - h - 1)) by lia. split; assumption. }
        intros _. destruct HE1 as [Hx Hy]; [lia|]. replace (Z.max h (i + 1 - h)) with h by lia. replace (Z.max h (i - h)) with h in * by lia. replace (i + 1 - 1) with i by lia.
        split; [apply (push_ok (@gef RA) (@zf RA x)) | apply (push_ok (@lef RA) (@zf RA x0))]; (lia || assumption).
    + replace (i <? 1) with false by lia. replace (i <? h) with false by lia. replace (i <? h + 1) with false by lia.
      rewrite HF by lia. destruct HE2 as [Hx2 Hy2]; [lia|]. destruct HE1 as [Hx1 Hy1]; [lia|]. replace (i <=? h) with false in * by lia.
      replace (Z.min i (2 * h)) with (2 * h) in * by lia. replace (Z.min (i + 1) (2 * h)) with (2 * h) by lia.
      replace (Z.max 0 (i - 2 * h)) with (i - 2 * h) in * by lia. replace (Z.max (h - 1) (i - h - 1)) with (i - h - 1) in * by lia.
      replace (Z.max h (i - h)) with (i - h) in * by lia.
      rewrite (fsub_of_Z i (2 * h)), (fadd_of_Z (i - 2 * h) 1), cast_of_Z by zl. cbn [bind]. rewrite !rd_zf by lia. cbn [bind].
      rewrite scan_ok by lia. cbn [bind val]. 
      assert (Hl0' : zlen l0 = 2 * h) by (destruct Hq1; assumption). replace (0 <? zlen l0) with true by lia. cbn [check bind].
      pose proof (stored_roll l0 x i (2 * h) ltac:(lia) Hq1) as Hq1'. pose proof (stored_roll l x0 i (2 * h) ltac:(lia) Hq2) as Hq2'.
      assert (Hr1 : forall k, 0 <= k < 2 * h -> rd (@zf RA x i :: removelast l0) k = Ok (@zf RA x (i - k))).
      { intros k Hk. destruct Hq1' as [_ HQ]. rewrite HQ by lia. do 2 f_equal. lia. }
      assert (Hr2 : forall k, 0 <= k < 2 * h -> rd (@zf RA x0 i :: removelast l) k = Ok (@zf RA x0 (i - k))).
      { intros k Hk. destruct Hq2' as [_ HQ]. rewrite HQ by lia. do 2 f_equal. lia. }
      destruct (track_ok (@gef RA) geR_po (@zf RA x) _ i (2 * h) h h f ltac:(lia) ltac:(lia) Hr1 Hx2) as (e2 & Ee2 & Gx2).
      destruct (track_ok (@lef RA) leR_po (@zf RA x0) _ i (2 * h) h h f0 ltac:(lia) ltac:(lia) Hr2 Hy2) as (g2 & Eg2 & Gy2).
      destruct (track_ok (@gef RA) geR_po (@zf RA x) (@zf RA x i :: removelast l0) i h 0 h f1 ltac:(lia) ltac:(lia)) as (e1 & Ee1 & Gx1);
        [intros; apply Hr1; lia|replace (i - 0 - 1) with (i - 1) by lia; exact Hx1|].
      destruct (track_ok (@lef RA) leR_po (@zf RA x0) (@zf RA x0 i :: removelast l) i h 0 h f2 ltac:(lia) ltac:(lia)) as (g1 & Eg1 & Gy1);
        [intros; apply Hr2; lia|replace (i - 0 - 1) with (i - 1) by lia; exact Hy1|].
      cbn [wp]. unfold gef in Ee2, Ee1. unfold lef in Eg2, Eg1. cbn beta in *.
      rewrite Ee2. cbn [bind].
      rewrite Eg2. cbn [bind].
      rewrite Ee1. cbn [bind].
      rewrite Eg1. cbn [bind].
      rewrite half_R. replace (i - 0) with i in * by lia. replace (i - h + 1 - 1) with (i - h) by lia.
      assert (Q2x : fst e2 = ext (@gef RA) x (i - 2 * h + 1) (i - h)) by (rewrite Gx2; reflexivity).
      assert (Q2y : fst g2 = ext (@lef RA) x0 (i - 2 * h + 1) (i - h)) by (rewrite Gy2; reflexivity).
      assert (Q1x : fst e1 = ext (@gef RA) x (i - h + 1) i) by (rewrite Gx1; reflexivity).
      assert (Q1y : fst g1 = ext (@lef RA) x0 (i - h + 1) i) by (rewrite Gy1; reflexivity).
      rewrite Q2x, Q2y, Q1x, Q1y. rewrite (MAXf_R (ext _ _ _ _)), (MINf_R (ext _ _ _ _)).
      pose proof (max_join x (i - 2 * h + 1) (i - h + 1) i ltac:(lia)) as EJ. replace (i - h + 1 - 1) with (i - h) in EJ by lia. rewrite EJ.
      pose proof (min_join x0 (i - 2 * h + 1) (i - h + 1) i ltac:(lia)) as EJ'. replace (i - h + 1 - 1) with (i - h) in EJ' by lia. rewrite EJ'.
      set (al := libm Lexp _).
      assert (EA : @MINf RA (@MAXf RA al (lit 1 2)) #1 = (if (if al .< lit 1 2 then lit 1 2 else al) .> #1 then #1 else if al .< lit 1 2 then lit 1 2 else al)).
      { apply clamp_R. }
      rewrite EA. cbn [wp fst snd]. split; [reflexivity|]. split; [split; [reflexivity|repeat constructor]|].
      split; [reflexivity|]. split; [exact Hq1'|]. split; [exact Hq2'|]. replace (i + 1 <=? h) with false by lia.
      replace (Z.max 0 (i + 1 - 2 * h)) with (i - 2 * h + 1) by lia. replace (Z.max (h - 1) (i + 1 - h - 1)) with (i - h) by lia.
      replace (Z.max h (i + 1 - h)) with (i - h + 1) by lia. replace (i + 1 - 1) with i by lia. auto.
Qed.
Lemma frama_online {A : Arith} : online 2 frama_loops. Proof. online_tac @frama_loops; rewrite ?Z.add_0_r; reflexivity. Qed.

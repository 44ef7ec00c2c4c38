(** The lines of pc and ichi are the extremes of their windows. *)
From Verif Require Import StreamOut C_stream6 Fun_rank.
From Coq Require Import ZifyBool.

Section F.
Context {A : Arith} {IL : IntLaws A}.
Context (good : T -> Prop) (AL : AntiLaws A good) (IF : InfLaw A good).

(** v is the highest (lowest) of bars lo .. hi-1 of x. *)
Definition highest (x : list T) (lo hi : Z) (v : T) : Prop :=
  (exists k, lo <= k < hi /\ v = zf x k) /\ forall k, lo <= k < hi -> (zf x k .<= v) = true.
Definition lowest (x : list T) (lo hi : Z) (v : T) : Prop :=
  (exists k, lo <= k < hi /\ v = zf x k) /\ forall k, lo <= k < hi -> (v .<= zf x k) = true.
(** v is the middle of the channel of the n bars up to bar i. *)
Definition channel (high low : list T) (n i : Z) (v : T) : Prop :=
  exists h l, highest high (i - n + 1) (i + 1) h /\ lowest low (i - n + 1) (i + 1) l /\ v = (h .+ l) ./ #2.

Lemma ext_highest x lo hi off s : (forall j, lo <= j <= hi -> good (zf x j)) -> is_ext lessf (zf x) lo hi off s -> highest x lo (hi + 1) (fst s).
Proof.
  intros G (k & _ & B & E & D). split; [exists k; split; [lia|exact E]|]. intros j Hj. specialize (D j ltac:(lia)). rewrite E in *. unfold lessf in D.
  rewrite (ord_lt_le _ _ (anti_ord _ _ AL)) in D by (apply G; lia). destruct (zf x j .<= zf x k); [reflexivity|discriminate].
Qed.
Lemma ext_lowest x lo hi off s : (forall j, lo <= j <= hi -> good (zf x j)) -> is_ext moref (zf x) lo hi off s -> lowest x lo (hi + 1) (fst s).
Proof.
  intros G (k & _ & B & E & D). split; [exists k; split; [lia|exact E]|]. intros j Hj. specialize (D j ltac:(lia)). rewrite E in *. unfold moref in D.
  rewrite (ord_lt_le _ _ (anti_ord _ _ AL)) in D by (apply G; lia). destruct (zf x k .<= zf x j); [reflexivity|discriminate].
Qed.

Let Lmax := max_laws good AL.
Let Lmin := min_laws good AL.

Lemma pc_values size x y o p : to_int o = Some p -> 2 <= p -> zlen x = size -> zlen y = size -> Forall good x -> Forall good y ->
  exists lo hi, ti_pc size [x; y] [o] = Ok (OKAY, [lo; hi]) /\
  (zlen lo = Z.max 0 (size - (p - 1)) /\ forall j, 0 <= j < zlen lo -> lowest y j (j + p) (zf lo j)) /\
  (zlen hi = Z.max 0 (size - (p - 1)) /\ forall j, 0 <= j < zlen hi -> highest x j (j + p) (zf hi j)).
Proof.
  intros Ho Hp Hx Hy Gx Gy. pose proof (Forall_zf good _ Gx) as GX. pose proof (Forall_zf good _ Gy) as GY. pose proof (zlen_nonneg x).
  unfold ti_pc, cast. rewrite Ho. cbn [bind]. replace (p <? 1) with false by lia.
  match goal with |- context [batch_loops 2 size ?ll ?ss] => destruct (batch_nth (fun (i : Z) (a : T * option Z * T * option Z) =>
      (i = 0 -> a = (.- finf, None, finf, None)) /\
      (1 <= i -> exists h kh l kl, a = (h, Some kh, l, Some kl) /\ hi_ok x p 0 i (h, kh) /\ lo_ok y p 0 i (l, kl)))
    [fun i v => lowest y (i - p + 1) (i + 1) v; fun i v => highest x (i - p + 1) (i + 1) v] (p - 1) ll size ss) as (outs & E & N) end.
  - lia.
  - lia.
  - split; [reflexivity|lia].
  - intros i a Hi [I0 I1]. unfold dispatch. cbn [dispatch' bounded final]. unfold bar_ok. destruct (i <? p - 1) eqn:Ei.
    + rewrite !rd_zf by lia. destruct a as [[[m km] m'] km'].
      destruct (Z.eq_dec i 0) as [->|N0].
      * specialize (I0 eq_refl). injection I0; intros; subst. cbn [bind]. destruct (IF (zf x 0)) as [-> _]; [apply GX; lia|]. destruct (IF (zf y 0)) as [_ ->]; [apply GY; lia|].
        cbn [wp fst snd]. split; [reflexivity|]. split; [lia|]. intros _. do 4 eexists. split; [reflexivity|].
        split; (apply trk_ok_next; [lia|]; replace (Z.max 0 (0 - p + 1)) with 0 by lia).
        -- apply (ext_one good _ _ Lmax); [apply GX; lia|lia].
        -- apply (ext_one good _ _ Lmin); [apply GY; lia|lia].
      * destruct I1 as (h & kh & l & kl & EA & A1 & A2); [lia|]. injection EA; intros; subst. cbn [bind].
        change (h .<= zf x i) with (le_f h (zf x i)). change (zf y i .<= l) with (ge_f l (zf y i)). rewrite !opt_push.
        cbn [wp fst snd]. split; [reflexivity|]. split; [lia|]. intros _. do 4 eexists. split; [reflexivity|].
        split; (apply trk_ok_next; [lia|]); rewrite <- surjective_pairing.
        -- apply (push_ok good _ _ Lmax) with (1 := A1); [lia|lia|intros; apply GX; lia|lia].
        -- apply (push_ok good _ _ Lmin) with (1 := A2); [lia|lia|intros; apply GY; lia|lia].
    + destruct I1 as (h & kh & l & kl & EA & A1 & A2); [lia|]. subst a. rewrite !rd_zf by lia. unfold val. cbn [bind].
      destruct (next_ext good _ _ Lmax (.- finf, 0) (zf x) p 0 i i (kh =? i - p) (rescan_rev lessf x p i) (h, kh)) as (h' & E1 & Xh); try assumption; try lia; try reflexivity.
      { intros; apply GX; lia. }
      { intros; apply (rescan_rev_ok good _ _ Lmax); [exact GX|lia|lia]. }
      destruct (next_ext good _ _ Lmin (finf, 0) (zf y) p 0 i i (kl =? i - p) (rescan_rev moref y p i) (l, kl)) as (l' & E2 & Xl); try assumption; try lia; try reflexivity.
      { intros; apply GY; lia. }
      { intros; apply (rescan_rev_ok good _ _ Lmin); [exact GY|lia|lia]. }
      rewrite E1. cbn [bind]. rewrite E2. cbn [bind wp fst snd]. split.
      * replace (Z.max 0 (i - p + 1)) with (i - p + 1) in * by lia. constructor; [|constructor; [|constructor]]; eexists; (split; [reflexivity|]).
        -- eapply ext_lowest; [|exact Xl]. intros; apply GY; lia.
        -- eapply ext_highest; [|exact Xh]. intros; apply GX; lia.
      * split; [lia|]. intros _. do 4 eexists. split; [reflexivity|]. rewrite <- !surjective_pairing. split; (apply trk_ok_next; [lia|assumption]).
  - inversion N as [|? lo ? outs1 [L1 V1] N1]; subst. inversion N1 as [|? hi ? outs2 [L2 V2] N2]; subst. inversion N2; subst.
    exists lo, hi. split; [exact E|]. split; (split; [assumption|]); intros j Hj.
    + specialize (V1 j Hj). replace (p - 1 + j - p + 1) with j in V1 by lia. replace (p - 1 + j + 1) with (j + p) in V1 by lia. exact V1.
    + specialize (V2 j Hj). replace (p - 1 + j - p + 1) with j in V2 by lia. replace (p - 1 + j + 1) with (j + p) in V2 by lia. exact V2.
Qed.

(** ** ichi *)
Definition spanA_ok (x y : list T) (a b i : Z) (v : T) : Prop := exists t k, channel x y a i t /\ channel x y b i k /\ v = (t .+ k) ./ #2.
Lemma after_ok x y a b c i s : (forall j, 0 <= j <= i -> good (zf x j)) -> (forall j, 0 <= j <= i -> good (zf y j)) -> 0 <= i -> 1 <= a -> a <= b -> b <= c -> c - 1 <= i ->
  ichi_after x y a b c 0 i s ->
  channel x y a i (ichi_tenkan s) /\ channel x y b i (ichi_kijun s) /\ spanA_ok x y a b i (ichi_spanA s) /\ channel x y c i (ichi_spanB s).
Proof.
  intros GX GY Hi Ha Hb Hc Hw. destruct s as [[[h1 l1] [h2 l2]] [h3 l3]]. intros ((A1 & A2) & (A3 & A4) & A5 & A6).
  assert (C : forall n h l, 1 <= n <= c -> is_ext lessf (zf x) (Z.max 0 (i - n + 1)) i 0 h -> is_ext moref (zf y) (Z.max 0 (i - n + 1)) i 0 l -> channel x y n i (mid h l)).
  { intros n h l Hn Xh Xl. replace (Z.max 0 (i - n + 1)) with (i - n + 1) in * by lia. exists (fst h), (fst l).
    split; [eapply ext_highest; [|exact Xh]; intros; apply GX; lia|]. split; [eapply ext_lowest; [|exact Xl]; intros; apply GY; lia|reflexivity]. }
  assert (C1 := C a h1 l1 ltac:(lia) A1 A2). assert (C2 := C b h2 l2 ltac:(lia) A3 A4). assert (C3 := C c h3 l3 ltac:(lia) A5 A6).
  split; [exact C1|]. split; [exact C2|]. split; [|exact C3]. do 2 eexists. split; [exact C1|]. split; [exact C2|reflexivity].
Qed.
Lemma ichi_values size x y o0 o1 o2 a b c : to_int o0 = Some a -> to_int o1 = Some b -> to_int o2 = Some c -> 1 <= a -> a <= b -> b <= c -> c - 1 + b <= INT_MAX -> b + 1 <= INT_MAX ->
  zlen x = size -> zlen y = size -> Forall good x -> Forall good y ->
  exists t k sa sb, ti_ichi size [x; y] [o0; o1; o2] = Ok (OKAY, [t; k; sa; sb]) /\
  let n := Z.max 0 (size - (c - 1 + b)) in let st := c - 1 + b in
  (zlen t = n /\ forall j, 0 <= j < n -> channel x y a (st + j) (zf t j)) /\
  (zlen k = n /\ forall j, 0 <= j < n -> channel x y b (st + j) (zf k j)) /\
  (zlen sa = n /\ forall j, 0 <= j < n -> spanA_ok x y a b (st + j - b) (zf sa j)) /\
  (zlen sb = n /\ forall j, 0 <= j < n -> channel x y c (st + j - b) (zf sb j)).
Proof.
  intros H0 H1 H2 Ha Hb Hc Hm Hm2 Hx Hy Gx Gy. pose proof (Forall_zf good _ Gx) as GX. pose proof (Forall_zf good _ Gy) as GY. pose proof (zlen_nonneg x).
  unfold ti_ichi, cast, ichi_reject. rewrite H0, H1, H2. cbn [bind]. replace (negb _) with false by lia. rewrite !ck_ok by zl. cbn [bind].
  destruct (ring_new_ok (b + 1) ltac:(lia)) as (rb & -> & Hrb). cbn [bind].
  match goal with |- context [batch_loops 4 size ?ll ?ss] => destruct (batch_nth (fun (i : Z) (st : ichi_state * ring * ring) => let '(s, ba, bb) := st in
      ichi_before x y a b c 0 i s /\
      (exists g, hist ba (b + 1) g i /\ forall j, c - 1 <= j < i -> spanA_ok x y a b j (g j)) /\
      (exists g, hist bb (b + 1) g i /\ forall j, c - 1 <= j < i -> channel x y c j (g j)))
    [channel x y a; channel x y b; fun i v => spanA_ok x y a b (i - b) v; fun i v => channel x y c (i - b) v] (c - 1 + b) ll size ss) as (outs & E & N) end.
  - lia.
  - lia.
  - split; [unfold ichi_init; repeat split; lia|]. split; exists (fun _ => #0); (split; [apply hist_of_ok; [exact Hrb|reflexivity]|lia]).
  - intros i [[s ba] bb] Hi (I0 & (ga & Ra & Va) & (gb & Rb & Vb)). unfold dispatch. cbn [dispatch' bounded final].
    destruct (ichi_next_ok good AL x y (fun n => rescan_fwd lessf x n i) (fun n => rescan_fwd moref y n i) i a b c 0 i s) as (s1 & Es1 & Hs1); try assumption; try lia.
    { intros; apply GX; lia. }
    { intros; apply GY; lia. }
    { intros n Hn Hni. apply (rescan_fwd_ok good _ _ Lmax); [exact GX|lia|lia]. }
    { intros n Hn Hni. apply (rescan_fwd_ok good _ _ Lmin); [exact GY|lia|lia]. }
    set (ga' := fun j => if j =? i then ichi_spanA s1 else ga j). set (gb' := fun j => if j =? i then ichi_spanB s1 else gb j).
    destruct (hist_set ba (b + 1) ga' i (ichi_spanA s1)) as (ba' & Ea & Fa).
    { eapply hist_ext; [|exact Ra]. intros j Hj. unfold ga'. replace (i - j =? i) with false by lia. reflexivity. }
    { unfold ga'. rewrite Z.eqb_refl. reflexivity. }
    destruct (hist_set bb (b + 1) gb' i (ichi_spanB s1)) as (bb' & Eb & Fb).
    { eapply hist_ext; [|exact Rb]. intros j Hj. unfold gb'. replace (i - j =? i) with false by lia. reflexivity. }
    { unfold gb'. rewrite Z.eqb_refl. reflexivity. }
    assert (K : c - 1 <= i -> channel x y a i (ichi_tenkan s1) /\ channel x y b i (ichi_kijun s1) /\ spanA_ok x y a b i (ichi_spanA s1) /\ channel x y c i (ichi_spanB s1)).
    { intros Hw. apply after_ok with (c := c); try assumption; try lia; intros; [apply GX|apply GY]; lia. }
    assert (Va' : forall j, c - 1 <= j < i + 1 -> spanA_ok x y a b j (ga' j)).
    { intros j Hj. unfold ga'. destruct (j =? i) eqn:Ej; [replace j with i by lia; apply K; lia|apply Va; lia]. }
    assert (Vb' : forall j, c - 1 <= j < i + 1 -> channel x y c j (gb' j)).
    { intros j Hj. unfold gb'. destruct (j =? i) eqn:Ej; [replace j with i by lia; apply K; lia|apply Vb; lia]. }
    rewrite !rd_zf by lia. cbn [bind]. rewrite Es1. cbn [bind]. rewrite Ea. cbn [bind]. rewrite Eb. cbn [bind].
    rewrite (full_get _ _ _ _ _ Fa), (full_get _ _ _ _ _ Fb) by lia.
    destruct (i <? c - 1 + b) eqn:Ei; cbn [bind wp fst snd]; unfold bar_ok; rewrite Ei.
    + split; [reflexivity|]. split; [apply ichi_step; [lia|assumption]|]. split; [exists ga'|exists gb']; (split; [apply hist_step; assumption|assumption]).
    + split.
      * destruct K as (K1 & K2 & _); [lia|]. repeat (constructor; [eexists; split; [reflexivity|]|]); [exact K1|exact K2|apply Va'; lia|apply Vb'; lia|constructor].
      * split; [apply ichi_step; [lia|assumption]|]. split; [exists ga'|exists gb']; (split; [apply hist_step; assumption|assumption]).
  - inversion N as [|? t ? outs1 [L1 V1] N1]; subst. inversion N1 as [|? k ? outs2 [L2 V2] N2]; subst. inversion N2 as [|? sa ? outs3 [L3 V3] N3]; subst.
    inversion N3 as [|? sb ? outs4 [L4 V4] N4]; subst. inversion N4; subst. exists t, k, sa, sb. split; [exact E|]. cbv zeta. rewrite L1 in V1. rewrite L2 in V2. rewrite L3 in V3. rewrite L4 in V4. auto 8.
Qed.
End F.

(** What the element-wise, look-back, cross and cumulative indicators compute: exact
    expression per bar, any arithmetic. *)
From Verif Require Export M_basic Tactics.

Tactic Notation "loop_tab" constr(c) constr(F) :=
  loop (fun i out => out = tab 0 (i - c) F);
  [try solve [zl]|try (rewrite tab_nil by zl; reflexivity)
  |let i := fresh "i" in let out := fresh "out" in let Hi := fresh "Hi" in
   intros i out Hi ->; wps; try (apply (tab_next' _ (i - c)); [zl|zl|reflexivity|])
  |intros ? ->].

Lemma tab_eq {B} lo hi lo' hi' (F : Z -> B) : lo = lo' -> hi = hi' -> tab lo hi F = tab lo' hi' F.
Proof. intros -> ->. reflexivity. Qed.
Ltac fintab := wps; try solve [zl]; first [reflexivity | do 2 f_equal; apply tab_eq; zl].

Ltac setF := match goal with |- context[tab 0 ?s ?FF] => set (F := FF) end.

Lemma for_one {S} lo hi (f : Z -> S -> res S) s : hi = lo + 1 -> for_ lo hi f s = f lo s.
Proof.
  intros ->. rewrite for_cons by lia. destruct (f lo s) as [a|u]; cbn [bind]; [|reflexivity].
  apply for_nil. lia.
Qed.

Tactic Notation "loop_rec" constr(lo) constr(c) constr(step) constr(s0) constr(F) :=
  loop (fun i st => fst st = trec step lo i s0 /\ snd st = tab 0 (i - c) F);
  [try solve [zl]|split; cbn [fst snd]; [try (rewrite trec_nil by zl; reflexivity)|try (rewrite tab_nil by zl; reflexivity)]
  |let i := fresh "i" in let s := fresh "s" in let out := fresh "out" in let Hi := fresh "Hi" in
   let Hst := fresh "Hst" in
   intros i [s out] Hi [Hst ?]; cbn [fst snd] in *; subst out
  |let s := fresh "s" in let out := fresh "out" in intros [s out] [? ?]; cbn [fst snd] in *; subst out].
(** Closing a recurrence step: the new state is [step] of the old one ([Hst]). *)
Ltac branches := repeat match goal with
  | E : ?b = true |- context[if ?b then _ else _] => rewrite E
  | E : ?b = false |- context[if ?b then _ else _] => rewrite E end.
Tactic Notation "rec_step" constr(c) := cbn [fst snd];
  match goal with |- _ = trec ?st ?lo (?i + 1) ?s0 /\ _ =>
    let Hlt := fresh in assert (Hlt : lo <= i) by zl;
    pose proof (trec_snoc st lo i s0 Hlt) as Hrec;
    match goal with H : ?s = trec st lo i s0 |- _ => rewrite <- H in Hrec end; cbn beta iota in Hrec;
    split; [rewrite Hrec; branches; try reflexivity
           |apply (tab_next' _ (i - c)); [zl|zl|reflexivity|]; cbn beta;
            replace (i - c + (c + 1)) with (i + 1) by zl]
  end.

Tactic Notation "recur" constr(lo) constr(c) constr(step) constr(s0) :=
  match goal with |- context[tab 0 ?n ?F] =>
    loop_rec lo c step s0 F;
    [..|wps; rec_step c;
        try match goal with H : trec _ _ (?i + 1) _ = _ |- context[trec _ _ ?k _] =>
          replace k with (i + 1) by zl; rewrite H; branches; try reflexivity end|fintab]
  end.
Tactic Notation "openfun" reference(f) := intros; ranges; apply wp_eq; unfold f, start_p, start_p1, start0, start1;
  wps; contra; try solve [rewrite !tab_nil by zl; reflexivity].
Section F.
Context {A : Arith} {L : IntLaws A}.

Lemma zf_tab lo hi f k : 0 <= k < hi - lo -> zf (tab lo hi f) k = f (lo + k).
Proof. apply zn_tab. Qed.

Lemma SIMPLE1_fun op size (in1 : list T) (g : Z -> T) : zlen in1 = size -> 0 <= size <= INT_MAX ->
  (forall i, 0 <= i < size -> op (zf in1 i) = Ok (g i)) ->
  SIMPLE1 op size [in1] [] = Ok (OKAY, [tab 0 size g]).
Proof.
  intros Hl Hs Hop. apply wp_eq. unfold SIMPLE1.
  loop (fun i out => out = tab 0 i g); [zl|reflexivity| |intros ? ->; wps; reflexivity].
  intros i out Hi ->. wps. rewrite Hop by lia. wps. rewrite tab_snoc by lia. reflexivity.
Qed.
Lemma SIMPLE2_fun op size (in1 in2 : list T) : zlen in1 = size -> zlen in2 = size -> 0 <= size <= INT_MAX ->
  SIMPLE2 op size [in1; in2] [] = Ok (OKAY, [tab 0 size (fun i => op (zf in1 i) (zf in2 i))]).
Proof.
  intros H1 H2 Hs. apply wp_eq. unfold SIMPLE2. setF.
  loop (fun i out => out = tab 0 i F); [zl|reflexivity| |intros ? ->; wps; reflexivity].
  intros i out Hi ->. wps. rewrite tab_snoc by lia. reflexivity.
Qed.

Tactic Notation "elem" reference(f) := intros; apply wp_eq; unfold f, start0;
  match goal with |- context[tab 0 ?s ?F] =>
  loop (fun i out => out = tab 0 i F); [zl|reflexivity| |intros ? ->; wps; reflexivity] end;
  let i := fresh "i" in let out := fresh "out" in let Hi := fresh "Hi" in
  intros i out Hi ->; wps; rewrite tab_snoc by zl; try reflexivity.

Lemma avgprice_fun size o h l c : zlen o = size -> zlen h = size -> zlen l = size -> zlen c = size -> 0 <= size <= INT_MAX ->
  ti_avgprice size [o; h; l; c] [] = Ok (OKAY, [tab 0 size (fun i => (zf o i .+ zf h i .+ zf l i .+ zf c i) .* lit 25 2)]).
Proof. elem ti_avgprice. Qed.
Lemma medprice_fun size h l : zlen h = size -> zlen l = size -> 0 <= size <= INT_MAX ->
  ti_medprice size [h; l] [] = Ok (OKAY, [tab 0 size (fun i => (zf h i .+ zf l i) .* lit 5 1)]).
Proof. elem ti_medprice. Qed.
Lemma typprice_fun size h l c : zlen h = size -> zlen l = size -> zlen c = size -> 0 <= size <= INT_MAX ->
  ti_typprice size [h; l; c] [] = Ok (OKAY, [tab 0 size (fun i => (zf h i .+ zf l i .+ zf c i) .* (#1 ./ #3))]).
Proof. elem ti_typprice. Qed.
Lemma wcprice_fun size h l c : zlen h = size -> zlen l = size -> zlen c = size -> 0 <= size <= INT_MAX ->
  ti_wcprice size [h; l; c] [] = Ok (OKAY, [tab 0 size (fun i => (zf h i .+ zf l i .+ zf c i .+ zf c i) .* lit 25 2)]).
Proof. elem ti_wcprice. Qed.
Lemma bop_fun size o h l c : zlen o = size -> zlen h = size -> zlen l = size -> zlen c = size -> 0 <= size <= INT_MAX ->
  ti_bop size [o; h; l; c] [] = Ok (OKAY, [tab 0 size (fun i =>
    if (zf h i .- zf l i) .<= #0 then #0 else (zf c i .- zf o i) ./ (zf h i .- zf l i))]).
Proof. elem ti_bop; rewrite E; reflexivity. Qed.
Lemma marketfi_fun size h l v : zlen h = size -> zlen l = size -> zlen v = size -> 0 <= size <= INT_MAX ->
  ti_marketfi size [h; l; v] [] = Ok (OKAY, [tab 0 size (fun i =>
    if truth (zf v i) then (zf h i .- zf l i) ./ zf v i else #0)]).
Proof.
  intros. apply wp_eq. unfold ti_marketfi, start0. setF. wps.
  { rewrite tab_nil by lia. reflexivity. }
  loop_tab 0 F. { rewrite Z.sub_0_r. reflexivity. } fintab.
Qed.

(** Look-back. *)
Tactic Notation "lookback" reference(f) constr(p) := intros; ranges; apply wp_eq; unfold f, start_p;
  wps; contra;
  [rewrite tab_nil by zl; reflexivity|];
  match goal with |- context[tab 0 ?s ?F] => loop_tab p F end; [rewrite ?Z.sub_add; try reflexivity|fintab].

Lemma lag_fun size x o p : zlen x = size -> 0 <= size <= INT_MAX -> to_int o = Some p -> 0 <= p ->
  ti_lag size [x] [o] = Ok (OKAY, [tab 0 (size - p) (fun k => zf x k)]).
Proof. lookback ti_lag p. Qed.
Lemma mom_fun size x o p : zlen x = size -> 0 <= size <= INT_MAX -> to_int o = Some p -> 1 <= p ->
  ti_mom size [x] [o] = Ok (OKAY, [tab 0 (size - p) (fun k => zf x (k + p) .- zf x k)]).
Proof. lookback ti_mom p. Qed.
Lemma roc_fun size x o p : zlen x = size -> 0 <= size <= INT_MAX -> to_int o = Some p -> 1 <= p ->
  ti_roc size [x] [o] = Ok (OKAY, [tab 0 (size - p) (fun k =>
     if truth (zf x k) then (zf x (k + p) .- zf x k) ./ zf x k else #0)]).
Proof. lookback ti_roc p. Qed.
Lemma rocr_fun size x o p : zlen x = size -> 0 <= size <= INT_MAX -> to_int o = Some p -> 1 <= p ->
  ti_rocr size [x] [o] = Ok (OKAY, [tab 0 (size - p) (fun k =>
     if truth (zf x k) then zf x (k + p) ./ zf x k else #0)]).
Proof. lookback ti_rocr p. Qed.

(** Crossings. *)
Lemma crossany_fun size a b : zlen a = size -> zlen b = size -> 0 <= size <= INT_MAX ->
  ti_crossany size [a; b] [] = Ok (OKAY, [tab 0 (size - 1) (fun k =>
    b2f ((zf a (k + 1) .> zf b (k + 1)) && (zf a k .<= zf b k)
         || (zf a (k + 1) .< zf b (k + 1)) && (zf a k .>= zf b k)))]).
Proof.
  intros. apply wp_eq. unfold ti_crossany. setF.
  destruct (Z.eq_dec size 0) as [E|N].
  { rewrite for_nil by lia. wps. rewrite tab_nil by lia. reflexivity. }
  loop_tab 1 F; [|wps; reflexivity]. unfold F. rewrite Z.sub_add. reflexivity.
Qed.
Lemma crossover_fun size a b : zlen a = size -> zlen b = size -> 0 <= size <= INT_MAX ->
  ti_crossover size [a; b] [] = Ok (OKAY, [tab 0 (size - 1) (fun k =>
    b2f ((zf a (k + 1) .> zf b (k + 1)) && (zf a k .<= zf b k)))]).
Proof.
  intros. apply wp_eq. unfold ti_crossover. setF.
  destruct (Z.eq_dec size 0) as [E|N].
  { rewrite for_nil by lia. wps. rewrite tab_nil by lia. reflexivity. }
  loop_tab 1 F; [|wps; reflexivity]. unfold F. rewrite Z.sub_add. reflexivity.
Qed.

(** Recurrences: [trec step lo hi s] is the state after bars lo..hi-1. *)
Lemma ema_fun size x o p : zlen x = size -> 0 <= size <= INT_MAX -> to_int o = Some p -> 1 <= p ->
  ti_ema size [x] [o] = Ok (OKAY, [tab 0 size (fun k =>
    trec (fun i v => (zf x i .- v) .* (#2 ./ (#p .+ #1)) .+ v) 1 (k + 1) (zf x 0))]).
Proof.
  intros. ranges. apply wp_eq. unfold ti_ema, start0. wps; contra.
  { rewrite tab_nil by zl. reflexivity. }
  recur 1 0 (fun i v => (zf x i .- v) .* (#2 ./ (#p .+ #1)) .+ v) (zf x 0).
  apply tab_one; reflexivity.
Qed.

(** One step of an exponential average with factor [per]. *)
Definition ema_step (per : T) (x : T) (v : T) : T := (x .- v) .* per .+ v.
Definition ema2_step (s l : Z) (x : T) (v : T * T) : T * T :=
  (ema_step (#2 ./ (#s .+ #1)) x (fst v), ema_step (#2 ./ (#l .+ #1)) x (snd v)).
(** The two-average state of apo, ppo and macd. *)
Definition two_emas (x : list T) (s l : Z) (i : Z) : T * T :=
  trec (fun i => ema2_step s l (zf x i)) 1 (i + 1) (zf x 0, zf x 0).
Lemma apo_fun size x o1 o2 s l : zlen x = size -> 0 <= size <= INT_MAX -> to_int o1 = Some s -> to_int o2 = Some l ->
  1 <= s -> 2 <= l -> s <= l ->
  ti_apo size [x] [o1; o2] = Ok (OKAY, [tab 0 (size - 1) (fun k => fst (two_emas x s l (k + 1)) .- snd (two_emas x s l (k + 1)))]).
Proof.
  openfun ti_apo. unfold two_emas.
  recur 1 1 (fun i => ema2_step s l (zf x i)) (zf x 0, zf x 0).
Qed.
Lemma ppo_fun size x o1 o2 s l : zlen x = size -> 0 <= size <= INT_MAX -> to_int o1 = Some s -> to_int o2 = Some l ->
  1 <= s -> 2 <= l -> s <= l ->
  ti_ppo size [x] [o1; o2] = Ok (OKAY, [tab 0 (size - 1) (fun k => 
     let d := fst (two_emas x s l (k + 1)) .- snd (two_emas x s l (k + 1)) in
     if truth d then #100 .* d ./ snd (two_emas x s l (k + 1)) else #0)]).
Proof.
  openfun ti_ppo. unfold two_emas.
  recur 1 1 (fun i => ema2_step s l (zf x i)) (zf x 0, zf x 0).
Qed.
(** Cumulative. *)
Definition ad_term (h l c v : T) (sum : T) : T :=
  if (h .- l) .!= #0 then sum .+ (c .- l .- h .+ c) ./ (h .- l) .* v else sum.
Lemma ad_fun size h l c v : zlen h = size -> zlen l = size -> zlen c = size -> zlen v = size -> 0 <= size <= INT_MAX ->
  ti_ad size [h; l; c; v] [] = Ok (OKAY, [tab 0 size (fun k =>
    trec (fun i => ad_term (zf h i) (zf l i) (zf c i) (zf v i)) 0 (k + 1) #0)]).
Proof.
  openfun ti_ad.
  recur 0 0 (fun i => ad_term (zf h i) (zf l i) (zf c i) (zf v i)) (#0 : T).
  all: unfold ad_term; branches; reflexivity.
Qed.
Definition vi_step (changes : bool) (c c1 : T) (v : T) : T := if changes then v .+ ((c .- c1) ./ c1) .* v else v.
Lemma nvi_fun size c v : zlen c = size -> zlen v = size -> 0 <= size <= INT_MAX ->
  ti_nvi size [c; v] [] = Ok (OKAY, [tab 0 size (fun k =>
    trec (fun i => vi_step (zf v i .< zf v (i - 1)) (zf c i) (zf c (i - 1))) 1 (k + 1) #1000)]).
Proof.
  openfun ti_nvi.
  recur 1 0 (fun i => vi_step (zf v i .< zf v (i - 1)) (zf c i) (zf c (i - 1))) (#1000 : T).
  all: unfold vi_step; branches; reflexivity.
Qed.
Lemma pvi_fun size c v : zlen c = size -> zlen v = size -> 0 <= size <= INT_MAX ->
  ti_pvi size [c; v] [] = Ok (OKAY, [tab 0 size (fun k =>
    trec (fun i => vi_step ((zf v i .> zf v (i - 1)) && (zf v (i - 1) .> #0)) (zf c i) (zf c (i - 1))) 1 (k + 1) #1000)]).
Proof.
  openfun ti_pvi.
  recur 1 0 (fun i => vi_step ((zf v i .> zf v (i - 1)) && (zf v (i - 1) .> #0)) (zf c i) (zf c (i - 1))) (#1000 : T).
  all: unfold vi_step; branches; reflexivity.
Qed.
Definition obv_step (c c1 v : T) (sum : T) : T :=
  if c .> c1 then sum .+ v else if c .< c1 then sum .- v else sum.
Lemma obv_fun size c v : zlen c = size -> zlen v = size -> 0 <= size <= INT_MAX ->
  ti_obv size [c; v] [] = Ok (OKAY, [tab 0 size (fun k =>
    trec (fun i => obv_step (zf c i) (zf c (i - 1)) (zf v i)) 1 (k + 1) #0)]).
Proof.
  intros. apply wp_eq. unfold ti_obv.
  destruct (Z.eq_dec size 0) as [Ez|Nz].
  { rewrite !for_nil by lia. wps. rewrite for_nil by lia. wps. rewrite tab_nil by lia. reflexivity. }
  replace (Z.min 1 size) with 1 by lia. rewrite for_one by lia. wps.
  match goal with |- context[tab 0 ?n ?F] =>
  loop (fun i s => s = (Some (zf c (i - 1)), trec (fun i => obv_step (zf c i) (zf c (i - 1)) (zf v i)) 1 i #0, tab 0 i F)) end.
  - zl.
  - reflexivity.
  - intros i s Hi ->. unfold get. wps.
    all: rewrite (tab_snoc 0 i) by lia; rewrite (trec_snoc _ 1 i) by lia; unfold obv_step; branches;
      replace (i + 1 - 1) with i by lia; reflexivity.
  - intros s ->. wps. reflexivity.
Qed.
Lemma emv_fun size h l v : zlen h = size -> zlen l = size -> zlen v = size -> 0 <= size <= INT_MAX ->
  ti_emv size [h; l; v] [] = Ok (OKAY, [tab 0 (size - 1) (fun k =>
    let mid i := (zf h i .+ zf l i) .* lit 5 1 in
    let move := mid (k + 1) .- mid k in
    if truth move then move ./ (zf v (k + 1) ./ #10000 ./ (zf h (k + 1) .- zf l (k + 1))) else #0)]).
Proof.
  openfun ti_emv.
  match goal with |- context[tab 0 ?n ?F] =>
  loop (fun i s => s = ((zf h (i - 1) .+ zf l (i - 1)) .* lit 5 1, tab 0 (i - 1) F)) end.
  - zl.
  - reflexivity.
  - intros i s Hi ->. wps. f_equal.
    + replace (i + 1 - 1) with i by lia. reflexivity.
    + apply (tab_next' _ (i - 1)); [zl|zl|reflexivity|]. cbn beta. rewrite Z.sub_add. reflexivity.
  - intros s ->. fintab.
Qed.
(** Wilder's true range of a bar, from its high, low and the previous close. *)
Definition tr_val (h l pc : T) : T :=
  let v := h .- l in
  let v := if fabs (h .- pc) .> v then fabs (h .- pc) else v in
  if fabs (l .- pc) .> v then fabs (l .- pc) else v.
Lemma CALC_TRUERANGE_eq h l c i : 0 <= i < zlen h -> 0 <= i < zlen l -> 0 <= i - 1 < zlen c ->
  CALC_TRUERANGE h l c i = Ok (tr_val (zf h i) (zf l i) (zf c (i - 1))).
Proof. intros. apply wp_eq. unfold CALC_TRUERANGE. wps. reflexivity. Qed.
Lemma tr_fun size h l c : zlen h = size -> zlen l = size -> zlen c = size -> 0 <= size <= INT_MAX ->
  ti_tr size [h; l; c] [] = Ok (OKAY, [tab 0 size (fun k =>
    if k =? 0 then zf h 0 .- zf l 0 else tr_val (zf h k) (zf l k) (zf c (k - 1)))]).
Proof.
  intros. apply wp_eq. unfold ti_tr.
  destruct (Z.eq_dec size 0) as [Ez|Nz].
  { rewrite !for_nil by lia. wps. rewrite for_nil by lia. wps. rewrite tab_nil by lia. reflexivity. }
  replace (Z.min 1 size) with 1 by lia. rewrite for_one by lia. wps.
  match goal with |- context[tab 0 ?n ?F] => loop (fun i s => s = tab 0 i F) end.
  - zl.
  - reflexivity.
  - intros i s Hi ->. rewrite CALC_TRUERANGE_eq by zl. wps.
    rewrite tab_snoc by lia. destruct (i =? 0) eqn:?; [lia|]. reflexivity.
  - intros s ->. wps. reflexivity.
Qed.
Definition wad_step (h l c c1 : T) (sum : T) : T :=
  if c .> c1 then sum .+ (c .- MINf c1 l) else if c .< c1 then sum .+ (c .- MAXf c1 h) else sum.
Lemma wad_fun size h l c : zlen h = size -> zlen l = size -> zlen c = size -> 0 <= size <= INT_MAX ->
  ti_wad size [h; l; c] [] = Ok (OKAY, [tab 0 (size - 1) (fun k =>
    trec (fun i => wad_step (zf h i) (zf l i) (zf c i) (zf c (i - 1))) 1 (k + 2) #0)]).
Proof.
  openfun ti_wad.
  match goal with |- context[tab 0 ?n ?F] =>
  loop (fun i s => s = (trec (fun i => wad_step (zf h i) (zf l i) (zf c i) (zf c (i - 1))) 1 i #0, zf c (i - 1), tab 0 (i - 1) F)) end.
  - zl.
  - reflexivity.
  - intros i s Hi ->. wps.
    all: replace (i + 1 - 1) with (i - 1 + 1) by lia; rewrite (tab_snoc 0 (i - 1)) by lia; rewrite (trec_snoc _ 1 i) by lia; cbn beta;
      replace (i - 1 + 2) with (i + 1) by lia; rewrite (trec_snoc _ 1 i) by lia;
      unfold wad_step; branches; replace (i - 1 + 1) with i by lia; reflexivity.
  - intros s ->. fintab.
Qed.
Definition decay_step (d x : T) : T := if x .> d then x else d.
Lemma decay_fun size x o p : zlen x = size -> 0 <= size <= INT_MAX -> to_int o = Some p ->
  ti_decay size [x] [o] = Ok (OKAY, [tab 0 size (fun k =>
    trec (fun i v => decay_step (v .- #1 ./ #p) (zf x i)) 1 (k + 1) (zf x 0))]).
Proof.
  intros. apply wp_eq. unfold ti_decay. wps.
  destruct (Z.eq_dec size 0) as [Ez|Nz].
  { rewrite !for_nil by lia. wps. rewrite for_nil by lia. wps. rewrite tab_nil by lia. reflexivity. }
  replace (Z.min 1 size) with 1 by lia. rewrite for_one by lia. wps.
  match goal with |- context[tab 0 ?n ?F] => loop (fun i s => s = tab 0 i F) end.
  - zl.
  - reflexivity.
  - intros i s Hi ->. wps. rewrite tab_snoc by lia. rewrite (trec_snoc _ 1 i) by lia.
    rewrite zlen_tab, zf_tab by lia. cbn beta.
    replace (0 + (Z.max 0 (i - 0) - 1) + 1) with i by lia. reflexivity.
  - intros s ->. wps. reflexivity.
Qed.
Lemma edecay_fun size x o p : zlen x = size -> 0 <= size <= INT_MAX -> to_int o = Some p ->
  ti_edecay size [x] [o] = Ok (OKAY, [tab 0 size (fun k =>
    trec (fun i v => decay_step (v .* (#1 .- #1 ./ #p)) (zf x i)) 1 (k + 1) (zf x 0))]).
Proof.
  intros. apply wp_eq. unfold ti_edecay. wps.
  destruct (Z.eq_dec size 0) as [Ez|Nz].
  { rewrite !for_nil by lia. wps. rewrite for_nil by lia. wps. rewrite tab_nil by lia. reflexivity. }
  replace (Z.min 1 size) with 1 by lia. rewrite for_one by lia. wps.
  match goal with |- context[tab 0 ?n ?F] => loop (fun i s => s = tab 0 i F) end.
  - zl.
  - reflexivity.
  - intros i s Hi ->. wps. rewrite tab_snoc by lia. rewrite (trec_snoc _ 1 i) by lia.
    rewrite zlen_tab, zf_tab by lia. cbn beta.
    replace (0 + (Z.max 0 (i - 0) - 1) + 1) with i by lia. reflexivity.
  - intros s ->. wps. reflexivity.
Qed.
(** Zero-lag ema: the ema recurrence on x_i + (x_i - x_{i-lag}), started at x_{lag-1}. *)
Lemma zlema_fun size x o p : zlen x = size -> 0 <= size <= INT_MAX -> to_int o = Some p -> 3 <= p ->
  let lag := (p - 1) / 2 in
  ti_zlema size [x] [o] = Ok (OKAY, [tab 0 (size - (lag - 1)) (fun k =>
    trec (fun i => ema_step (#2 ./ (#p .+ #1)) (zf x i .+ (zf x i .- zf x (i - lag)))) lag (k + lag) (zf x (lag - 1)))]).
Proof.
  intros Hl Hs Ho Hp lag. ranges.
  assert (Eq : Z.quot (p - 1) 2 = lag) by (unfold lag; apply Z.quot_div_nonneg; lia).
  assert (1 <= lag <= p) by (unfold lag; split; [apply Z.div_le_lower_bound; lia|apply Z.div_le_upper_bound; lia]).
  apply wp_eq. unfold ti_zlema, ti_zlema_start. wps; rewrite ?Eq in *; contra; try zl.
  { rewrite tab_nil by zl. reflexivity. }
  recur lag (lag - 1) (fun i => ema_step (#2 ./ (#p .+ #1)) (zf x i .+ (zf x i .- zf x (i - lag)))) (zf x (lag - 1)).
  apply tab_one; [lia|]. rewrite trec_nil by lia. reflexivity.
Qed.
(** Double ema: ema2 averages ema and starts, at bar p-1, from ema's value there. *)
Definition dema_ema (x : list T) (p i : Z) : T :=
  let per := #2 ./ (#p .+ #1) in
  trec (fun i v => v .* (#1 .- per) .+ zf x i .* per) 0 (i + 1) (zf x 0).
Definition dema_ema2 (x : list T) (p i : Z) : T :=
  let per := #2 ./ (#p .+ #1) in
  trec (fun i v => v .* (#1 .- per) .+ dema_ema x p i .* per) (p - 1) (i + 1) (dema_ema x p (p - 1)).
Lemma dema_fun size x o p : zlen x = size -> 0 <= size <= INT_MAX -> to_int o = Some p -> 1 <= p <= 1073741824 ->
  ti_dema size [x] [o] = Ok (OKAY, [tab 0 (size - 2 * (p - 1)) (fun k =>
    dema_ema x p (k + 2 * (p - 1)) .* #2 .- dema_ema2 x p (k + 2 * (p - 1)))]).
Proof.
  intros Hl Hs Ho Hp. ranges. apply wp_eq. unfold ti_dema, ti_dema_start. wps; contra.
  { rewrite tab_nil by zl. reflexivity. }
  setF.
  loop (fun i s => exists e2, s = (dema_ema x p (i - 1), e2, tab 0 (i - 2 * (p - 1)) F) /\ (p <= i -> e2 = dema_ema2 x p (i - 1))).
  - zl.
  - eexists. split; [|lia]. rewrite tab_nil by lia. reflexivity.
  - intros i s Hi (e2 & -> & He2).
    assert (Ee : dema_ema x p i = dema_ema x p (i - 1) .* (#1 .- #2 ./ (#p .+ #1)) .+ zf x i .* (#2 ./ (#p .+ #1)))
      by (unfold dema_ema; rewrite (trec_snoc _ 0 i) by lia; rewrite Z.sub_add; reflexivity).
    assert (Ee2 : p - 1 <= i -> dema_ema2 x p i = (if i =? p - 1 then dema_ema x p i else e2) .* (#1 .- #2 ./ (#p .+ #1)) .+ dema_ema x p i .* (#2 ./ (#p .+ #1))).
    { intros Hp1. unfold dema_ema2 at 1; rewrite (trec_snoc _ (p - 1) i) by lia; destruct (i =? p - 1) eqn:Ei.
      - rewrite (trec_nil _ (p - 1) i) by lia; replace (p - 1) with i by lia; reflexivity.
      - rewrite He2 by lia; unfold dema_ema2; rewrite Z.sub_add; reflexivity. }
    replace (i + 1 - 1) with i by lia. wps; rewrite <- Ee; try (rewrite <- Ee2 by lia); eexists; (split; [|first [intros; exfalso; lia | reflexivity]]).
    + f_equal. apply (tab_next' _ (i - 2 * (p - 1))); [lia|lia|reflexivity|]. unfold F.
      replace (i - 2 * (p - 1) + 2 * (p - 1)) with i by lia. reflexivity.
    + rewrite !tab_nil by lia. reflexivity.
    + rewrite !tab_nil by lia. reflexivity.
  - intros s (e2 & -> & _). fintab.
Qed.
(** Recursive moving trend average: bars 1..i update (b, rmta). *)
Definition rmta_step (alpha x : T) (s : T * T) : T * T :=
  let (b, r) := s in
  let b' := (#1 .- alpha) .* b .+ x in
  (b', (#1 .- alpha) .* r .+ alpha .* (x .+ b' .- b)).
Definition rmta_init (alpha x : T) : T * T :=
  let b := (#1 .- alpha) .* x .+ x in (b, (#1 .- alpha) .* x .+ alpha .* (x .+ b)).
Lemma rmta_fun size x o beta p : zlen x = size -> 0 <= size <= INT_MAX -> to_int o = Some p -> 2 <= p ->
  ti_rmta size [x] [o; beta] = Ok (OKAY, [tab 0 (size - p + 1) (fun k =>
    snd (trec (fun i => rmta_step (#1 .- beta) (zf x i)) 1 (k + p) (rmta_init (#1 .- beta) (zf x 0))))]).
Proof.
  intros. ranges. apply wp_eq. unfold ti_rmta, ti_rmta_start. wps; contra.
  { rewrite tab_nil by zl. reflexivity. }
  loop (fun i s => s = trec (fun i => rmta_step (#1 .- beta) (zf x i)) 1 i (rmta_init (#1 .- beta) (zf x 0))).
  - zl.
  - reflexivity.
  - intros i s Hi ->. pose proof (trec_snoc (fun i => rmta_step (#1 .- beta) (zf x i)) 1 i (rmta_init (#1 .- beta) (zf x 0)) ltac:(lia)) as Hrec.
    rewrite Hrec. destruct (trec _ 1 i _) as [b r]. wps. reflexivity.
  - intros s ->. setF. set (st := fun i => rmta_step (#1 .- beta) (zf x i)) in *. set (s0 := rmta_init (#1 .- beta) (zf x 0)) in *.
    rewrite (surjective_pairing (trec st 1 (p - 1) s0)). cbn beta iota. 
    loop (fun i s => fst s = trec st 1 i s0 /\ snd s = tab 0 (i - p + 1) F).
    + zl.
    + split; cbn [fst snd]; [rewrite <- surjective_pairing; reflexivity|rewrite tab_nil by lia; reflexivity].
    + intros i [[b r] out] Hi [Ha Hb]. cbn [fst snd] in *. subst out. wps. cbn [fst snd].
      rewrite (trec_snoc st 1 i s0) by lia. rewrite <- Ha. split; [reflexivity|].
      apply (tab_next' _ (i - p + 1)); [lia|lia|reflexivity|]. unfold F.
      replace (i - p + 1 + p) with (i + 1) by lia. rewrite (trec_snoc st 1 i s0) by lia. rewrite <- Ha. reflexivity.
    + intros [[b r] out] [Ha Hb]. cbn [fst snd] in *. subst out. fintab.
Qed.
(** Relative strength: upward and downward changes, summed over bars 1..p, divided by p,
    then smoothed. *)
Definition up_change (x : list T) (i : Z) : T := if zf x i .> zf x (i - 1) then zf x i .- zf x (i - 1) else #0.
Definition down_change (x : list T) (i : Z) : T := if zf x i .< zf x (i - 1) then zf x (i - 1) .- zf x i else #0.
Definition smoothed (c : Z -> T) (p i : Z) : T :=
  trec (fun i => ema_step (#1 ./ #p) (c i)) (p + 1) (i + 1) (trec (fun i s => s .+ c i) 1 (p + 1) #0 ./ #p).
Definition rsi_val (u d : T) : T := if truth u then #100 .* (u ./ (u .+ d)) else #0.
Lemma rsi_fun size x o p : zlen x = size -> 0 <= size <= INT_MAX -> to_int o = Some p -> 1 <= p ->
  ti_rsi size [x] [o] = Ok (OKAY, [tab 0 (size - p) (fun k =>
    rsi_val (smoothed (up_change x) p (k + p)) (smoothed (down_change x) p (k + p)))]).
Proof.
  openfun ti_rsi. setF.
  loop (fun i s => s = (trec (fun i s => s .+ up_change x i) 1 i #0, trec (fun i s => s .+ down_change x i) 1 i #0)).
  - zl.
  - reflexivity.
  - intros i s Hi ->. wps. rewrite !(trec_snoc _ 1 i) by lia. reflexivity.
  - intros s ->.
    loop (fun i s => s = (smoothed (up_change x) p (i - 1), smoothed (down_change x) p (i - 1), tab 0 (i - p) F)).
    + zl.
    + replace (p + 1 - 1) with p by lia. unfold smoothed. rewrite !(trec_nil _ (p + 1) (p + 1)) by lia.
      f_equal. apply tab_one; [lia|]. unfold F, smoothed. rewrite !(trec_nil _ (p + 1) (0 + p + 1)) by lia. reflexivity.
    + intros i s Hi ->. wps. replace (i + 1 - 1) with i by lia.
      assert (Es : forall c : Z -> T, smoothed c p i = ema_step (#1 ./ #p) (c i) (smoothed c p (i - 1))).
      { intros c. unfold smoothed. rewrite (trec_snoc _ (p + 1) i) by lia. rewrite Z.sub_add. reflexivity. }
      f_equal; [f_equal; rewrite Es; reflexivity|].
      apply (tab_next' _ (i - p)); [lia|lia|reflexivity|]. unfold F. rewrite Z.sub_add, !Es. reflexivity.
    + intros s ->. fintab.
Qed.
End F.

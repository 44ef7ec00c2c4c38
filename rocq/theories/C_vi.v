(** vi: the run function has the shape of consecutive loops, and follows the batch function. *)
From Verif Require Export C_stream3.

Section P.
Context {A : Arith}.

(** The loops of [ti_vi_stream_run], phase by phase (proof device: the model of the run function
    is M_stream3.ti_vi_stream_run). *)
Definition vi_loops (k : T) (p : Z) (inputs : list (list T)) : loops vi_state :=
  match inputs with
  | [high; low; close] =>
    {| bounded := [(0 - p, fun i s => let* s := vi_fill high low close i s in Ok (s, [[]; []]));
                   (1 - p, fun i s => let* s := vi_fill high low close i s in Ok (s, vi_out s))];
       final := vi_roll high low close |}
  | _ => bad_loops
  end.

Definition vi_qlen (m : Z) (s : vi_state) : Prop :=
  let '(_, (hs, ls, cs)) := s in zlen hs = m /\ zlen ls = m /\ zlen cs = m.

Lemma vi_fill_len h l c i m s s' : vi_qlen m s -> vi_fill h l c i s = Ok s' -> vi_qlen (m + 1) s'.
Proof.
  destruct s as [[[a b] t] [[hs ls] cs]]. intros (H1 & H2 & H3). unfold vi_fill.
  destruct (rd h i); cbn [bind]; [|discriminate]. destruct (rd l i); cbn [bind]; [|discriminate]. destruct (rd c i); cbn [bind]; [|discriminate].
  destruct (if zlen hs >? 0 then _ else _) as [[[a' b'] t']|]; cbn [bind]; [|discriminate].
  intros [= <-]. cbn. rewrite !zlen_snoc. lia.
Qed.
Lemma vi_roll_len h l c i m s s' e : vi_qlen m s -> vi_roll h l c i s = Ok (s', e) -> vi_qlen m s'.
Proof.
  destruct s as [[[a b] t] [[hs ls] cs]]. intros (H1 & H2 & H3). unfold vi_roll.
  destruct (rd h i); cbn [bind]; [|discriminate]. destruct (rd l i); cbn [bind]; [|discriminate]. destruct (rd c i); cbn [bind]; [|discriminate].
  destruct hs as [|h0 hs]; [discriminate|]. destruct ls as [|l0 ls]; [discriminate|]. destruct cs as [|c0 cs]; [discriminate|].
  cbn [qpop]. change (rd (h0 :: hs) 0) with (Ok h0). change (rd (l0 :: ls) 0) with (Ok l0). change (rd (c0 :: cs) 0) with (Ok c0). cbn [bind].
  repeat match goal with |- context[rd ?q ?k] => destruct (rd q k); cbn [bind]; [|discriminate] end.
  intros [= <- _]. unfold vi_qlen in *. rewrite !zlen_cons in *. rewrite !zlen_snoc. lia.
Qed.

(** A filling loop writes nothing. *)
Lemma emits_silent {S} (g : Z -> S -> res S) lo hi s :
  emits lo hi (fun i s => let* s := g i s in Ok (s, [[]; []])) (s, [[]; []]) = let* s := for_ lo hi g s in Ok (s, [[]; []]).
Proof.
  destruct (Z.le_gt_cases lo hi) as [L|L]; [|unfold emits; rewrite !for_nil by lia; reflexivity].
  apply (zind (fun m => emits lo m (fun i s => let* s := g i s in Ok (s, [[]; []])) (s, [[]; []]) = let* s := for_ lo m g s in Ok (s, [[]; []])) lo hi L).
  - unfold emits. rewrite !for_nil by lia. reflexivity.
  - intros m Hm IH. unfold emits in *. rewrite !for_snoc by lia. rewrite IH.
    destruct (for_ lo m g s) as [s1|u]; cbn [bind]; [|reflexivity].
    destruct (g m s1) as [s2|u]; cbn [bind]; reflexivity.
Qed.

Context {IL : IntLaws A}.

Lemma vi_full_queue x n m : to_int x = Some n -> 1 <= n < INT_MAX -> 0 <= m <= n + 1 -> (#m .<= x) = (m <=? n).
Proof. intros Hx Hn Hm. apply (to_int_fle x n m); [exact Hx|lia|lia]. Qed.

Lemma vi_over_queue x n m : to_int x = Some n -> 1 <= n < INT_MAX -> 0 <= m <= n + 1 -> (x .< #m) = (n <? m).
Proof.
  intros Hx Hn Hm. destruct (m =? 0) eqn:E; [|apply to_int_flt; [exact Hx|lia]].
  assert (m = 0) as -> by lia. replace (n <? 0) with false by lia. destruct (x .< #0) eqn:E0; [|reflexivity].
  apply (flt_mono x 0 1) in E0; [|zl|zl|lia]. rewrite (to_int_flt x n 1) in E0 by (auto; zl). lia.
Qed.

(** The while loop stops at bar [1 - p] or at the end of the chunk. *)
Lemma vi_warm_ok h l c x n p size : to_int x = Some n -> 1 <= n < INT_MAX -> forall f i s, 0 <= n + p + i -> p + i <= 1 -> i <= size -> f = Z.to_nat (size - i) -> vi_qlen (n + p + i) s ->
  vi_warm h l c x f i s = let* s := for_ i (Z.max i (Z.min size (1 - p))) (vi_fill h l c) s in Ok (Z.max i (Z.min size (1 - p)), s).
Proof.
  intros Hx Hn. induction f as [|f IH]; intros i s H0 Hi Hs Hf Hq; cbn [vi_warm].
  - replace (Z.max i (Z.min size (1 - p))) with i by lia. rewrite for_nil by lia. reflexivity.
  - destruct s as [[[a b] t] [[hs ls] cs]] eqn:Es. pose proof Hq as (Hh & _). rewrite Hh. rewrite (vi_full_queue x n) by (auto; lia).
    rewrite <- Es in *. clear Es Hh. destruct (n + p + i <=? n) eqn:E.
    + replace (Z.max i (Z.min size (1 - p))) with (Z.min size (1 - p)) by lia. rewrite for_cons by lia. rewrite bind_assoc.
      destruct (vi_fill h l c i s) as [s'|u] eqn:E'; cbn [bind]; [|reflexivity].
      rewrite (IH (i + 1) s'); [|lia|lia|lia|lia|replace (n + p + (i + 1)) with (n + p + i + 1) by lia; eapply vi_fill_len; eassumption].
      replace (Z.max (i + 1) (Z.min size (1 - p))) with (Z.min size (1 - p)) by lia. reflexivity.
    + replace (Z.max i (Z.min size (1 - p))) with i by lia. rewrite for_nil by lia. reflexivity.
Qed.

Definition vi_inv (st : stream (T * vi_state)) : Prop := exists n, to_int (fst (core st)) = Some n /\ 1 <= n < INT_MAX /\
  - n <= progress st /\ vi_qlen (Z.min (n + 1) (n + progress st)) (snd (core st)).

Lemma vi_fills_len h l c m lo hi s s' : lo <= hi -> vi_qlen m s -> for_ lo hi (vi_fill h l c) s = Ok s' -> vi_qlen (m + (hi - lo)) s'.
Proof.
  intros L. revert s'. apply (zind (fun k => forall s', vi_qlen m s -> for_ lo k (vi_fill h l c) s = Ok s' -> vi_qlen (m + (k - lo)) s') lo hi L).
  - intros s' H. rewrite for_nil by lia. intros [= <-]. replace (m + (lo - lo)) with m by lia. exact H.
  - intros k Hk IH s' H. rewrite for_snoc by lia. destruct (for_ lo k _ s) as [s1|u]; cbn [bind]; [|discriminate].
    intros E. specialize (IH s1 H eq_refl). apply (vi_fill_len _ _ _ _ _ _ _ IH) in E. replace (m + (k + 1 - lo)) with (m + (k - lo) + 1) by lia. exact E.
Qed.
Lemma vi_rolls_len h l c m lo hi s o s' o' : vi_qlen m s -> emits lo hi (vi_roll h l c) (s, o) = Ok (s', o') -> vi_qlen m s'.
Proof.
  destruct (Z.le_gt_cases lo hi) as [L|L]; [|unfold emits; rewrite for_nil by lia; intros H [= <- _]; exact H].
  revert s' o'. apply (zind (fun k => forall s' o', vi_qlen m s -> emits lo k (vi_roll h l c) (s, o) = Ok (s', o') -> vi_qlen m s') lo hi L).
  - intros s' o' H. unfold emits. rewrite for_nil by lia. intros [= <- _]. exact H.
  - intros k Hk IH s' o' H. unfold emits in *. rewrite for_snoc by lia. destruct (for_ lo k _ (s, o)) as [[s1 o1]|u]; cbn [bind]; [|discriminate].
    specialize (IH s1 o1 H eq_refl). destruct (vi_roll h l c k s1) as [[s2 e]|u] eqn:E; cbn [bind]; [|discriminate].
    intros [= <- _]. exact (vi_roll_len _ _ _ _ _ _ _ _ IH E).
Qed.

(** One chunk: the two forms agree, and the queues have the right length afterwards. *)
Lemma vi_chunk st c : vi_inv st -> chunk_ok 3 c ->
  ti_vi_stream_run st (csize c) c = mkrun 2 vi_loops st (csize c) c /\
  forall cd st' o, mkrun 2 vi_loops st (csize c) c = Ok (cd, st', o) -> vi_inv st'.
Proof.
  intros (n & Hx & Hn & Hp & Hq) [Hc Hl]. destruct st as [p [x s]]. cbn [core progress fst snd] in *.
  destruct c as [|h [|l [|cl [|]]]]; cbn in Hc; try discriminate. clear Hc.
  set (size := csize [h; l; cl]) in *. assert (Hs : 0 <= size) by apply zlen_nonneg.
  unfold mkrun, run_loops. cbn [core progress vi_loops Stream.bounded final phases].
  unfold ti_vi_stream_run. cbn [core progress].
  change (repeat (@nil T) 2) with [@nil T; @nil T].
  rewrite emits_silent.
  destruct (Z.le_gt_cases 1 p) as [P|P].
  - (* steady *)
    replace (Z.max 0 (Z.min (0 - p) size)) with 0 by lia. replace (Z.max 0 (Z.min (1 - p) size)) with 0 by lia.
    rewrite !for_nil by lia. cbn [bind]. unfold emits at 2 4. rewrite !for_nil by lia. cbn [bind].
    destruct s as [[[a b] t] [[hs ls] cs]] eqn:Es. pose proof Hq as (Hh & _). rewrite Hh. rewrite (vi_full_queue x n) by (auto; lia).
    replace (Z.min (n + 1) (n + p) <=? n) with false by lia. cbn [bind]. rewrite <- Es in *. split; [reflexivity|].
    intros cd st' o. destruct (emits 0 size (vi_roll h l cl) (s, [[]; []])) as [[s' o']|u] eqn:E; cbn [bind]; [|discriminate].
    intros [= _ <- _]. exists n. cbn [core progress fst snd]. repeat split; try lia; [exact Hx|].
    replace (Z.min (n + 1) (n + (p + size))) with (Z.min (n + 1) (n + p)) by lia. eapply vi_rolls_len; eassumption.
  - (* warming up *)
    replace (Z.min (n + 1) (n + p)) with (n + p) in Hq by lia.
    set (c2 := Z.max 0 (Z.min size (1 - p))).
    assert (EL : (let* (index, s, o) :=
        let '(_, (hs, _, _)) := s in if #(zlen hs) .<= x then
        let* (index, s) := vi_warm h l cl x (Z.to_nat size) 0 s in
        let '(_, (hs, _, _)) := s in
        Ok (index, s, if #(zlen hs) .> x then vi_out s else [[]; []])
      else Ok (0, s, [[]; []]) in
      let* (s, o) := emits index size (vi_roll h l cl) (s, o) in
      Ok (OKAY, {| progress := p + size; core := (x, s) |}, o)) =
      let* s := for_ 0 c2 (vi_fill h l cl) s in
      let* (s, o) := emits c2 size (vi_roll h l cl) (s, if c2 =? 1 - p then vi_out s else [[]; []]) in
      Ok (OKAY, {| progress := p + size; core := (x, s) |}, o)).
    { destruct s as [[[a b] t] [[hs ls] cs]] eqn:Es. pose proof Hq as (Hh & _). rewrite Hh. rewrite (vi_full_queue x n) by (auto; lia).
      replace (n + p <=? n) with true by lia. rewrite <- Es in *. clear Es Hh.
      rewrite (vi_warm_ok h l cl x n p size Hx Hn); [|lia|lia|lia|f_equal; lia|replace (n + p + 0) with (n + p) by lia; exact Hq].
      fold c2. destruct (for_ 0 c2 (vi_fill h l cl) s) as [s'|u] eqn:E; cbn [bind]; [|reflexivity].
      apply (vi_fills_len _ _ _ (n + p)) in E; [|lia|exact Hq].
      destruct s' as [[[a' b'] t'] [[hs' ls'] cs']] eqn:Es'. pose proof E as (Hh & _).
      assert (EG : (#(zlen hs') .> x) = (c2 =? 1 - p)).
      { rewrite Hh. rewrite (vi_over_queue x n) by (auto; lia). lia. }
      rewrite EG. cbn [bind]. reflexivity. }
    assert (EM : (let* so := let* s := for_ 0 (Z.max 0 (Z.min (0 - p) size)) (vi_fill h l cl) s in Ok (s, [[]; []]) in
      let* so := emits (Z.max 0 (Z.min (0 - p) size)) (Z.max (Z.max 0 (Z.min (0 - p) size)) (Z.min (1 - p) size))
        (fun i s => let* s := vi_fill h l cl i s in Ok (s, vi_out s)) so in
      emits (Z.max (Z.max 0 (Z.min (0 - p) size)) (Z.min (1 - p) size)) size (vi_roll h l cl) so) =
      let* s := for_ 0 c2 (vi_fill h l cl) s in
      emits c2 size (vi_roll h l cl) (s, if c2 =? 1 - p then vi_out s else [[]; []])).
    { replace (Z.max (Z.max 0 (Z.min (0 - p) size)) (Z.min (1 - p) size)) with c2 by lia.
      destruct (Z.le_gt_cases (1 - p) size) as [Q|Q].
      - replace (Z.max 0 (Z.min (0 - p) size)) with (c2 - 1) by lia. replace (c2 =? 1 - p) with true by lia.
        rewrite (for_split 0 (c2 - 1) c2) by lia.
        destruct (for_ 0 (c2 - 1) _ s) as [s1|u]; cbn [bind]; [|reflexivity].
        unfold emits at 1. rewrite !(for_cons (c2 - 1)) by lia.
        destruct (vi_fill h l cl (c2 - 1) s1) as [s2|u]; cbn [bind]; [|reflexivity]. rewrite !for_nil by lia.
        destruct s2 as [[[a2 b2] t2] q2]. reflexivity.
      - replace (Z.max 0 (Z.min (0 - p) size)) with c2 by lia. replace (c2 =? 1 - p) with false by lia.
        destruct (for_ 0 c2 _ s) as [s1|u]; cbn [bind]; [|reflexivity]. unfold emits at 1. rewrite for_nil by lia. reflexivity. }
    rewrite EM. split.
    + transitivity (let* s := for_ 0 c2 (vi_fill h l cl) s in
      let* (s, o) := emits c2 size (vi_roll h l cl) (s, if c2 =? 1 - p then vi_out s else [[]; []]) in
      Ok (OKAY, {| progress := p + size; core := (x, s) |}, o)); [etransitivity; [|exact EL]; destruct s as [[[a b] t] [[hs ls] cs]]; reflexivity|].
      rewrite bind_assoc. reflexivity.
    + intros cd st' o. destruct (for_ 0 c2 _ s) as [s1|u] eqn:E1; cbn [bind]; [|discriminate].
      destruct (emits c2 size _ _) as [[s2 o2]|u] eqn:E2; cbn [bind]; [|discriminate].
      intros [= _ <- _]. exists n. cbn [core progress fst snd]. repeat split; try lia; [exact Hx|].
      apply (vi_fills_len _ _ _ (n + p)) in E1; [|lia|exact Hq]. apply (vi_rolls_len _ _ _ _ _ _ _ _ _ _ E1) in E2.
      replace (Z.min (n + 1) (n + (p + size))) with (n + p + (c2 - 0)) by lia. exact E2.
Qed.

(** One option whose integer part is [n]. *)
Definition o_vi (n : Z) : optspec := fun options v => exists x, options = [x] /\ to_int x = Some n /\
  v = if n <? 1 then Reject else if n <? INT_MAX then Accept n else Outside.

Lemma rd_tab lo hi (f : Z -> T) k : 0 <= k < hi - lo -> rd (tab lo hi f) k = Ok (f (lo + k)).
Proof. intros H. rewrite rd_zf by (rewrite zlen_tab by lia; lia). unfold zf. rewrite zn_tab by lia. reflexivity. Qed.

Lemma tab_cons lo hi (f : Z -> T) : lo < hi -> tab lo hi f = f lo :: tab (lo + 1) hi f.
Proof. intros H. rewrite (tab_split lo (lo + 1) hi) by lia. rewrite tab_snoc, tab_nil by lia. reflexivity. Qed.
Definition vi_hist n (f : Z -> T) i := tab (Z.max 0 (i - (n + 1))) i f.
Lemma vi_hist_len n f i : 1 <= n -> 0 <= i -> zlen (vi_hist n f i) = Z.min i (n + 1).
Proof. intros. unfold vi_hist. rewrite zlen_tab; lia. Qed.
Lemma vi_hist_push n f i : 1 <= n -> 0 <= i <= n -> vi_hist n f i ++ [f i] = vi_hist n f (i + 1).
Proof. intros. unfold vi_hist. replace (Z.max 0 (i - (n + 1))) with 0 by lia. replace (Z.max 0 (i + 1 - (n + 1))) with 0 by lia. rewrite tab_snoc by lia. reflexivity. Qed.
Lemma vi_hist_pop n f i : 1 <= n -> n + 1 <= i -> qpop (vi_hist n f i) = Ok (tab (i - n) i f).
Proof.
  intros. unfold vi_hist. replace (Z.max 0 (i - (n + 1))) with (i - (n + 1)) by lia.
  rewrite (tab_cons (i - (n + 1))) by lia. cbn [qpop]. replace (i - (n + 1) + 1) with (i - n) by lia. reflexivity.
Qed.

Lemma vi_hist_back n f i : 1 <= n -> 1 <= i -> rd (vi_hist n f i) (zlen (vi_hist n f i) - 1) = Ok (f (i - 1)).
Proof. intros. rewrite vi_hist_len by lia. unfold vi_hist. rewrite rd_tab by lia. f_equal. f_equal. lia. Qed.

Section Series.
Context (h l c : list T) (size n : Z) (Hh : zlen h = size) (Hl : zlen l = size) (Hc : zlen c = size) (Hn : 1 <= n).
Let a i := fabs (zf h i .- zf l (i - 1)).
Let b i := fabs (zf l i .- zf h (i - 1)).
Let t i := vi_tr (zf h i) (zf l i) (zf c (i - 1)).
Let q i : list T * list T * list T := (vi_hist n (zf h) i, vi_hist n (zf l) i, vi_hist n (zf c) i).
Lemma vi_terms_ok i : 1 <= i < size -> vi_terms h l c i = Ok (a i, b i, t i).
Proof. intros H. unfold vi_terms. repeat (rewrite rd_zf by lia; cbn [bind]). reflexivity. Qed.
Lemma vi_fill_first vp vm tr : 0 < size -> vi_fill h l c 0 ((vp, vm, tr), q 0) = Ok ((vp, vm, tr), q 1).
Proof.
  intros H. unfold vi_fill, q. repeat (rewrite rd_zf by lia; cbn [bind]). rewrite vi_hist_len by lia.
  replace (Z.min 0 (n + 1) >? 0) with false by lia. cbn [bind]. rewrite !vi_hist_push by lia. reflexivity.
Qed.
Lemma vi_fill_next vp vm tr i : 1 <= i < size -> i <= n ->
  vi_fill h l c i ((vp, vm, tr), q i) = Ok ((vp .+ a i, vm .+ b i, tr .+ t i), q (i + 1)).
Proof.
  intros H H'. unfold vi_fill, q. repeat (rewrite rd_zf by lia; cbn [bind]). rewrite !vi_hist_back by lia. rewrite vi_hist_len by lia.
  replace (Z.min i (n + 1) >? 0) with true by lia. cbn [bind]. rewrite !vi_hist_push by lia. reflexivity.
Qed.
Lemma vi_hist_front f i : n + 1 <= i -> rd (vi_hist n f i) 0 = Ok (f (i - n - 1)).
Proof. intros. unfold vi_hist. rewrite rd_tab by lia. f_equal. f_equal. lia. Qed.
Lemma vi_roll_next vp vm tr i : n + 1 <= i < size ->
  vi_roll h l c i ((vp, vm, tr), q i) = let s := ((vp .- a (i - n) .+ a i, vm .- b (i - n) .+ b i, tr .- t (i - n) .+ t i), q (i + 1)) in Ok (s, vi_out s).
Proof.
  intros H. unfold vi_roll, q. repeat (rewrite rd_zf by lia; cbn [bind]). rewrite !vi_hist_front by lia. rewrite !vi_hist_pop by lia. cbn [bind].
  rewrite !zlen_tab by lia. repeat (rewrite rd_tab by lia; cbn [bind]).
  replace (i - n + (Z.max 0 (i - (i - n)) - 1)) with (i - 1) by lia. replace (i - n + (i - (i - n) - 1)) with (i - 1) by lia. replace (i - n + 0) with (i - n) by lia.
  unfold vi_hist. replace (Z.max 0 (i + 1 - (n + 1))) with (i - n) by lia. rewrite !tab_snoc by lia. reflexivity.
Qed.
End Series.

Lemma vi_sim n : sim 3 2 (o_vi n) (fun inputs => n < csize inputs) ti_vi_start ti_vi ti_vi_stream_new vi_loops.
Proof.
  intros options v (x & -> & Hx & ->). unfold ti_vi, ti_vi_stream_new, ti_vi_start.
  unfold cast. rewrite Hx. cbn [bind]. rewrite (to_int_flt x n 1) by (auto; zl).
  destruct (n <? 1) eqn:E1; cbn [orb]; [reject_tac2|]. destruct (n <? INT_MAX) eqn:E2; [|exact I].
  split; [reflexivity|]. split; [lia|]. eexists _, _. split; [reflexivity|].
  intros size inputs (Hl & Hs & Hn) Hok. destruct inputs as [|h [|l [|c [|]]]]; try discriminate Hl.
  inversion_clear Hs as [|? ? Hh Hn']. inversion_clear Hn' as [|? ? Hlo Hn'']. inversion_clear Hn'' as [|? ? Hc _].
  unfold csize in Hok. cbn in Hok. rewrite Hh in Hok. replace (n >=? size) with false by lia.
  unfold batch_loops.
  loops_tac (fun (i : Z) (a : T * T * T) (b : vi_state) => fst b = a /\ snd b = (vi_hist n (zf h) i, vi_hist n (zf l) i, vi_hist n (zf c) i)).
  - split; [reflexivity|]. unfold vi_hist. rewrite !tab_nil by lia. reflexivity.
  - destruct b as [b q]. cbn [fst snd] in *. subst b q.
    replace (0 - - n) with n by lia. replace (1 - - n) with (n + 1) by lia. unfold skip. cbn [repeat].
    destruct (i <? 1) eqn:Ea.
    { replace (i <? n) with true by lia. assert (i = 0) as -> by lia. rewrite (vi_fill_first h l c size n) by lia. cbn [bind wp]. emit. }
    destruct (i <? n) eqn:Eb; [|destruct (i <? n + 1) eqn:Ec].
    + cbn iota. rewrite (vi_terms_ok h l c size n) by lia. rewrite (vi_fill_next h l c size n) by lia. cbn [bind wp]. emit.
    + cbn iota. rewrite (vi_terms_ok h l c size n) by lia. rewrite (vi_fill_next h l c size n) by lia. cbn [bind wp]. emit.
    + cbn iota. rewrite !(vi_terms_ok h l c size n), (vi_roll_next h l c size n) by lia. cbn [bind wp]. emit.
Qed.
Lemma vi_online : online 3 vi_loops. Proof. online_tac @vi_loops; unfold vi_fill, vi_roll; untuple;
  match goal with |- context[?j <? _] => repeat match goal with |- context[rd ?x j] => rewrite (rd_zf x j) by lia end end; reflexivity. Qed.

Lemma vi_new_inv n options st : accepted (o_vi n) options -> ti_vi_stream_new options = Ok (OKAY, Some st) -> vi_inv st.
Proof.
  intros (k & x & -> & Hx & E). unfold ti_vi_stream_new, ti_vi_start, cast. rewrite Hx. cbn [bind].
  destruct (x .< #1); [discriminate|]. destruct (n <? 1) eqn:E1; [discriminate|]. destruct (n <? INT_MAX) eqn:E2; [|discriminate].
  intros [= <-]. exists n. cbn. repeat split; try lia; auto.
Qed.
(** Over any division of the series into chunks, the run function behaves as its loop form. *)
Lemma vi_same n : same_feed 3 2 (accepted (o_vi n)) ti_vi_stream_new ti_vi_stream_run (mkrun 2 vi_loops).
Proof.
  apply (same_feed_inv vi_inv); [exact (vi_new_inv n)|]. exact vi_chunk.
Qed.
End P.

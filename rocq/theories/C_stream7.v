(** Streams of M_stream7: mama and mesastoch (arsi, which needs exact arithmetic, is in C_stream7R.v). *)
From Verif Require Export M_stream7 C_stream6.

Section D.
Context {A : Arith}.

(** Two ring buffers with the same contents, at possibly different positions. *)
Definition req (M : Z) (r r' : ring) : Prop := exists h, ring_ok r M h /\ ring_ok r' M h.
Lemma req_refl M r : rok r M -> req M r r.
Proof. intros [h H]. exists h. split; exact H. Qed.
Lemma req_set M r r' v : req M r r' -> exists s s', ring_set r v = Ok s /\ ring_set r' v = Ok s' /\ req M s s'.
Proof.
  intros (h & H & H'). destruct (ring_set_ok r M h v H) as (s & -> & Hs), (ring_set_ok r' M h v H') as (s' & -> & Hs').
  do 2 eexists. do 2 (split; [reflexivity|]). eexists; split; eassumption.
Qed.
Lemma req_get M r r' k : req M r r' -> 0 <= k < M -> exists v, ring_get r k = Ok v /\ ring_get r' k = Ok v.
Proof. intros (h & H & H') Hk. exists (h k). split; eapply ring_get_ok; eassumption. Qed.
Lemma req_cur M r r' : req M r r' -> exists v, ring_cur r = Ok v /\ ring_cur r' = Ok v.
Proof. intros (h & H & H'). exists (h 0). split; eapply ring_cur_ok; eassumption. Qed.
Lemma req_step M r r' : req M r r' -> req M (ring_step r) (ring_step r').
Proof. intros (h & H & H'). eexists; split; eapply ring_step_ok; eassumption. Qed.
Lemma req_rok M r r' : req M r r' -> rok r M /\ rok r' M.
Proof. intros (h & H & H'). split; eexists; eassumption. Qed.
Lemma req_hilbert r r' p : req 7 r r' -> exists v, hd_hilbert r p = Ok v /\ hd_hilbert r' p = Ok v.
Proof.
  intros (h & H & H'). eexists. unfold hd_hilbert.
  rewrite (ring_cur_ok r 7 h H), (ring_cur_ok r' 7 h H'), !(ring_get_ok r 7 h) by (auto; lia). rewrite !(ring_get_ok r' 7 h) by (auto; lia). split; reflexivity.
Qed.
Lemma ring2_get1 r : ring2_get r 1 = Ok (ra2 r). Proof. reflexivity. Qed.

Record deq (s t : disc) : Prop := {
  deq_Smooth : req 7 (d_Smooth s) (d_Smooth t); deq_Detrender : req 7 (d_Detrender s) (d_Detrender t);
  deq_I1 : req 7 (d_I1 s) (d_I1 t); deq_Q1 : req 7 (d_Q1 s) (d_Q1 t);
  deq_I2 : d_I2 s = d_I2 t; deq_Q2 : d_Q2 s = d_Q2 t; deq_Re : d_Re s = d_Re t; deq_Im : d_Im s = d_Im t;
  deq_Period : d_Period s = d_Period t; deq_SmoothPeriod : d_SmoothPeriod s = d_SmoothPeriod t }.

Lemma disc_init_ok : exists s, disc_init = Ok s /\ deq s s.
Proof.
  unfold disc_init. destruct (ring_new_ok 7 ltac:(lia)) as (r & -> & Hr). cbn [bind]. eexists; split; [reflexivity|].
  constructor; try reflexivity; apply req_refl; eexists; exact Hr.
Qed.
Lemma disc_step_deq s t : deq s t -> deq (disc_step s) (disc_step t).
Proof. intros []. constructor; cbn; try (apply req_step; assumption); f_equal; assumption. Qed.

(** The period and smoothed period after one bar. *)
Definition disc_next_ok (circle : T) (s u : disc) : Prop :=
  (exists cur, (cur = ra1 (d_Period s) \/ exists z, cur = circle ./ libm Latan z) /\
     d_Period u = ring2_set (d_Period s) (disc_clamp cur (ra2 (d_Period s)))) /\
  d_SmoothPeriod u = ring2_set (d_SmoothPeriod s) (lit 33 2 .* ring2_cur (d_Period u) .+ lit 67 2 .* ra2 (d_SmoothPeriod s)).

Lemma disc_set_deq c v s t : deq s t ->
  exists u w, disc_set c v s = Ok u /\ disc_set c v t = Ok w /\ deq u w /\ disc_next_ok c s u.
Proof.
  intros [H1 H2 H3 H4 E1 E2 E3 E4 E5 E6]. unfold disc_set. rewrite <- E1, <- E2, <- E3, <- E4, <- E5, <- E6. rewrite !ring2_get1.
  destruct (req_set 7 _ _ v H1) as (a & a' & -> & -> & Ha). cbn [bind].
  destruct (req_hilbert a a' (ra2 (d_Period s)) Ha) as (x & -> & ->). cbn [bind].
  destruct (req_set 7 _ _ x H2) as (b & b' & -> & -> & Hb). cbn [bind].
  destruct (req_hilbert b b' (ra2 (d_Period s)) Hb) as (y & -> & ->). cbn [bind].
  destruct (req_set 7 _ _ y H4) as (q & q' & -> & -> & Hq). cbn [bind].
  destruct (req_get 7 b b' 3 Hb ltac:(lia)) as (z & -> & ->). cbn [bind].
  destruct (req_set 7 _ _ z H3) as (i & i' & -> & -> & Hi). cbn [bind].
  destruct (req_hilbert i i' (ra2 (d_Period s)) Hi) as (jI & -> & ->). cbn [bind].
  destruct (req_hilbert q q' (ra2 (d_Period s)) Hq) as (jQ & -> & ->). cbn [bind].
  destruct (req_cur 7 i i' Hi) as (i1 & -> & ->). cbn [bind].
  destruct (req_cur 7 q q' Hq) as (q1 & -> & ->). cbn [bind].
  do 2 eexists. split; [reflexivity|]. split; [reflexivity|]. split; [constructor; cbn; auto|].
  split; [|reflexivity]. eexists. split; [|reflexivity]. cbn.
  match goal with |- context[if ?b then _ else _] => destruct b end; [right; eexists; reflexivity|left; reflexivity].
Qed.

(** ** mama *)
Definition o_mama : optspec := fun opts v => exists f s, opts = [f; s] /\
  v = if (#0 .<= f) && (f .<= #1) && ((#0 .<= s) && (s .<= #1)) then Accept 6 else Reject.

Lemma mama_out_deq f s x d e q : deq d e ->
  exists r a b, mama_out f s x d q = Ok (r, [[a]; [b]]) /\ mama_out f s x e q = Ok (r, [[a]; [b]]).
Proof.
  intros H. destruct q as [[a b] c]. unfold mama_out. destruct (req_cur 7 _ _ (deq_I1 _ _ H)) as (i1 & -> & ->). cbn [bind].
  destruct (req_cur 7 _ _ (deq_Q1 _ _ H)) as (q1 & -> & ->). rewrite ?ring2_get1. cbn [bind]. do 3 eexists. split; reflexivity.
Qed.

(** Before the first output every buffer still holds zeros. *)
Definition disc_zero (s : disc) : Prop :=
  ring_ok (d_Smooth s) 7 (fun _ => #0) /\ ring_ok (d_Detrender s) 7 (fun _ => #0) /\
  ring_ok (d_I1 s) 7 (fun _ => #0) /\ ring_ok (d_Q1 s) 7 (fun _ => #0) /\
  (d_I2 s, d_Q2 s, d_Re s, d_Im s, d_Period s, d_SmoothPeriod s) = (ring2_new, ring2_new, ring2_new, ring2_new, ring2_new, ring2_new).
Lemma zero_ring_step M r : ring_ok r M (fun _ => #0) -> ring_ok (ring_step r) M (fun _ => #0).
Proof. intros H. eapply ring_ok_ext; [apply ring_step_ok, H|]. intros k _. cbn beta. destruct (k =? 0); reflexivity. Qed.
Lemma disc_zero_step s : disc_zero s -> disc_zero (disc_step s).
Proof.
  intros (H1 & H2 & H3 & H4 & E). unfold disc_zero, disc_step. cbn. injection E; intros -> -> -> -> -> ->.
  repeat (split; [apply zero_ring_step; assumption|]). reflexivity.
Qed.
Lemma disc_zero_deq s t : disc_zero s -> disc_zero t -> deq s t.
Proof.
  intros (H1 & H2 & H3 & H4 & E) (K1 & K2 & K3 & K4 & F). injection E; intros. injection F; intros.
  constructor; try congruence; eexists; split; eassumption.
Qed.
Lemma disc_init_zero : exists s, disc_init = Ok s /\ disc_zero s.
Proof.
  unfold disc_init. destruct (ring_new_ok 7 ltac:(lia)) as (r & -> & Hr). cbn [bind]. eexists; split; [reflexivity|].
  repeat (split; [exact Hr|]). reflexivity.
Qed.

Lemma mama_sim : sim 1 2 o_mama always ti_mama_start ti_mama ti_mama_stream_new mama_loops.
Proof.
  intros options v (f & s & -> & ->). unfold ti_mama, ti_mama_stream_new, bad_limit.
  destruct ((#0 .<= f) && (f .<= #1)) eqn:E1; cbn [negb andb]; [|reject_tac2].
  destruct ((#0 .<= s) && (s .<= #1)) eqn:E2; cbn [negb andb]; [|reject_tac2].
  destruct disc_init_zero as (d0 & -> & Hd0). destruct (ring_new_ok 4 ltac:(lia)) as (pr & -> & Hp). cbn [bind].
  accept_tac.
  loops_tac (fun (i : Z) (a : disc * (ring2 * ring2 * ring2)) (b : disc * (ring2 * ring2 * ring2) * ring) =>
    let '(e, q, price) := b in hist price 4 (zp x) i /\ snd a = q /\
      (i <= 6 -> disc_zero (fst a) /\ disc_zero e /\ q = (ring2_new, ring2_new, ring2_new)) /\ (6 < i -> deq (fst a) e)).
  - split; [apply hist_of_ok; [exact Hp|intros; apply zp_neg; lia]|]. split; [reflexivity|]. split; [auto|lia].
  - replace (0 - - (6)) with 6 by lia. destruct (i <? 6) eqn:Ei.
    + match goal with HZ : i <= 6 -> _ |- _ => destruct HZ as (Z1 & Z2 & Z3); [lia|]; injection Z3; intros; subst end.
      unfold skip. wpr. cbn [repeat]. emit; [apply hist_step; assumption|].
      split; [assumption|]. split; [apply disc_zero_step; assumption|reflexivity].
    + assert (D : deq d d1).
      { destruct (Z.eq_dec i 6) as [->|N]; [|match goal with HD : 6 < i -> _ |- _ => apply HD; lia end].
        match goal with HZ : 6 <= 6 -> _ |- _ => destruct HZ as (Z1 & Z2 & Z3); [lia|] end. apply disc_zero_deq; assumption. }
      repeat (lazymatch goal with |- wp (disc_set _ _ _) _ => fail | _ => wpr1 end).
      destruct (disc_set_deq #360 (disc_smooth (zf x i) (zf x (i - 1)) (zf x (i - 2)) (zf x (i - 3))) d d1 D) as (u & w & Eu & Ew & Du & _).
      rewrite Eu. cbn [wp]. rewrite rd_zf by lia. subst p.
      destruct (mama_out_deq f s (zf x i) u w (r1, r2, r0) Du) as (q & a & b & Ea & Eb). rewrite Ea. cbn [bind wp].
      repeat (lazymatch goal with |- wp (disc_set _ _ _) _ => fail | _ => wpr1 end). zpn.
      rewrite Ew. cbn [wp bind]. rewrite Eb. cbn [bind wp]. destruct q as [[q1 q2] q3].
      emit; [apply hist_step; assumption|]. apply disc_step_deq, Du.
Qed.
Lemma mama_online : online 1 mama_loops. Proof. online_tac @mama_loops. Qed.
End D.

(** ** mesastoch *)
Section E.
Context {A : Arith}.
Variable good : T -> Prop.

(** The two filters of mesastoch as a recursion over the bars from 2 on: (HP, HP[1], filt, filt[1])
    before bar [i]. *)
Definition mesa_at (k : T * T * T * T) (x : list T) (i : Z) : T * T * T * T :=
  trec (fun j '(h1, h2, f1, f2) =>
    let h := mesa_hp k (zf x j) (zf x (j - 1)) (zf x (j - 2)) h1 h2 in
    (h, h1, mesa_super k h h1 f1 f2, f1)) 2 i (#0, #0, #0, #0).
Definition mesa_hps k x : list T := tab 2 (zlen x) (fun i => fst (fst (fst (mesa_at k x (i + 1))))).
(** The filtered series whose extremes are followed. *)
Definition mesa_filts k x : list T := tab 2 (zlen x) (fun i => snd (fst (mesa_at k x (i + 1)))).

Lemma mesa_filts_len k x : 2 <= zlen x -> zlen (mesa_filts k x) = zlen x - 2.
Proof. intros H. unfold mesa_filts. rewrite zlen_tab. lia. Qed.
Lemma zp_tab2 (n : Z) (f : Z -> T) j : 0 <= j < n - 2 -> zp (tab 2 n f) j = f (j + 2).
Proof. intros H. rewrite zp_pos by lia. unfold zf. rewrite zn_tab by lia. f_equal. lia. Qed.
Lemma mesa_at_zp k x i : 2 <= i <= zlen x ->
  mesa_at k x i = (zp (mesa_hps k x) (i - 3), zp (mesa_hps k x) (i - 4), zp (mesa_filts k x) (i - 3), zp (mesa_filts k x) (i - 4)).
Proof.
  intros Hi. assert (forall m, 0 <= m -> m + 2 <= zlen x -> mesa_at k x (m + 2) = (zp (mesa_hps k x) (m - 1), zp (mesa_hps k x) (m - 2), zp (mesa_filts k x) (m - 1), zp (mesa_filts k x) (m - 2))).
  { intros m Hm. pattern m. apply natlike_ind; [|intros n Hn IH|exact Hm].
    - intros _. unfold mesa_at. rewrite trec_nil by lia. rewrite !zp_neg by lia. reflexivity.
    - unfold Z.succ. intros Hl. specialize (IH ltac:(lia)).
      replace (n + 1 - 1) with n by lia. replace (n + 1 - 2) with (n - 1) by lia.
      unfold mesa_hps at 1, mesa_filts at 1. rewrite !zp_tab2 by lia. replace (n + 2 + 1) with (n + 1 + 2) by lia.
      assert (E : mesa_at k x (n + 1 + 2) = (fun j '(h1, h2, f1, f2) =>
        let h := mesa_hp k (zf x j) (zf x (j - 1)) (zf x (j - 2)) h1 h2 in (h, h1, mesa_super k h h1 f1 f2, f1)) (n + 2) (mesa_at k x (n + 2))).
      { unfold mesa_at. replace (n + 1 + 2) with (n + 2 + 1) by lia. rewrite trec_snoc by lia. reflexivity. }
      rewrite E, IH. reflexivity. }
  specialize (H (i - 2) ltac:(lia) ltac:(lia)). replace (i - 2 + 2) with i in H by lia. replace (i - 2 - 1) with (i - 3) in H by lia. replace (i - 2 - 2) with (i - 4) in H by lia. exact H.
Qed.
Lemma mesa_rec k x i : 2 <= i < zlen x ->
  zp (mesa_hps k x) (i - 2) = mesa_hp k (zf x i) (zf x (i - 1)) (zf x (i - 2)) (zp (mesa_hps k x) (i - 3)) (zp (mesa_hps k x) (i - 4)) /\
  zp (mesa_filts k x) (i - 2) = mesa_super k (zp (mesa_hps k x) (i - 2)) (zp (mesa_hps k x) (i - 3)) (zp (mesa_filts k x) (i - 3)) (zp (mesa_filts k x) (i - 4)).
Proof.
  intros Hi. pose proof (mesa_at_zp k x i ltac:(lia)) as E. pose proof (mesa_at_zp k x (i + 1) ltac:(lia)) as E'.
  unfold mesa_at in E'. rewrite trec_snoc in E' by lia. fold (mesa_at k x i) in E'. rewrite E in E'.
  replace (i + 1 - 3) with (i - 2) in E' by lia. injection E'. intros _ F1 _ F2. split; [symmetry; exact F2|]. rewrite <- F2, <- F1. reflexivity.
Qed.

Lemma hist_of_ok' r M (g : Z -> T) i : ring_ok r M (fun _ => #0) -> i <= 0 -> (forall j, j < 0 -> g j = #0) -> hist r M g i.
Proof. intros H Hi Hg. eexists; split; [exact H|]. intros k Hk. cbn beta. rewrite Hg by lia. reflexivity. Qed.

Lemma mesa_filter_ok k x i HP filt p : 3 <= p -> 2 <= i < zlen x ->
  hist HP 3 (zp (mesa_hps k x)) (i - 2) -> hist filt p (zp (mesa_filts k x)) (i - 2) ->
  exists HP' filt', mesa_filter k (zf x i) (zf x (i - 1)) (zf x (i - 2)) HP filt = Ok (HP', filt') /\
    full HP' 3 (zp (mesa_hps k x)) (i - 2) /\ full filt' p (zp (mesa_filts k x)) (i - 2).
Proof.
  intros Hp Hi H1 H2. destruct (mesa_rec k x i Hi) as [R1 R2]. unfold mesa_filter.
  rewrite !(hist_get _ _ _ _ _ H1) by lia. cbn [bind].
  replace (i - 2 - 1) with (i - 3) by lia. replace (i - 2 - 2) with (i - 4) by lia.
  destruct (hist_set HP 3 _ (i - 2) _ H1 (eq_sym R1)) as (HP' & -> & F1). cbn [bind].
  rewrite (full_cur _ _ _ _ F1), (full_get _ _ _ _ 1 F1) by lia. rewrite !(hist_get _ _ _ _ _ H2) by lia. cbn [bind].
  replace (i - 2 - 1) with (i - 3) by lia. replace (i - 2 - 2) with (i - 4) by lia.
  destruct (hist_set filt p _ (i - 2) _ H2 (eq_sym R2)) as (filt' & -> & F2). cbn [bind]. do 2 eexists. split; [reflexivity|]. auto.
Qed.

Section C.
Context (cmp dom : T -> T -> bool) (L : ext_laws good cmp dom).
Lemma mesa_next_ext g n off i now rescan s : 1 <= n <= i -> now = i + off ->
  (forall j, 0 <= j <= i -> good (g j)) -> is_ext cmp g (i - n) (i - 1) off s ->
  (exists s', rescan = Ok s' /\ is_ext cmp g (i - n + 1) i off s') ->
  exists s', mesa_next dom rescan (g i) now n s = Ok s' /\ is_ext cmp g (i - n + 1) i off s'.
Proof.
  intros Hn -> G (k & E1 & B & E2 & D) (s' & HR & Hs). unfold mesa_next. destruct (el_strict _ _ _ L) as (S1 & S2 & S3).
  rewrite E2 in *. rewrite (el_dom _ _ _ L) by (apply G; lia). destruct (cmp (g i) (g k)) eqn:Ec; cbn [negb].
  - rewrite E1. destruct (k + off =? i + off - n) eqn:Ee; [exists s'; split; assumption|]. exists s. split; [reflexivity|].
    exists k. rewrite E2. split; [exact E1|]. split; [lia|]. split; [reflexivity|]. intros j Hj.
    destruct (Z.eq_dec j i) as [->|N]; [|apply D; lia]. apply S3; [apply G; lia|apply G; lia|exact Ec].
  - eexists. split; [reflexivity|]. exists i. cbn [fst snd]. split; [reflexivity|]. split; [lia|]. split; [reflexivity|]. intros j Hj.
    destruct (Z.eq_dec j i) as [->|N]; [apply S1, G; lia|]. apply S2 with (y := g k); [apply G; lia|apply G; lia|apply G; lia|exact Ec|apply D; lia].
Qed.
End C.
Lemma mesa_out_ok k f h l st r : rok r 3 -> exists s' r' v, mesa_out k f h l st r = Ok (s', r') /\ rok r' 3 /\ ring_cur r' = Ok v.
Proof.
  intros [g H]. unfold mesa_out. rewrite ring2_get1. cbn [bind]. rewrite !(ring_get_ok r 3 g) by (auto; lia). cbn [bind].
  match goal with |- context[ring_set r ?v] => destruct (ring_set_ok r 3 g v H) as (r' & -> & Hr) end. cbn [bind].
  do 3 eexists. split; [reflexivity|]. split; [eexists; exact Hr|eapply ring_cur_ok; exact Hr].
Qed.
Lemma mesa_next_opt_eq (dom : T -> T -> bool) rescan x now n v k s' : mesa_next dom rescan x now n (v, k) = Ok s' ->
  mesa_next_opt dom rescan x now n (v, Some k) = Ok (fst s', Some (snd s')).
Proof.
  unfold mesa_next, mesa_next_opt. cbn [fst snd val]. destruct (dom v x); [intros E; injection E; intros <-; reflexivity|].
  unfold val. cbn [bind]. cbn beta. destruct (k =? now - n); [intros ->; reflexivity|intros E; injection E; intros <-; reflexivity].
Qed.
Lemma mesa_push_eq (dom : T -> T -> bool) x now v k : mesa_push dom x now (v, Some k) = (fst (trk_push dom x now (v, k)), Some (snd (trk_push dom x now (v, k)))).
Proof. unfold mesa_push, trk_push. cbn [fst]. destruct (dom v x); reflexivity. Qed.

Context {IL : IntLaws A} (AL : AntiLaws A good).
Let Lmax := max_laws good AL.
Let Lmin := min_laws good AL.
Let G0 := anti_zero _ _ AL.

(** Every filtered value is [good]. *)
Definition good_filtered (mcc : Z) : list (list T) -> Prop := fun inputs =>
  match inputs with [x] => Forall good (mesa_filts (mesa_consts mcc) x) | _ => False end.
(** Period [n] >= 3 (smaller accepted ones read outside the buffer [filt]), second option [mcc]. *)
Definition o_mesa (mcc : Z) : optspec := fun opts v => exists a b n, opts = [a; b] /\ to_int a = Some n /\ to_int b = Some mcc /\
  v = if n <? 1 then Reject else if mcc <? 1 then Reject else if n <? 3 then Outside else if INT_MAX <? n + 2 then Outside else Accept (n + 2).

Definition trk_opt (s : T * option Z) (t : trk) : Prop := fst s = fst t /\ snd s = Some (snd t).

Lemma mesastoch_sim mcc : InfLaw A good -> sim 1 1 (o_mesa mcc) (good_filtered mcc) ti_mesastoch_start ti_mesastoch ti_mesastoch_stream_new mesastoch_loops.
Proof.
  intros IF options v (o0 & o1 & n & -> & Ha & Hb & ->). unfold ti_mesastoch, ti_mesastoch_stream_new, ti_mesastoch_start.
  ranges. repeat (getcast; cbn [bind]).
  destruct (n <? 1) eqn:E1; [reject_tac2|]. destruct (mcc <? 1) eqn:E2; [reject_tac2|].
  destruct (n <? 3) eqn:E3; [exact I|]. destruct (INT_MAX <? n + 2) eqn:E4; [exact I|].
  rewrite ck_ok by zl. cbn [bind].
  destruct (ring_new_ok n ltac:(lia)) as (rf & -> & Hrf). destruct (ring_new_ok 3 ltac:(lia)) as (r3 & -> & Hr3). cbn [bind].
  accept_tac. set (k := mesa_consts mcc) in *.
  match goal with HG : good_filtered _ _ |- _ => pose proof (Forall_zf good _ HG) as GX; fold k in GX; clear HG end.
  unfold batch_loops.
  loops_tac (fun (i : Z) (a : (T * option Z) * (T * option Z) * ring * ring * ring2 * ring) (b : mesa_state) =>
    let '(hi, lo, filt, HP, stoc, result) := a in let '(hi', lo', filt', HP', stoc', result', price) := b in
    filt = filt' /\ HP = HP' /\ stoc = stoc' /\ result = result' /\ hist price 3 (zp x) i /\ rok result 3 /\
    (i <= 2 -> filt = rf /\ HP = r3 /\ hi = (.- finf, None) /\ lo = (finf, None) /\ hi' = (.- finf, 0) /\ lo' = (finf, 0)) /\
    (2 <= i -> hist filt n (zp (mesa_filts k x)) (i - 2) /\ hist HP 3 (zp (mesa_hps k x)) (i - 2)) /\
    (3 <= i -> exists h l, trk_opt hi h /\ trk_opt lo l /\
       is_ext lessf (zf (mesa_filts k x)) (Z.max 0 (i - 2 - n)) (i - 3) 2 h /\ is_ext lessf (zf (mesa_filts k x)) (Z.max 0 (i - 2 - n)) (i - 3) (- n) hi' /\
       is_ext moref (zf (mesa_filts k x)) (Z.max 0 (i - 2 - n)) (i - 3) 2 l /\ is_ext moref (zf (mesa_filts k x)) (Z.max 0 (i - 2 - n)) (i - 3) (- n) lo')).
  - repeat (split; [reflexivity|]). split; [apply hist_of_ok; [exact Hr3|intros; apply zp_neg; lia]|]. split; [eexists; exact Hr3|].
    split; [auto 10|]. split; lia.
  - replace (- n - - (n + 2)) with 2 by lia. replace (0 - - (n + 2)) with (n + 2) by lia. subst r8 r7 r6 r5.
    destruct (i <? 2) eqn:Ei2.
    { match goal with HZ : i <= 2 -> _ |- _ => destruct HZ as (-> & -> & -> & -> & -> & ->); [lia|] end.
      unfold skip. wpr. emit; [apply hist_step; assumption|auto 10|].
      split; (apply hist_of_ok'; [eassumption|lia|intros; apply zp_neg; lia]). }
    match goal with HZ : 2 <= i -> _ |- _ => destruct HZ as [Hf Hh]; [lia|] end.
    destruct (mesa_filter_ok k x i r1 r2 n ltac:(lia) ltac:(lia) Hh Hf) as (HP' & filt' & EF & Fh & Ff).
    assert (Hm : zlen (mesa_filts k x) = zlen x - 2) by (apply mesa_filts_len; lia).
    assert (Ef : ring_cur filt' = Ok (zf (mesa_filts k x) (i - 2))) by (rewrite (full_cur _ _ _ _ Ff), zp_pos by lia; reflexivity).
    destruct (i <? n + 2) eqn:Ein.
    + assert (P : exists h l, trk_opt (mesa_push le_f (zf (mesa_filts k x) (i - 2)) i p) h /\ trk_opt (mesa_push ge_f (zf (mesa_filts k x) (i - 2)) i p0) l /\
        is_ext lessf (zf (mesa_filts k x)) 0 (i - 2) 2 h /\ is_ext lessf (zf (mesa_filts k x)) 0 (i - 2) (- n) (trk_push le_f (zf (mesa_filts k x) (i - 2)) (- (n + 2) + i) t) /\
        is_ext moref (zf (mesa_filts k x)) 0 (i - 2) 2 l /\ is_ext moref (zf (mesa_filts k x)) 0 (i - 2) (- n) (trk_push ge_f (zf (mesa_filts k x) (i - 2)) (- (n + 2) + i) t0)).
      { clear Ef Ff Fh EF. destruct (Z.eq_dec i 2) as [->|N].
        - match goal with HZ : 2 <= 2 -> _ |- _ => destruct HZ as (_ & _ & -> & -> & -> & ->); [lia|] end.
          change (2 - 2) with 0. unfold mesa_push, trk_push. cbn [fst].
          destruct (IF (zf (mesa_filts k x) 0)) as [I1 I2]; [apply GX; lia|].
          change (le_f (.- finf) (zf (mesa_filts k x) 0)) with (.- finf .<= zf (mesa_filts k x) 0).
          change (ge_f finf (zf (mesa_filts k x) 0)) with (zf (mesa_filts k x) 0 .<= finf). rewrite I1, I2.
          exists (zf (mesa_filts k x) 0, 2), (zf (mesa_filts k x) 0, 2). split; [split; reflexivity|]. split; [split; reflexivity|].
          assert (forall off now, now = 0 + off -> is_ext lessf (zf (mesa_filts k x)) 0 0 off (zf (mesa_filts k x) 0, now)) by (intros; apply (ext_one good _ _ Lmax); [apply GX; lia|assumption]).
          assert (forall off now, now = 0 + off -> is_ext moref (zf (mesa_filts k x)) 0 0 off (zf (mesa_filts k x) 0, now)) by (intros; apply (ext_one good _ _ Lmin); [apply GX; lia|assumption]).
          repeat split; auto with zarith.
        - match goal with HZ : 3 <= i -> _ |- _ => destruct HZ as ([h kh] & [l kl] & [P1 P2] & [P3 P4] & Q1 & Q2 & Q3 & Q4); [lia|] end.
          destruct p as [pv pk], p0 as [qv qk]. cbn [fst snd] in *. subst. rewrite !mesa_push_eq.
          exists (trk_push le_f (zf (mesa_filts k x) (i - 2)) i (h, kh)), (trk_push ge_f (zf (mesa_filts k x) (i - 2)) i (l, kl)).
          split; [split; reflexivity|]. split; [split; reflexivity|].
          replace (Z.max 0 (i - 2 - n)) with 0 in * by lia. replace (i - 3) with (i - 2 - 1) in * by lia.
          split; [apply (push_ext good _ _ Lmax); [intros; apply GX; lia|lia|lia|assumption]|].
          split; [apply (push_ext good _ _ Lmax); [intros; apply GX; lia|lia|lia|assumption]|].
          split; (apply (push_ext good _ _ Lmin); [intros; apply GX; lia|lia|lia|assumption]). }
      destruct P as (h & l & P).
      repeat (lazymatch goal with |- wp (mesa_filter _ _ _ _ _ _) _ => fail | _ => wpr1 end). rewrite EF. cbn [wp].
      repeat (lazymatch goal with |- wp (mesa_filter _ _ _ _ _ _) _ => fail | _ => wpr1 end). zpn. rewrite EF. cbn [wp]. wpr1. wpr1. wpr1.
      emit; [apply hist_step; assumption| |].
      * replace (i + 1 - 2) with (i - 2 + 1) by lia. split; apply hist_step; assumption.
      * exists h, l. replace (Z.max 0 (i + 1 - 2 - n)) with 0 by lia. replace (i + 1 - 3) with (i - 2) by lia. exact P.
    + match goal with HZ : 3 <= i -> _ |- _ => destruct HZ as ([h kh] & [l kl] & [P1 P2] & [P3 P4] & Q1 & Q2 & Q3 & Q4); [lia|] end.
      destruct p as [pv pk], p0 as [qv qk]. cbn [fst snd] in *. subst pv pk qv qk.
      replace (Z.max 0 (i - 2 - n)) with (i - 2 - n) in * by lia. replace (i - 3) with (i - 2 - 1) in * by lia.
      set (X := mesa_filts k x) in *.
      assert (GG : forall j, 0 <= j <= i - 2 -> good (zf X j)) by (intros; apply GX; lia).
      destruct (mesa_next_ext _ _ Lmax (zf X) n 2 (i - 2) i (rescan_phys lessf filt' i) (h, kh)) as (h1 & Eh1 & Xh1); [lia|lia|exact GG|exact Q1|apply (rescan_phys_ok good _ _ Lmax X filt' n); [exact G0|exact GX|exact Ff|lia|lia|lia]|].
      destruct (mesa_next_ext _ _ Lmin (zf X) n 2 (i - 2) i (rescan_phys moref filt' i) (l, kl)) as (l1 & El1 & Xl1); [lia|lia|exact GG|exact Q3|apply (rescan_phys_ok good _ _ Lmin X filt' n); [exact G0|exact GX|exact Ff|lia|lia|lia]|].
      destruct (mesa_next_ext _ _ Lmax (zf X) n (- n) (i - 2) (- (n + 2) + i) (rescan_ring lessf filt' n (- (n + 2) + i)) t) as (h2 & Eh2 & Xh2); [lia|lia|exact GG|exact Q2|apply (rescan_ring_ok good _ _ Lmax X filt' n); [exact G0|exact GX|exact Ff|lia|lia|lia|lia]|].
      destruct (mesa_next_ext _ _ Lmin (zf X) n (- n) (i - 2) (- (n + 2) + i) (rescan_ring moref filt' n (- (n + 2) + i)) t0) as (l2 & El2 & Xl2); [lia|lia|exact GG|exact Q4|apply (rescan_ring_ok good _ _ Lmin X filt' n); [exact G0|exact GX|exact Ff|lia|lia|lia|lia]|].
      assert (Eh : fst h1 = fst h2) by (apply (is_ext_eq good _ _ Lmax (zf X) (i - 2 - n + 1) (i - 2) 2 (- n)); [intros; apply GG; lia|assumption|assumption]).
      assert (El : fst l1 = fst l2) by (apply (is_ext_eq good _ _ Lmin (zf X) (i - 2 - n + 1) (i - 2) 2 (- n)); [intros; apply GG; lia|assumption|assumption]).
      destruct (mesa_out_ok k (zf X (i - 2)) (fst h1) (fst l1) r0 r) as (so & ro & vo & Eo & Ho & Eco); [assumption|].
      repeat (lazymatch goal with |- wp (mesa_filter _ _ _ _ _ _) _ => fail | _ => wpr1 end). rewrite EF. cbn [wp]. rewrite Ef. cbn [bind].
      rewrite (mesa_next_opt_eq _ _ _ _ _ _ _ _ Eh1). cbn [bind]. rewrite (mesa_next_opt_eq _ _ _ _ _ _ _ _ El1). cbn [bind fst]. rewrite Eo. cbn [bind]. rewrite Eco. cbn [bind wp].
      repeat (lazymatch goal with |- wp (mesa_filter _ _ _ _ _ _) _ => fail | _ => wpr1 end). zpn. rewrite EF. cbn [wp bind]. rewrite Ef. cbn [bind].
      rewrite Eh2. cbn [bind]. rewrite El2. cbn [bind]. rewrite <- Eh, <- El, Eo. cbn [bind]. rewrite Eco. cbn [bind wp].
      emit; [apply hist_step; assumption|apply rok_step; assumption| |].
      * replace (i + 1 - 2) with (i - 2 + 1) by lia. split; apply hist_step; assumption.
      * exists h1, l1. split; [split; reflexivity|]. split; [split; reflexivity|].
        replace (Z.max 0 (i + 1 - 2 - n)) with (i - 2 - n + 1) by lia. replace (i + 1 - 3) with (i - 2) by lia. auto.
Qed.
Lemma mesastoch_online : online 1 mesastoch_loops. Proof. online_tac @mesastoch_loops; rewrite ?Z.add_0_r; reflexivity. Qed.
End E.

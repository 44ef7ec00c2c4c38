(** arsi in exact arithmetic: the period stays between 0 and 50, which bounds the conversion
    (int)(cycpart * SmoothPeriod) and the price buffer of the stream. *)
From Verif Require Export C_stream7 C_stream4R StreamOut.

(** Values between 0 and 50. *)
Definition in50 (x : R) : Prop := (0 <= x <= 50)%R.
Definition in50_2 (r : @ring2 RA) : Prop := in50 (@ra1 RA r) /\ in50 (@ra2 RA r).
Lemma clamp_in50 cur last : in50 last -> in50 (@disc_clamp RA cur last).
Proof.
  intros [L1 L2]. unfold disc_clamp. cbn [flt fle lit fmul fadd of_Z RA].
  match goal with |- in50 (IZR 2 / IZR (10 ^ 1) * ?q + _)%R => assert (H : (6 <= q <= 50)%R); [|revert H; generalize q; intros w H] end.
  { repeat match goal with |- context[Rltb ?a ?b] => lazymatch constr:((a, b)) with context[Rltb _ _] => fail | _ => destruct (Rltb_spec a b) end end; lra. }
  change (10 ^ 1) with 10. split; lra.
Qed.
Lemma smooth_in50 a b : in50 a -> in50 b -> in50 (@fadd RA (lit 33 2 .* a) (lit 67 2 .* b)).
Proof. intros [A1 A2] [B1 B2]. cbn. change (Z.pow_pos 10 2) with 100. split; lra. Qed.
Lemma disc_in50 c (s u : @M_stream7.disc RA) : disc_next_ok c s u -> in50_2 (d_Period s) -> in50_2 (d_SmoothPeriod s) ->
  in50_2 (d_Period u) /\ in50_2 (d_SmoothPeriod u) /\ in50 (@ring2_cur RA (d_SmoothPeriod u)).
Proof.
  intros [(cur & _ & Ep) Es] [P1 P2] [S1 S2]. rewrite Es, Ep. cbn [ring2_set ring2_cur ra1 ra2].
  pose proof (clamp_in50 cur _ P2) as C. pose proof (smooth_in50 _ _ C S2) as D. unfold in50_2. cbn [ra1 ra2]. auto.
Qed.
Lemma in50_step r : in50_2 r -> in50_2 (@ring2_step RA r).
Proof. intros [H1 H2]. split; assumption. Qed.

(** cycpart: positive, and cycpart*50+1, the size of the price buffer, at least 4. *)
Definition o_arsi : @optspec RA := fun opts v => exists c : R, opts = [c] /\
  v = if Rleb c 0 then Reject else
      match @to_int RA (c .* #50 .+ #1) with
      | Some m => if m <? 4 then Outside else Accept 5
      | None => Outside
      end.

Lemma arsi_count (c sp : R) m : (0 < c)%R -> in50 sp -> @to_int RA (c .* #50 .+ #1) = Some m ->
  exists n, @cast RA (c .* sp) = Ok n /\ 0 <= n <= m - 1.
Proof.
  intros Hc [S1 S2] Hm. unfold cast. cbn [to_int RA fmul fadd of_Z] in *. unfold Rto_int in *.
  destruct ((INT_MIN <=? Rtrunc (c * 50 + 1)) && (Rtrunc (c * 50 + 1) <=? INT_MAX)) eqn:E; [|discriminate].
  injection Hm; intros <-. clear Hm.
  assert (0 <= c * sp)%R by nra. assert (c * sp <= c * 50)%R by nra.
  assert (0 <= Rtrunc (c * sp) /\ Rtrunc (c * sp) + 1 <= Rtrunc (c * 50 + 1)) as [Q1 Q2].
  { unfold Rtrunc. destruct (Rle_dec 0 (c * sp)); [|lra]. destruct (Rle_dec 0 (c * 50 + 1)); [|nra].
    pose proof (Int_part_bounds (c * sp)) as [B1 B2]. pose proof (Int_part_bounds (c * 50 + 1)) as [B3 B4]. split.
    - assert (IZR (-1) < IZR (Int_part (c * sp)))%R as K by (cbn; lra). apply lt_IZR in K. lia.
    - assert (IZR (Int_part (c * sp) + 1) < IZR (Int_part (c * 50 + 1) + 1))%R as K by (rewrite !plus_IZR; lra). apply lt_IZR in K. lia. }
  replace ((INT_MIN <=? Rtrunc (c * sp)) && (Rtrunc (c * sp) <=? INT_MAX)) with true by zl.
  eexists. split; [reflexivity|lia].
Qed.
(** The two ways to look back read the same prices. *)
Lemma arsi_out_eq (c sp : R) m x i (r : @ring RA) : (0 < c)%R -> in50 sp -> @to_int RA (c .* #50 .+ #1) = Some m -> 0 <= i < zlen x ->
  full r m (zp x) i -> exists y, @arsi_out RA c sp i (fun k => rd x (i - k)) = Ok y /\ @arsi_out RA c sp i (ring_get r) = Ok y.
Proof.
  intros Hc Hs Hm Hi F. destruct (arsi_count c sp m Hc Hs Hm) as (n & En & Hn). unfold arsi_out. rewrite En. cbn [bind].
  set (g := fun (count : Z) '(CU, CD) => (CU .+ stdmax #0 (zf x (i - count) .- zf x (i - (count + 1))), CD .+ (.- stdmin #0 (zf x (i - count) .- zf x (i - (count + 1)))))).
  rewrite !(for_trec _ _ _ g).
  - destruct (trec g 0 (Z.min n i) (#0, #0)) as [a b]. cbn [bind]. eexists; split; reflexivity.
  - intros j [a b] Hj. rewrite !(full_get _ _ _ _ _ F) by lia. cbn [bind]. rewrite !zp_pos by lia. reflexivity.
  - intros j [a b] Hj. rewrite !rd_zf by lia. reflexivity.
Qed.

Lemma arsi_sim : @sim RA _ _ 1 1 o_arsi always ti_arsi_start ti_arsi ti_arsi_stream_new arsi_loops.
Proof.
  intros options v (c & -> & ->). unfold ti_arsi, ti_arsi_stream_new. change (@fle RA c #0) with (Rleb c 0).
  destruct (Rleb_spec c 0) as [E1|E1]; [reject_tac2|]. assert (Hc : (0 < c)%R) by lra.
  match goal with |- context[match ?o with Some _ => _ | None => Outside end] => destruct o as [m|] eqn:Em end; [|exact I]. destruct (m <? 4) eqn:E4; [exact I|].
  unfold cast. rewrite Em. cbn [bind]. destruct (ring_new_ok m ltac:(lia)) as (pr & -> & Hp). cbn [bind].
  destruct disc_init_zero as (d0 & -> & Hd0). cbn [bind]. accept_tac.
  loops_tac (fun (i : Z) (a : @M_stream7.disc RA) (b : @M_stream7.disc RA * @ring RA) => a = fst b /\ deq a a /\ hist (snd b) m (zp x) i /\
     in50_2 (d_Period a) /\ in50_2 (d_SmoothPeriod a)).
  - split; [reflexivity|]. split; [apply disc_zero_deq; assumption|]. split; [apply hist_of_ok; [exact Hp|intros; apply zp_neg; lia]|].
    destruct Hd0 as (_ & _ & _ & _ & E). injection E; intros -> -> _ _ _ _. split; (split; cbn; split; lra).
  - replace (0 - - (5)) with 5 by lia. destruct (i <? 5) eqn:Ei.
    + subst. unfold skip. wpr. emit; [apply hist_step; assumption].
    + subst. repeat (lazymatch goal with |- wp (disc_set _ _ _) _ => fail | _ => wpr1 end).
      match goal with |- wp (disc_set ?c ?v ?d) _ => destruct (disc_set_deq c v d d ltac:(assumption)) as (u & w & Eu & Ew & Du & Nu) end.
      rewrite Eu in Ew. injection Ew; intros <-. clear Ew.
      destruct (disc_in50 _ _ _ Nu ltac:(assumption) ltac:(assumption)) as (U1 & U2 & U3).
      match goal with HH : hist ?r m (zp x) i |- _ => destruct (hist_set r m (zp x) i (zf x i) HH) as (r' & Er & F); [rewrite zp_pos by lia; reflexivity|] end.
      destruct (arsi_out_eq c (ring2_cur (d_SmoothPeriod u)) m x i r' Hc U3 Em ltac:(lia) F) as (y & Ey & Ey').
      rewrite Eu. cbn [wp]. rewrite Ey. cbn [bind wp].
      rewrite rd_zf by lia. cbn [bind]. rewrite Er. cbn [bind]. rewrite (full_cur _ _ _ _ F). rewrite !(full_get _ _ _ _ _ F) by lia. cbn [bind].
      rewrite !zp_pos by lia. rewrite Eu. cbn [bind]. replace (- (5) + i + 5) with i by lia. rewrite Ey'. cbn [bind wp].
      emit; [apply disc_step_deq; assumption|apply hist_step; assumption| |]; apply in50_step; assumption.
Qed.
Lemma arsi_online {A : Arith} : online 1 arsi_loops. Proof. online_tac @arsi_loops; rewrite ?Z.add_0_r; reflexivity. Qed.

(** The output lies between 0 and 100. *)
Lemma ratio100 (u d : R) : (0 <= u)%R -> (0 <= d)%R -> (0 <= (if negb (Reqb (u + d) 0) then 100 * u / (u + d) else 0) <= 100)%R.
Proof.
  intros Hu Hd. destruct (Reqb_spec (u + d) 0) as [E|E]; cbn [negb]; [lra|]. assert (0 < u + d)%R by lra. split.
  - apply Rmult_le_pos; [lra|]. left. apply Rinv_0_lt_compat. assumption.
  - apply Rmult_le_reg_r with (u + d)%R; [assumption|]. unfold Rdiv. rewrite Rmult_assoc, Rinv_l by lra. lra.
Qed.
Lemma arsi_out_range (c sp : R) i (f : Z -> @res R) y : @arsi_out RA c sp i f = Ok y -> (0 <= y <= 100)%R.
Proof.
  unfold arsi_out. destruct (cast _) as [n|]; cbn [bind]; [|discriminate].
  match goal with |- (let* _ := ?m in _) = _ -> _ => destruct m as [[u d]|] eqn:E; cbn [bind]; [|discriminate] end.
  intros H. injection H; intros <-. clear H. destruct (Z.le_gt_cases 0 (Z.min n i)) as [L|L].
  - eapply (for_inv (fun _ (q : R * R) => (0 <= fst q /\ 0 <= snd q)%R)) in E; [|exact L|cbn; lra|].
    + apply ratio100; apply E.
    + clear. intros j [u d] q Hj [H1 H2]. destruct (f j) as [a|]; cbn [bind]; [|discriminate]. destruct (f (j + 1)) as [b|]; cbn [bind]; [|discriminate].
      intros H. injection H; intros <-. cbn [fst snd] in *. unfold stdmax, stdmin. cbn [flt fsub fopp fadd of_Z RA].
      destruct (Rltb_spec 0 (a - b)), (Rltb_spec (a - b) 0); lra.
  - rewrite for_nil in E by lia. injection E; intros <- <-. apply ratio100; cbn; lra.
Qed.
Lemma arsi_range size x (c : R) y : 0 <= size -> @ti_arsi RA size [x] [c] = Ok (OKAY, [y]) -> Forall (fun v : R => 0 <= v <= 100)%R y.
Proof.
  intros Hs. unfold ti_arsi. destruct (_ .<= _); [intros H; injection H; intros <-; constructor|].
  destruct disc_init as [s|]; cbn [bind]; [|discriminate]. unfold batch_loops.
  match goal with |- (let* _ := ?m in _) = _ -> _ => destruct m as [[s' o]|] eqn:E; cbn [bind]; [|discriminate] end.
  intros H. injection H; intros ->. clear H.
  apply (@loops_outs RA _ (fun _ _ => True) [fun v : R => (0 <= v <= 100)%R]) in E; [inversion_clear E; assumption|exact Hs|exact I|].
  clear. intros i d r Hi _. unfold dispatch. cbn [dispatch' Stream.bounded Stream.final]. destruct (i <? 5).
  - intros H. injection H; intros <-. split; [|exact I]. repeat constructor.
  - repeat match goal with |- (let* _ := ?m in _) = _ -> _ => let E := fresh "E" in destruct m eqn:E; cbn [bind]; [|discriminate] end.
    intros H. injection H; intros <-. split; [|exact I]. constructor; [|constructor]. constructor; [|constructor].
    eapply arsi_out_range. eassumption.
Qed.

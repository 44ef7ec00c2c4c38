(** Streams of M_stream3 that agree with the batch function in exact arithmetic only. *)
From Verif Require Export C_atr C_stream2R.
From Verif Require Import RArith RSum Fun_basic.
From Coq Require Import Reals Lra.
Open Scope Z_scope.

(** atr: the first value is sum * (1/period) rather than sum / period, without the initial 0. *)
Lemma atr_sim : @sim RA _ _ 3 1 o_atr always start_p1 ti_atr ti_atr_stream_new atr_loops.
Proof.
  intros options v (ns & ? & ? & ->). lists. ranges. unfold ti_atr_stream_new. cbn [v_period].
  destruct (p <? 1) eqn:Ep.
  { split; [getcast; cbn [bind]; rewrite Ep; reflexivity|]. intros size inputs (? & ? & ?). lists. unfold ti_atr. getcast. cbn [bind]. rewrite Ep. reflexivity. }
  replace (p <=? INT_MAX) with true by lia.
  getcast. cbn [bind]. rewrite Ep. unfold start_p1. getcast. cbn [bind]. rewrite ck_ok by zl. cbn [bind]. accept_tac.
  set (tr := @tr_at RA x0 x1 x2).
  tab_tac (fun (i : Z) (b : @T RA * @T RA * @T RA) =>
     (i >= 1 -> snd b = @zf RA x2 (i - 1) /\ (i <= p -> fst (fst b) = trec (fun i s => s .+ tr i) 0 i (@of_Z RA 0)) /\
      (i >= p -> snd (fst b) = wild p tr (i - p)))) [wild p tr].
  - etransitivity; [apply (atr_fun size x0 x1 x2 x p); first [assumption|split; assumption|zl]|]. cbn [map]. apply okl, consl; [apply tab_eq; lia|reflexivity].
  - lia.
  - destruct s as [[sum last] lc]. cbn [fst snd] in HI.
    assert (Ew : i < p -> atr_warm p (- (p + -1)) x0 x1 x2 i (sum, last, lc) =
      Ok (trec (fun i s => s .+ tr i) 0 (i + 1) (@of_Z RA 0), last, @zf RA x2 i)).
    { intros Hip. unfold atr_warm, atr_add. rewrite !rd_zf by lia. cbn [bind]. rewrite trec_snoc by lia.
      destruct (- (p + -1) + i =? - (p - 1)) eqn:E0.
      - assert (i = 0) as -> by lia. rewrite trec_nil by lia. cbn. unfold tr, tr_at. cbn. do 3 f_equal. ring.
      - destruct HI as (-> & HS & _); [lia|]. rewrite HS by lia. unfold tr, tr_at. replace (i =? 0) with false by lia. reflexivity. }
    assert (EW : forall k, 0 <= k -> wild p tr (k + 1) = (tr (p + k) .- wild p tr k) .* (#1 ./ #p) .+ wild p tr k).
    { intros k Hk. unfold wild. rewrite Z.add_assoc. rewrite trec_snoc by lia. reflexivity. }
    destruct (i <? 0 - - (p + -1)) eqn:E1; [|destruct (i <? 1 - - (p + -1)) eqn:E2].
    + rewrite Ew by lia. cbn [bind wp fst snd]. replace (p + -1 <=? i) with false by lia. split; [reflexivity|]. intros _.
      split; [f_equal; lia|]. split; [reflexivity|]. lia.
    + rewrite Ew by lia. cbn [bind wp fst snd atr_first]. replace (p + -1 <=? i) with true by lia. assert (i = p - 1) as -> by lia.
      assert (EF : (trec (fun i s => s .+ tr i) 0 (p - 1 + 1) (@of_Z RA 0) .* (#1 ./ #p) = wild p tr 0)%R).
      { unfold wild. rewrite Z.add_0_r, (trec_nil _ p) by lia. replace (p - 1 + 1) with p by lia. cbn. unfold Rdiv. rewrite Rmult_1_l. reflexivity. }
      cbn [map]. replace (p - 1 - (p + -1)) with 0 by lia. split; [apply consl; [|reflexivity]; apply consl; [exact EF|reflexivity]|]. intros _.
      split; [f_equal; lia|]. split; [reflexivity|]. intros _. replace (p - 1 + 1 - p) with 0 by lia. exact EF.
    + destruct HI as (-> & _ & HL); [lia|]. unfold atr_next. rewrite !rd_zf by lia. cbn [bind wp fst snd]. replace (p + -1 <=? i) with true by lia.
      rewrite HL by lia. replace (i - (p + -1)) with (i - p + 1) by lia.
      assert (ET : atr_tr (@zf RA x0 i) (@zf RA x1 i) (@zf RA x2 (i - 1)) = tr i) by (unfold tr, tr_at; replace (i =? 0) with false by lia; reflexivity).
      rewrite ET. pose proof (EW (i - p) ltac:(lia)) as E3. replace (p + (i - p)) with i in E3 by lia. rewrite <- E3.
      split; [reflexivity|]. intros _. split; [f_equal; lia|]. split; [lia|]. intros _. f_equal. lia.
Qed.
Lemma ehma_sim : @sim RA _ _ 1 1 (int_opts 1 (v_const 1 (INT_MAX - 1) 0)) always ti_ehma_start ti_ehma ti_ehma_stream_new ehma_loops.
Proof.
  intros options v (ns & ? & ? & ->). lists. ranges. unfold ti_ehma_stream_new, ti_ehma, ti_ehma_start. getcast. cbn [bind v_const].
  destruct (p <? 1) eqn:Ep; [reject_tac2|]. destruct (p <=? INT_MAX - 1) eqn:E2; [|exact I]. rewrite ck_ok by zl. cbn [bind]. accept_tac.
  unfold batch_loops.
  loops_tac (fun (i : Z) (a : option (@T RA * @T RA * @T RA)) (b : @T RA * @T RA * @T RA) => i >= 1 -> a = Some b).
  - lia.
  - change (1 - - 0) with 1. destruct (i <? 1) eqn:Ei.
    + cbn iota. wpr. emit.
    + cbn iota. rewrite HR by lia. cbn [val bind]. untuple. wpr. cbn [fst snd].
      assert (E3 : (IZR (p + 1) = IZR p + 1)%R) by apply plus_IZR.
      cbn [fadd fsub fmul fdiv of_Z RA] in *. unfold Rdiv. rewrite E3. change (@T RA) with R in *. rewrite !Rmult_1_l. emit.
Qed.
Lemma ehma_online {A : Arith} : online 1 ehma_loops. Proof. online_tac @ehma_loops. Qed.

(** pwma: numer * (1/denom) rather than numer / denom. *)
Definition o_pwma : @optspec RA := fun options v => exists x w n, options = [x; w] /\ @to_int RA x = Some n /\
  v = if n <? 1 then Reject else if n <? INT_MAX then Accept (n - 1) else Outside.
Lemma pwma_sim : @sim RA _ _ 1 1 o_pwma always ti_pwma_start ti_pwma ti_pwma_stream_new pwma_loops.
Proof.
  intros options v (x & w & n & -> & Hx & ->). unfold ti_pwma_stream_new, ti_pwma, ti_pwma_start, start_fm1. assert (Ec : cast x = Ok n) by (unfold cast; rewrite Hx; reflexivity). rewrite Ec. cbn [bind].
  destruct (n <? 1) eqn:E1; [reject_tac2|]. destruct (n <? INT_MAX) eqn:E2; [|exact I].
  assert (Ec1 : cast (x .- #1) = Ok (n - 1)) by (unfold cast; rewrite (to_int_pred x n) by (auto; lia); reflexivity). rewrite Ec1. cbn [bind]. rewrite ck_ok by zl. cbn [bind].
  hist0 (n + 1). erewrite for_trec by (intros; reflexivity). cbn [bind]. accept_tac.
  erewrite for_trec by (intros; reflexivity). cbn [bind].
  set (D := trec _ 0 (Z.min n size) _). set (D' := trec _ 0 n _).
  rewrite (collect1 (n - 1) size (fun i => Ok (trec (fun j s => s .+ zf x0 (i - j) .* fpow #(n - j) w) 0 n #0 ./ D))); [|lia|].
  2:{ intros i o Hi. erewrite for_trec; [reflexivity|]. intros j s Hj. rewrite !rd_zf by zl. reflexivity. }
  loops_tac (fun (i : Z) (a : unit) (b : ring) => hist b (n + 1) (zp x0) i).
  - apply hist_of_ok; [exact Hr|]. intros; apply zp_neg; lia.
  - replace (0 - - (n - 1)) with (n - 1) by lia. destruct (i <? n - 1) eqn:Ei.
    + wpr. emit. apply hist_step; assumption.
    + assert (ED : D = D') by (unfold D, D'; f_equal; lia). wpr. eapply (wp_for_trec 0 n _ (fun j s => s .+ zp x0 (i - j) .* fpow #(n - j) w)).
      * intros j s Hj. erewrite full_get by (eassumption || lia). reflexivity.
      * wpr. cbn [fst snd]. rewrite ED. emit; [|apply hist_step; assumption].
        erewrite (trec_ext _ (fun j s => s .+ zp x0 (i - j) .* fpow #(n - j) w)) by (intros; zpn; reflexivity).
        apply consl; [apply consl; [|reflexivity]|reflexivity]. cbn [fmul fdiv of_Z RA]. unfold Rdiv. rewrite Rmult_1_l. reflexivity.
Qed.
Lemma pwma_online {A : Arith} : online 1 pwma_loops. Proof. online_tac @pwma_loops. Qed.

(** lma: the weights add up to n(n+1)/2. *)
Definition v_lma (n : Z) : verdict := if n <? 1 then Reject else Accept (n - 1).
Lemma lma_denom n : 0 <= n -> trec (fun i s => s .+ @of_Z RA (i + 1)) 0 n (@of_Z RA 0) = ((1 + IZR n) / 2 * IZR n)%R.
Proof.
  intros H. apply (zind (fun n => trec (fun i s => s .+ @of_Z RA (i + 1)) 0 n (@of_Z RA 0) = ((1 + IZR n) / 2 * IZR n)%R) 0 n H).
  - cbn. lra.
  - intros m Hm IH. rewrite trec_snoc by lia. rewrite IH. cbn. rewrite plus_IZR. lra.
Qed.
Lemma lma_sim : @sim RA _ _ 1 1 (o_Z1 v_lma) always ti_lma_start ti_lma ti_lma_stream_new lma_loops.
Proof.
  intros options v (n & -> & Hn & ->). unfold ti_lma, ti_lma_stream_new, ti_lma_start, start_fm1, v_lma.
  rewrite flt_of_Z by zl. rewrite (cast_of_Z n) by zl. cbn [bind].
  destruct (n <? 1) eqn:E1; [reject_tac2|].
  rewrite fsub_of_Z by zl. rewrite cast_of_Z by zl. cbn [bind].
  hist0 n. accept_tac. erewrite for_trec by (intros; reflexivity). cbn [bind].
  rewrite lma_denom by lia. unfold batch_loops.
  loops_tac (fun (i : Z) (a : @T RA * @T RA) (b : @T RA * @T RA * ring) => a = fst b /\ hist (snd b) n (zp x) i).
  - split; [reflexivity|]. apply hist_of_ok; [exact Hr|]. intros; apply zp_neg; lia.
  - match goal with HP : _ = _ |- _ => injection HP; intros; subst end.
    replace (0 - - (n - 1)) with (n - 1) by lia. replace (- (n - 1) + i + (n - 1) + 1) with (i + 1) by lia.
    destruct (i <? n - 1) eqn:Ea.
    + wpr. emit. apply hist_step; assumption.
    + wpr. zpn. replace (i - (n - 1)) with (i - n + 1) by lia. cbn [fst snd]. emit; [|apply hist_step; assumption].
      apply consl; [apply consl; [|reflexivity]|reflexivity]. cbn [fadd fsub fmul fdiv of_Z RA]. unfold Rdiv. rewrite !Rmult_1_l. reflexivity.
Qed.
Lemma lma_online {A : Arith} : online 1 lma_loops. Proof. online_tac @lma_loops; rewrite ?Z.add_0_r; reflexivity. Qed.

(** Streams of M_stream2 that agree with the batch function in exact arithmetic only. *)
From Verif Require Export C_stream2.
From Verif Require Import RArith RSum Fun_basic.
From Coq Require Import Reals Lra.
Open Scope Z_scope.

Ltac hist0 M := match goal with |- context[ring_new M] =>
  let r := fresh "r" in let Er := fresh "Er" in let Hr := fresh "Hr" in
  destruct (ring_new_ok M ltac:(zl)) as (r & Er & Hr); rewrite Er; cbn [bind] end.
Ltac tab_tac I Fs := match goal with
  | |- exists s' outs, ?m = Ok _ /\ run_loops ?n ?sz ?l2 ?s0 = Ok _ /\ Logic.and _ (Forall (fun o => zlen o = Z.max 0 (_ - ?st)) _) =>
     apply (sim_tab I l2 Fs st sz s0 m);
     [|lia|lia| |intros i s Hi HI; unfold dispatch; let h := head l2 in unfold h; cbn [dispatch' Stream.bounded Stream.final]; untuple; cbn [fst snd] in *;
    repeat match goal with H : _ /\ _ |- _ => destruct H end]
  end.

(** sma: the stream multiplies the same sums by 1/period, but forms them in another order. *)
Lemma sma_sim : @sim RA _ _ 1 1 (int_opts 1 (v_period 1 INT_MAX (-1))) always start_p1 ti_sma ti_sma_stream_new sma_loops.
Proof.
  intros options v (ns & ? & ? & ->). lists. ranges. unfold ti_sma_stream_new. cbn [v_period].
  destruct (p <? 1) eqn:Ep.
  { split; [getcast; cbn [bind]; rewrite Ep; reflexivity|]. intros size inputs (? & ? & ?). lists. unfold ti_sma. getcast. cbn [bind]. rewrite Ep. reflexivity. }
  replace (p <=? INT_MAX) with true by lia.
  getcast. cbn [bind]. rewrite Ep. unfold start_p1. getcast. cbn [bind]. rewrite ck_ok by zl. cbn [bind].
  hist0 p. accept_tac.
  tab_tac (fun (i : Z) (b : @T RA * ring) => fst b = zsum (Z.max 0 (i - (p - 1))) i (zr x0) /\ hist (snd b) p (zp x0) i)
    [fun k => mean (window k p x0)].
  - etransitivity; [apply (sma_fun size x0 x p); first [assumption|split; assumption|zl]|]. cbn [map]. apply okl, consl; [apply tab_eq; lia|reflexivity].
  - split; [cbn; rewrite zsum_nil by lia; reflexivity|]. apply hist_of_ok; [exact Hr|]. intros; apply zp_neg; lia.
  - replace (0 - - (p + -1)) with (p - 1) by lia. destruct (i <? p - 1) eqn:Ei.
    + wpr. cbn [fst snd]. replace (p + -1 <=? i) with false by lia. split; [reflexivity|]. split; [|apply hist_step; assumption].
      subst. zpn. replace (Z.max 0 (i + 1 - (p - 1))) with 0 by lia. replace (Z.max 0 (i - (p - 1))) with 0 by lia.
      rewrite zsum_snoc by lia. reflexivity.
    + wpr. cbn [fst snd]. replace (p + -1 <=? i) with true by lia. zpn.
      replace (i - (p + -1)) with (i - p + 1) by lia. replace (i - (p - 1)) with (i - p + 1) in * by lia.
      replace (Z.max 0 (i - p + 1)) with (i - p + 1) in * by lia. replace (Z.max 0 (i + 1 - (p - 1))) with (i - p + 1 + 1) by lia.
      assert (HS : (t + zr x0 i)%R = zsum (i - p + 1) (i + 1) (zr x0)) by (rewrite zsum_snoc by lia; subst t; reflexivity).
      split; [|split; [|apply hist_step; assumption]].
      * cbn [map]. apply consl; [|reflexivity]. apply consl; [|reflexivity]. unfold mean.
        change (@T RA) with R in *. rewrite Rsum_window, zlen_window by lia.
        change ((t + zr x0 i) * (1 / IZR p) = zsum (i - p + 1) (i - p + 1 + p) (zr x0) / IZR p)%R.
        rewrite HS. replace (i - p + 1 + p) with (i + 1) by lia. unfold Rdiv. ring.
      * change (t + zr x0 i - zr x0 (i - p + 1) = zsum (i - p + 1 + 1) (i + 1) (zr x0))%R.
        rewrite HS, zsum_cons by lia. lra.
Qed.
Lemma sma_online {A : Arith} : online 1 sma_loops. Proof. online_tac @sma_loops. Qed.

(** fi: at the first output the batch function computes (x - x) * per + x. *)
Lemma fi_sim : @sim RA _ _ 2 1 (o_one 1) always ti_fi_start ti_fi ti_fi_stream_new fi_loops.
Proof.
  intros options v (x & -> & ->). unfold ti_fi, ti_fi_stream_new.
  destruct (x .< #1) eqn:E1; [reject_tac2|]. accept_tac. cbn [ti_fi_start bind].

  set (ema0 := zf x1 1 .* (zf x0 1 .- zf x0 0)). set (per := #2 ./ (x .+ #1)).
  match goal with |- exists s' outs, ?m = _ /\ _ => assert (Em : m = let* (_, out) := for_ 1 size (fun i '(ema, out) =>
    let* v := rd x1 i in let* c := rd x0 i in let* d := rd x0 (i - 1) in
    let ema := (v .* (c .- d) .- ema) .* per .+ ema in Ok (ema, out ++ [ema])) (ema0, []) in Ok (OKAY, [out])) end.
  { destruct (size <=? 1) eqn:Es; [rewrite for_nil by lia; reflexivity|]. rewrite !rd_zf by zl. reflexivity. }
  rewrite Em. clear Em.
  rewrite (collect2 1 size (fun i ema => let v := (zf x1 i .* (zf x0 i .- zf x0 (i - 1)) .- ema) .* per .+ ema in Ok (v, v))).
  2: lia. 2:{ intros i s o Hi. rewrite !rd_zf by zl. reflexivity. }
  loops_tac (fun (i : Z) (a : @T RA) (b : @T RA * @T RA) => (i > 0 -> snd b = zf x0 (i - 1)) /\ if i <? 2 then a = ema0 else a = fst b).
  - split; [lia|reflexivity].
  - change (0 - Z.opp 1) with 1. change (1 - Z.opp 1) with 2.
    rename H into HA. rename H0 into HB.
    destruct (i <? 1) eqn:Ei; [|destruct (i <? 2) eqn:Ei2].
    + replace (i <? 2) with true in HB by lia. wpr. emit; replace (i + 1 <? 2) with true by lia; auto. f_equal. lia.
    + assert (i = 1) as -> by lia. wpr. cbn [fst snd]. rewrite HA by lia. subst a. change (1 - 1) with 0. fold ema0. change (1 + 1 <? 2) with false. cbn iota.
      assert (HE : (ema0 .- ema0) .* per .+ ema0 = ema0) by (cbn; ring). rewrite HE. emit.
    + wpr. cbn [fst snd]. subst a. rewrite HA by lia. replace (i + 1 <? 2) with false by lia. emit. f_equal. lia.
Qed.
Lemma fi_online {A : Arith} : online 2 fi_loops. Proof. online_tac @fi_loops. Qed.

(** hwma: the stream adds the products from the oldest bar on, including those with the zero
    coefficients of the table. *)
Definition v_hwma (ns : list Z) : verdict := match ns with
  | [n] => if n <? INT_MIN + 7 then Outside else if (7 <=? n) && (n <=? 13) then Accept (n - 1) else Reject
  | _ => Outside end.
Lemma hwma_sim : @sim RA _ _ 1 1 (int_opts 1 v_hwma) always ti_hwma_start ti_hwma ti_hwma_stream_new hwma_loops.
Proof.
  intros options v (ns & ? & ? & ->). lists. ranges. unfold ti_hwma, ti_hwma_stream_new, ti_hwma_start. getcast. cbn [bind v_hwma].
  destruct (p <? INT_MIN + 7) eqn:Em; [exact I|].
  replace ((p <? 7) || (p >? 13)) with (negb ((7 <=? p) && (p <=? 13))) by lia. rewrite !ck_ok by zl. cbn [bind].
  destruct ((7 <=? p) && (p <=? 13)) eqn:Ep; cbn [negb]; [|reject_tac2].
  assert (Hp7 : 7 <= p <= 13) by lia.
  hist0 13. accept_tac.
  assert (Hc : exists c, rd (@hwma_tables RA) (p - 7) = Ok c /\ zlen c = 13 /\
    forall g : Z -> R, trec (fun j s => s .+ zf c (12 - j) .* g j) 0 p (@of_Z RA 0) =
      trec (fun j s => s .+ zf c j .* g (12 - j)) 1 13 (zf c 0 .* g 12)).
  { assert (p = 7 \/ p = 8 \/ p = 9 \/ p = 10 \/ p = 11 \/ p = 12 \/ p = 13) as D by lia.
    destruct D as [D|[D|[D|[D|[D|[D|D]]]]]]; rewrite D; eexists; (split; [reflexivity|]); (split; [reflexivity|]);
    intros g; cbv -[Rplus Rmult IZR Rdiv]; lra. }
  destruct Hc as (c & Ec & Lc & Hc). rewrite Ec. cbn [bind].
  rewrite (collect1 (p - 1) size (fun i => Ok (trec (fun j s => s .+ zf c (12 - j) .* zf x0 (i - j)) 0 p #0))); [|lia|].
  2:{ intros i o Hi. erewrite for_trec; [reflexivity|]. intros j s Hj. rewrite !rd_zf by zl. reflexivity. }
  loops_tac (fun (i : Z) (a : unit) (b : ring) => hist b 13 (zp x0) i).
  - apply hist_of_ok; [exact Hr|]. intros; apply zp_neg; lia.
  - replace (0 - - (p - 1)) with (p - 1) by lia. destruct (i <? p - 1) eqn:Ei.
    + wpr. emit. apply hist_step; assumption.
    + wpr. rewrite Ec. wpr. eapply (wp_for_trec 1 13 _ (fun j s => s .+ zf c j .* zp x0 (i - (12 - j)))).
      * intros j s Hj. erewrite full_get by (eassumption || lia). rewrite rd_zf by lia. reflexivity.
      * wpr. rewrite <- (Hc (fun j => zp x0 (i - j))). cbn [fst snd].
        split; [do 2 f_equal; apply trec_ext; intros; zpn; reflexivity|]. emit. apply hist_step; assumption.
Qed.
Lemma hwma_online {A : Arith} : online 1 hwma_loops. Proof. online_tac @hwma_loops. Qed.

(** Streams of M_stream4: option verdicts, batch/stream simulation. *)
From Verif Require Export M_stream4 C_stream1 C_stream2 C_stream3.

Section P.
Context {A : Arith} {IL : IntLaws A}.

(** edcf *)
Lemma edcf_value_ok n price : 1 <= n -> zlen price = 2 * n -> exists v, edcf_value (2 * n) n price = Ok v.
Proof.
  intros Hn Hp. unfold edcf_value, edcf_coef.
  assert (G : wp (for_ 0 n (fun count coef =>
    let* _ := check OobRead (count <? 2 * n) in
    let* d := for_ 1 n (fun lookback d =>
      let* x := rd price count in
      let* y := rd price (count + lookback) in
      Ok (d .+ (x .- y) .* (x .- y))) #0 in
    Ok (coef ++ [d])) []) (fun coef => zlen coef = n)).
  { apply (wp_for (fun i (coef : list T) => zlen coef = i)); [lia|reflexivity| |auto].
    intros i s Hi Hs. replace (i <? 2 * n) with true by lia. cbn [check bind]. apply wp_bind.
    apply (wp_for (fun _ _ => True)); [lia|exact I| |].
    - intros j d Hj _. wps. exact I.
    - intros d _. apply wp_ret. rewrite zlen_app. unfold zlen at 2. simpl. lia. }
  destruct (for_ 0 n _ []) as [coef|] eqn:E; [|destruct G]. cbn [wp bind] in *.
  assert (G2 : wp (for_ 0 n (fun count '(num, sumcoef) =>
    let* c := rd coef count in
    let* x := rd price count in
    Ok (num .+ c .* x, sumcoef .+ c)) (#0, #0)) (fun _ => True)).
  { apply (wp_for (fun _ _ => True)); [lia|exact I| |auto]. intros i [? ?] Hi _. wps. exact I. }
  match goal with |- context[for_ 0 n ?f ?s] => destruct (for_ 0 n f s) as [[u w]|]; [|destruct G2] end. cbn [bind]. eexists; reflexivity.
Qed.
Lemma zlen_removelast {X} (l : list X) : 0 < zlen l -> zlen (removelast l) = zlen l - 1.
Proof.
  intros H. destruct (@exists_last _ l) as (l' & x & ->); [intros ->; cbv in H; discriminate|].
  rewrite removelast_last, zlen_app. unfold zlen at 3. simpl. lia.
Qed.
Definition v_edcf (n : Z) : verdict := if n <? 1 then Reject else if 2 * n <=? INT_MAX then Accept (2 * n - 1) else Outside.
Lemma edcf_sim : sim 1 1 (o_Z1 v_edcf) always ti_edcf_start ti_edcf ti_edcf_stream_new edcf_loops.
Proof.
  intros options v (n & -> & Hn & ->). unfold ti_edcf, ti_edcf_stream_new, ti_edcf_start, v_edcf.
  rewrite flt_of_Z by zl. destruct (n <? 1) eqn:E1; [reject_tac2|]. destruct (2 * n <=? INT_MAX) eqn:E2; [|exact I].
  rewrite fmul_of_Z by zl. rewrite fsub_of_Z by zl. rewrite !cast_of_Z, ceilto_of_Z by zl. cbn [bind]. accept_tac.
  same_tac (fun (i : Z) (s : list T) => zlen s = Z.min i (2 * n - 1)); [change (zlen (@nil T)) with 0; lia|].
  match goal with |- (?a = ?b) /\ _ => assert (EE : a = b) by (replace (0 - - (2 * n - 1)) with (2 * n - 1) by lia; reflexivity); split; [exact EE|] end.
  clear EE. replace (0 - - (2 * n - 1)) with (2 * n - 1) by lia. destruct (i <? 2 * n - 1) eqn:Ei.
  - wpr. emit. rewrite zlen_cons. lia.
  - wpr1. wpr1. destruct (edcf_value_ok n (zf x i :: s)) as [v Ev]; [lia|rewrite zlen_cons; lia|]. rewrite Ev. wpr. emit.
    rewrite zlen_removelast; rewrite zlen_cons; lia.
Qed.
Lemma edcf_online : online 1 edcf_loops. Proof. online_tac @edcf_loops. Qed.

(** hurst *)
Lemma hurst_value_ok p n sum r : 1 <= n -> rok r n -> exists v, hurst_value p n sum r = Ok v.
Proof.
  intros Hn Hr. unfold hurst_value.
  match goal with |- context [for_ 0 n ?f ?s] => assert (G : wp (for_ 0 n f s) (fun _ => True)) end.
  { apply (wp_for (fun _ _ => True)); [lia|exact I| |auto]. intros i [[[? ?] ?] ?] Hi _. wpr. exact I. }
  match goal with |- context[for_ 0 n ?f ?s] => destruct (for_ 0 n f s) as [[[[? ?] ?] ?]|]; [|destruct G] end. cbn [bind]. eexists; reflexivity.
Qed.
Definition v_hurst (n : Z) : verdict := if n <? 2 then Reject else Accept n.
Lemma hurst_sim : sim 1 2 (o_Z1 v_hurst) always ti_hurst_start ti_hurst ti_hurst_stream_new hurst_loops.
Proof.
  intros options v (n & -> & Hn & ->). unfold ti_hurst, ti_hurst_stream_new, ti_hurst_start, v_hurst.
  rewrite flt_of_Z by zl. destruct (n <? 2) eqn:E1; [reject_tac2|].
  rewrite fopp_of_Z, fadd_of_Z, fsub_of_Z by zl. rewrite !cast_of_Z, !ceilto_of_Z by zl. cbn [bind]. hist0 n. accept_tac.
  loops_tac (fun (i : Z) (a : T * ring) (b : T * ring2 * ring) =>
    let '(sum, price, r) := b in a = (sum, r) /\ rok r n /\ (1 <= i -> ra2 price = zf x (i - 1))).
  - split; [reflexivity|]. split; [eexists; exact Hr|]. lia.
  - match goal with HP : _ = (_, _) |- _ => injection HP; intros; subst end.
    replace (- n + 1 - - n) with 1 by lia. replace (0 - - n) with n by lia. unfold skip.
    destruct (i <? 1) eqn:Ea; [|destruct (i <? n) eqn:Eb].
    + wpr. emit. cbn. f_equal. lia.
    + cbn [ring2_get check bind Z.ltb Z.gtb Z.compare Z.eqb Pos.compare Pos.compare_cont ring2_set ring2_cur ra1 ra2].
      rewrite H3 by lia. wpr. emit; [apply rok_step; assumption|cbn; f_equal; lia].
    + cbn [ring2_get check bind Z.ltb Z.gtb Z.compare Z.eqb Pos.compare Pos.compare_cont ring2_set ring2_cur ra1 ra2].
      rewrite H3 by lia. repeat (lazymatch goal with |- wp (hurst_value _ _ _ _) _ => fail | _ => wpr1 end).
      match goal with |- wp (hurst_value #n n ?s ?r) _ => destruct (hurst_value_ok #n n s r) as [v Ev]; [lia|assumption|]; rewrite Ev end.
      wpr. rewrite Ev. wpr. emit; [apply rok_step; assumption|cbn; f_equal; lia].
Qed.
Lemma hurst_online : online 1 hurst_loops. Proof. online_tac @hurst_loops. Qed.

(** rmi and frama: safety and output count in every arithmetic (the streams agree in exact
    arithmetic only, C_stream4R.v) *)
Definition o_rmi : optspec := fun options v => exists p n, options = [p; #n] /\ INT_MIN <= n <= INT_MAX /\
  v = if (p .< #1) || (n <? 1) then Reject else if n <? INT_MAX then Accept n else Outside.
Lemma rmi_contract : contract 1 1 o_rmi ti_rmi_start ti_rmi.
Proof.
  intros size inputs options v (? & ? & ?) (p & n & -> & Hn & ->). lists. unfold ti_rmi, ti_rmi_start.
  destruct (p .< #1) eqn:E1; cbn [orb]; [reflexivity|]. rewrite flt_of_Z by zl. destruct (n <? 1) eqn:E2; [reflexivity|]. destruct (n <? INT_MAX) eqn:E3; [|exact I].
  rewrite (cast_of_Z n) by zl. rewrite (fadd_of_Z n 1) by zl. rewrite flt_of_Z by zl. cbn [bind]. split; [reflexivity|].
  replace (size <? n + 1) with (size <=? n) by lia.
  match goal with |- exists outs, ?m = _ /\ _ => match m with context[batch_loops 1 size ?l ?s0] =>
    destruct (sim_loops_guard (fun (i : Z) (a b : option T * option T) => a = b /\ (n < i -> exists u v, a = (Some u, Some v))) l l 1 n size s0 s0 m) as (s' & outs & F1 & _ & F2 & F3) end end.
  - guard_eq.
  - lia.
  - lia.
  - split; [reflexivity|lia].
  - intros i a b Hi [-> HR]. unfold dispatch. cbn [dispatch' bounded final]. destruct b as [g0 l0]. unfold skip.
    destruct (i <? n) eqn:Ea; [|destruct (i <? n + 1) eqn:Eb].
    + wpr. emit.
    + wpr. emit. eauto.
    + destruct HR as (g & l & HE); [lia|]. injection HE; intros; subst. wpr. emit. eauto.
  - exists outs. auto.
Qed.
Definition o_frama : optspec := fun options v => exists n ap, options = [#n; ap] /\ INT_MIN <= n <= INT_MAX /\
  v = if (n <? 1) || (ap .< #2) || negb (Z.rem n 2 =? 0) then Reject else Accept 0.
Lemma frama_contract : contract 2 1 o_frama ti_frama_start ti_frama.
Proof.
  intros size inputs options v (? & ? & ?) (n & ap & -> & Hn & ->). lists. unfold ti_frama. cbn [ti_frama_start].
  rewrite flt_of_Z by zl. destruct (n <? 1) eqn:E1; cbn [orb]; [reflexivity|]. destruct (ap .< #2) eqn:E3; [reflexivity|].
  rewrite (cast_of_Z n) by zl. cbn [bind orb]. destruct (negb (Z.rem n 2 =? 0)) eqn:E2; [reflexivity|].
  assert (exists h, n = h * 2) as (h & ->). { exists (Z.quot n 2). pose proof (Z.quot_rem' n 2). lia. }
  rewrite fdiv_of_Z by zl. rewrite !ceilto_of_Z, !cast_of_Z by zl. cbn [bind]. split; [reflexivity|].
  match goal with |- exists outs, ?m = _ /\ _ => match m with context[emits 0 _ ?f1 ?s0] => match m with context[emits (h * 2) _ ?f2 _] =>
    assert (Em : m = if size <=? 0 then Ok (OKAY, repeat [] 1) else batch_loops 1 size {| bounded := [(h * 2, f1)]; final := f2 |} None) end end end.
  { destruct (size <=? 0); [reflexivity|]. unfold batch_loops, run_loops. cbn [phases bounded final repeat].
    replace (Z.max 0 (Z.min (h * 2) size)) with (Z.min (h * 2) size) by lia. destruct (emits 0 _ _ _) as [so|]; cbn [bind]; [|reflexivity].
    destruct (Z.le_gt_cases (h * 2) size) as [L|L].
    - replace (Z.min (h * 2) size) with (h * 2) by lia. destruct (emits _ _ _ _) as [[? ?]|]; reflexivity.
    - replace (Z.min (h * 2) size) with size by lia. unfold emits. rewrite !for_nil by lia. cbn [bind]. destruct so; reflexivity. }
  rewrite Em. clear Em.
  match goal with |- exists outs, ?m = _ /\ _ => match m with context[batch_loops 1 size ?l ?s0] =>
    destruct (sim_loops_guard (fun (i : Z) (a b : option T) => a = b /\ (0 < i -> exists g, a = Some g)) l l 1 0 size s0 s0 m) as (s' & outs & F1 & _ & F2 & F3) end end.
  - guard_eq.
  - lia.
  - lia.
  - split; [reflexivity|lia].
  - intros i a b Hi [-> HR]. unfold dispatch. cbn [dispatch' bounded final].
    destruct (i <? h * 2) eqn:Ea.
    + wpr. emit. eauto.
    + destruct HR as (g & ->); [lia|]. rewrite fsub_of_Z, fadd_of_Z, cast_of_Z by zl. cbn [bind]. rewrite !rd_zf by lia. cbn [bind].
      match goal with |- context[for_ ?lo0 ?hi0 ?ff ?ss] => assert (G : wp (for_ lo0 hi0 ff ss) (fun w => exists a b c d e g, w = ((a, b), (Some c, Some d), (Some e, Some g)))) end.
      { apply (wp_for (fun j (w : frama_win) => let '((_, _), (h1, l1), (h2, l2)) := w in i - h + 1 < j ->
          exists c d e g, h1 = Some c /\ l1 = Some d /\ h2 = Some e /\ l2 = Some g)).
        - lia.
        - lia.
        - intros j [[[hi lo] [h1 l1]] [h2 l2]] Hj HI. unfold frama_scan. rewrite !rd_zf by lia. cbn [bind].
          destruct (j =? i - h + 1) eqn:Ej.
          + replace (j >=? i - h + 1) with true by lia. cbn [bind wp]. intros _. do 4 eexists. auto.
          + destruct (j >=? i - h + 1) eqn:Ek.
            * destruct HI as (c & d & e & g' & -> & -> & -> & ->); [lia|]. cbn [val bind wp]. intros _. do 4 eexists. auto.
            * cbn [bind wp]. lia.
        - intros [[[hi lo] [h1 l1]] [h2 l2]] HI. destruct HI as (c & d & e & g' & -> & -> & -> & ->); [lia|]. do 6 eexists. reflexivity. }
      match goal with |- context[for_ ?a ?b ?f ?s] => destruct (for_ a b f s) as [w|]; [|destruct G] end.
      cbn [wp] in G. destruct G as (a0 & b0 & c0 & d0 & e0 & g0 & ->). cbn [bind val wp fst snd].
      split; [reflexivity|]. replace (0 <=? i) with true by lia. split; [split; [reflexivity|repeat constructor]|]. split; [reflexivity|]. intros _. eexists. reflexivity.
  - exists outs. auto.
Qed.

End P.

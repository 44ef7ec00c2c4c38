(** The QuantConnect classes: what they compute *)
From Coq Require Import ZifyBool Lia.
From Verif Require Import Stream M_lean M_basic Fun_any RSum.
Open Scope Z_scope.

Section L.
Context {A : Arith}.

(** *** one bar after the other *)
Lemma feed_snoc {St} (run : runfn St) nout cs : forall st c st1 o1 st2 o2, feed run nout st cs = Ok (st1, o1) -> feed run nout st (cs ++ [c]) = Ok (st2, o2) ->
  exists o, run st1 (csize c) c = Ok (OKAY, st2, o) /\ o2 = zapp o1 (zapp o (repeat [] nout)).
Proof.
  induction cs as [|d cs IH]; intros st c st1 o1 st2 o2 E1 E2; cbn [feed app] in *.
  - injection E1 as <- <-. destruct (run st (csize c) c) as [[[cd s] o]|]; [|discriminate]. cbn [bind] in E2. destruct cd; try discriminate. injection E2 as <- <-.
    exists o. split; [reflexivity|]. symmetry. apply zapp_nil_l. rewrite zapp_length, repeat_length. lia.
  - destruct (run st (csize d) d) as [[[cd s] o]|]; [|discriminate]. cbn [bind] in *. destruct cd; try discriminate.
    destruct (feed run nout s cs) as [[s1 p1]|] eqn:F1; [|discriminate]. destruct (feed run nout s (cs ++ [c])) as [[s2 p2]|] eqn:F2; [|discriminate]. cbn [bind] in *.
    injection E1 as <- <-. injection E2 as <- <-. destruct (IH _ _ _ _ _ _ F1 F2) as (o' & R & ->). exists o'. split; [exact R|]. apply zapp_assoc.
Qed.
Lemma lean_stream_snoc {St} (run : runfn St) nout bs : forall st b st1 vs st2 v, lean_stream run nout st bs = Ok (st1, vs) -> lean_step run nout st1 b = Ok (st2, v) ->
  lean_stream run nout st (bs ++ [b]) = Ok (st2, vs ++ [v]).
Proof.
  induction bs as [|c bs IH]; intros st b st1 vs st2 v E1 E2; cbn [lean_stream app] in *.
  - injection E1 as <- <-. rewrite E2. reflexivity.
  - destruct (lean_step run nout st c) as [[s w]|]; [|discriminate]. cbn [bind] in *. destruct (lean_stream run nout s bs) as [[s1 ws]|] eqn:F; [|discriminate]. cbn [bind] in E1.
    injection E1 as <- <-. rewrite (IH _ _ _ _ _ _ F E2). reflexivity.
Qed.

(** the first [j] bars of the series *)
Definition bar_at (inputs : list (list T)) (j : Z) : list T := map (fun x => zf x j) inputs.
Definition first_bars (j : Z) (inputs : list (list T)) : list (list T) := map (fun x => firstn (Z.to_nat j) x) inputs.
Definition one_bars (j : Z) (inputs : list (list T)) : list (list (list T)) := tab 0 j (onebar inputs).
Lemma first_snoc (x : list T) j : 0 <= j < zlen x -> firstn (Z.to_nat (j + 1)) x = firstn (Z.to_nat j) x ++ [zf x j].
Proof.
  intros Hj. replace (Z.to_nat (j + 1)) with (S (Z.to_nat j)) by lia. unfold zf, zn.
  assert (H : (Z.to_nat j < length x)%nat) by (unfold zlen in Hj; lia). revert H. generalize (Z.to_nat j) as n. clear. intros n. revert x.
  induction n as [|n IH]; intros [|a x] H; cbn [length] in H; try lia; [reflexivity|]. cbn [firstn app nth]. f_equal. apply IH. lia.
Qed.
Lemma first_bars_snoc inputs j size : Forall (fun x => zlen x = size) inputs -> 0 <= j < size -> zapp (first_bars j inputs) (onebar inputs j) = first_bars (j + 1) inputs.
Proof.
  intros H Hj. induction H as [|x l Hx Hl IH]; [reflexivity|]. unfold first_bars, onebar in *. cbn [map zapp]. rewrite IH, first_snoc by lia. reflexivity.
Qed.
Lemma glue_snoc n cs c : length c = n -> glue n (cs ++ [c]) = zapp (glue n cs) c.
Proof.
  intros Hc. induction cs as [|d cs IH]; cbn [glue app].
  - rewrite zapp_nil_r, zapp_nil_l by lia. reflexivity.
  - rewrite IH. apply zapp_assoc.
Qed.
Lemma glue_one_bars inputs size nin : length inputs = nin -> Forall (fun x => zlen x = size) inputs -> forall j, 0 <= j <= size -> glue nin (one_bars j inputs) = first_bars j inputs.
Proof.
  intros Hn H j Hj. apply (zind (fun j => j <= size -> glue nin (one_bars j inputs) = first_bars j inputs) 0 j); [lia| | |lia].
  - intros _. unfold one_bars. rewrite tab_nil by lia. cbn [glue]. subst nin. clear. unfold first_bars. induction inputs as [|x l IH]; [reflexivity|]. cbn [length repeat map]. rewrite IH. reflexivity.
  - intros m Hm IH Hs. unfold one_bars in *. rewrite tab_snoc by lia. rewrite glue_snoc by (unfold onebar; rewrite map_length; exact Hn). rewrite IH by lia. apply (first_bars_snoc _ _ size H). lia.
Qed.
Lemma first_wf nin size inputs j : wf nin size inputs -> 0 <= j <= size -> wf nin j (first_bars j inputs).
Proof.
  intros (H1 & H2 & H3) Hj. split; [unfold first_bars; rewrite map_length; exact H1|]. split; [|lia].
  unfold first_bars. apply Forall_map. eapply Forall_impl; [|exact H2]. cbn. intros x Hx. unfold zlen in *. rewrite firstn_length. lia.
Qed.
Lemma first_prefix j inputs : Forall2 prefix_of (first_bars j inputs) inputs.
Proof. induction inputs as [|x l IH]; constructor; [exists (skipn (Z.to_nat j) x); symmetry; apply firstn_skipn|exact IH]. Qed.
Lemma csize_first nin size inputs j : (1 <= nin)%nat -> wf nin size inputs -> 0 <= j <= size -> csize (first_bars j inputs) = j.
Proof.
  intros Hn W Hj. pose proof (first_wf _ _ _ _ W Hj) as (L & F & _). destruct (first_bars j inputs) as [|x l]; [cbn in L; lia|]. cbn. apply (Forall_inv F).
Qed.
Lemma one_bars_ok nin inputs j : length inputs = nin -> (1 <= nin)%nat -> Forall (chunk_ok nin) (one_bars j inputs).
Proof.
  intros H Hn. unfold one_bars, tab. apply Forall_map. apply Forall_forall. intros k _. split; [unfold onebar; rewrite map_length; exact H|].
  unfold onebar. destruct inputs as [|x l]; [constructor|]. cbn [map csize]. constructor; [reflexivity|]. apply Forall_map. apply Forall_forall. reflexivity.
Qed.

(** What the streaming class passes to Update: nothing written before bar [start], then the values of the batch call. *)
Definition lean_values (s : Z) (outs : list (list T)) (j : Z) : lean T :=
  Values (map (fun o => if j <? s then None else nth_error o (Z.to_nat (j - s))) outs).
Lemma nth_zapp a b : forall i, (i < length a)%nat -> (i < length b)%nat -> nth i (zapp a b) [] = nth i a [] ++ nth i b [].
Proof. revert b. induction a as [|x a IH]; intros [|y b] i Ha Hb; cbn in Ha, Hb; try lia. destruct i; cbn; [reflexivity|]. apply IH; lia. Qed.

Theorem lean_stream_sound {St} nin nout os f start (new : newfn St) run prog :
  (1 <= nin)%nat ->
  stream_is_batch_if nin nout (accepted os) (fun _ => True) f new run ->
  progress_ok_if nin nout (accepted os) (fun _ => True) start new run prog ->
  causal_on nin (accepted os) (fun _ => True) f ->
  contract_on (fun _ => True) nin nout os start f ->
  forall size inputs options s, wf nin size inputs -> os options (Accept s) ->
  exists outs st st' vs, f size inputs options = Ok (OKAY, outs) /\ length outs = nout /\ Forall (fun o => zlen o = Z.max 0 (size - s)) outs /\
    new options = Ok (OKAY, Some st) /\ lean_stream run nout st (tab 0 size (bar_at inputs)) = Ok (st', vs) /\
    vs = tab 0 size (lean_values s outs) /\ prog st' = size - s.
Proof.
  intros Hn RS RP RC RK size inputs options s W O. assert (D : accepted os options) by (exists s; exact O).
  destruct (RK size inputs options _ W O I) as (Es & outs & Eo & Lo & Zo). destruct W as (W1 & W2 & W3). assert (W : wf nin size inputs) by (split; [exact W1|split; assumption]).
  assert (G : forall j, 0 <= j <= size -> exists outs1 st st', f j (first_bars j inputs) options = Ok (OKAY, outs1) /\ new options = Ok (OKAY, Some st) /\ feed run nout st (one_bars j inputs) = Ok (st', outs1) /\
    Forall2 prefix_of outs1 outs /\ length outs1 = nout /\ Forall (fun o => zlen o = Z.max 0 (j - s)) outs1 /\ prog st' = j - s).
  { intros j Hj. pose proof (one_bars_ok nin inputs j W1 Hn) as CK.
    assert (GL : glue nin (one_bars j inputs) = first_bars j inputs) by (apply (glue_one_bars inputs size); assumption).
    assert (CS : csize (first_bars j inputs) = j) by (apply (csize_first nin size); assumption).
    destruct (RS options (one_bars j inputs) D Hn CK I) as (o1 & st & st' & F1 & N1 & E1); [rewrite GL, CS; lia|]. rewrite GL, CS in F1.
    destruct (RP options (one_bars j inputs) D Hn CK I) as (st2 & sz & st3 & o3 & N2 & S2 & P0 & E2 & P2 & _); [rewrite GL, CS; lia|]. rewrite GL, CS in P2.
    rewrite N1 in N2. injection N2 as <-. rewrite E1 in E2. injection E2 as <- <-. rewrite Es in S2. injection S2 as <-.
    destruct (RC j size (first_bars j inputs) inputs options (first_wf _ _ _ _ W Hj) W (first_prefix j inputs) D I I) as (o4 & o5 & F4 & F5 & PP). rewrite F1 in F4. injection F4 as <-. rewrite Eo in F5. injection F5 as <-.
    destruct (RK j (first_bars j inputs) options _ (first_wf _ _ _ _ W Hj) O I) as (_ & o6 & F6 & L6 & Z6). rewrite F1 in F6. injection F6 as <-.
    exists o1, st, st'. split; [exact F1|split; [exact N1|split; [exact E1|split; [exact PP|split; [exact L6|split; [exact Z6|exact P2]]]]]]. }
  destruct (G 0 ltac:(lia)) as (_ & st & _ & _ & N & _).
  assert (X : forall j, 0 <= j <= size -> exists o1 st', feed run nout st (one_bars j inputs) = Ok (st', o1) /\ lean_stream run nout st (tab 0 j (bar_at inputs)) = Ok (st', tab 0 j (lean_values s outs))).
  { intros j Hj. apply (zind (fun j => j <= size -> exists o1 st', feed run nout st (one_bars j inputs) = Ok (st', o1) /\ lean_stream run nout st (tab 0 j (bar_at inputs)) = Ok (st', tab 0 j (lean_values s outs))) 0 j); [lia| | |lia].
    { intros _. unfold one_bars. rewrite !tab_nil by lia. cbn. eauto. }
    intros m Hm IH Hs. destruct (IH ltac:(lia)) as (o1 & st1 & F1 & L1). destruct (G m ltac:(lia)) as (oa & sta & sta' & _ & Na & Fa & Pa & La & Za & _). destruct (G (m + 1) ltac:(lia)) as (ob & stb & stb' & _ & Nb & Fb & Pb & Lb & Zb & _).
    rewrite N in Na, Nb. injection Na as <-. injection Nb as <-. rewrite F1 in Fa. injection Fa as <- <-.
    pose proof Fb as Fb'. unfold one_bars in Fb'. rewrite tab_snoc in Fb' by lia. destruct (feed_snoc run nout _ _ _ _ _ _ _ F1 Fb') as (o & R & Eb). exists ob, stb'. split; [exact Fb|].
    rewrite !(tab_snoc 0 m) by lia. eapply lean_stream_snoc; [exact L1|]. unfold lean_step. unfold bar_at. rewrite map_map.
    assert (Cs : csize (onebar inputs (0 + m)) = 1) by (destruct inputs; [cbn in W1; lia|reflexivity]).
    rewrite ?Z.add_0_l in *. rewrite Cs in R. unfold onebar in R. rewrite R. cbn [bind]. do 3 f_equal.
    assert (Lbo : (nout <= length o)%nat). { rewrite Eb, !zapp_length, repeat_length in Lb. lia. }
    unfold lean_values. f_equal. apply (nth_ext _ _ None None); [rewrite !map_length, seq_length; symmetry; exact Lo|]. rewrite map_length, seq_length. intros i Hi.
    rewrite (nth_indep _ None ((fun i => nth_error (nth i o []) 0) 0%nat)) by (rewrite map_length, seq_length; exact Hi). rewrite (map_nth (fun i => nth_error (nth i o []) 0)), seq_nth by exact Hi. rewrite Nat.add_0_l.
    rewrite (nth_indep _ None ((fun o => if m <? s then None else nth_error o (Z.to_nat (m - s))) [])) by (rewrite map_length, Lo; exact Hi). rewrite (map_nth (fun o => if m <? s then None else nth_error o (Z.to_nat (m - s)))).
    assert (E1 : nth i ob [] = nth i o1 [] ++ nth i o []).
    { rewrite Eb. rewrite nth_zapp; [|lia|rewrite zapp_length, repeat_length; lia]. rewrite nth_zapp; [|lia|rewrite repeat_length; lia]. rewrite nth_repeat, app_nil_r. reflexivity. }
    assert (Z1 : zlen (nth i o1 []) = Z.max 0 (m - s)) by (apply (proj1 (Forall_nth _ _) Za); lia).
    assert (Z2 : zlen (nth i ob []) = Z.max 0 (m + 1 - s)) by (apply (proj1 (Forall_nth _ _) Zb); lia).
    assert (PB : prefix_of (nth i ob []) (nth i outs [])). { clear - Pb Hi Lb. revert i Hi. rewrite <- Lb. clear Lb. induction Pb as [|a b la lb Hab _ IH]; intros i Hi; cbn [length] in Hi; [lia|]. destruct i; [exact Hab|]. apply IH. lia. }
    rewrite E1, zlen_app in Z2. destruct (m <? s) eqn:Ms.
    - destruct (nth i o []) as [|a l]; [reflexivity|]. rewrite Z1 in Z2. unfold zlen in Z2. cbn [length] in Z2. lia.
    - destruct (nth i o []) as [|a l] eqn:Ei; [rewrite Z1 in Z2; unfold zlen in Z2; cbn [length] in Z2; lia|]. destruct PB as [t Et]. rewrite Et, E1. rewrite <- app_assoc. rewrite nth_error_app2 by (unfold zlen in Z1; lia).
      replace (Z.to_nat (m - s) - length (nth i o1 []))%nat with 0%nat by (unfold zlen in Z1; lia). reflexivity. }
  destruct (X size ltac:(lia)) as (o1 & st' & F1 & L1). destruct (G size ltac:(lia)) as (o2 & st2 & st2' & _ & N2 & F2 & _ & _ & _ & P2).
  rewrite N in N2. injection N2 as <-. rewrite F1 in F2. injection F2 as <- <-.
  exists outs, st, st', (tab 0 size (lean_values s outs)). split; [exact Eo|split; [exact Lo|split; [exact Zo|split; [exact N|split; [exact L1|split; [reflexivity|exact P2]]]]]].
Qed.

(** *** the window classes *)
Lemma upd_app (t : list T) a v rest : upd_nat (t ++ a :: rest) (length t) v = t ++ v :: rest.
Proof. induction t as [|b t IH]; [reflexivity|]. cbn. f_equal. exact IH. Qed.
Lemma skipn_cons (w : list T) k : 0 <= k < zlen w -> skipn (Z.to_nat k) w = zf w k :: skipn (Z.to_nat (k + 1)) w.
Proof.
  intros H. replace (Z.to_nat (k + 1)) with (S (Z.to_nat k)) by lia. unfold zf, zn. assert (L : (Z.to_nat k < length w)%nat) by (unfold zlen in H; lia). revert L. generalize (Z.to_nat k) as n. clear. intros n. revert w.
  induction n as [|n IH]; intros [|a w] L; cbn [length] in L; try lia; [reflexivity|]. cbn [skipn nth]. apply IH. lia.
Qed.
Lemma zf_rev (w : list T) i : 0 <= i < zlen w -> zf (rev w) i = zf w (zlen w - 1 - i).
Proof. intros H. unfold zf, zn, zlen in *. rewrite rev_nth by lia. f_equal. lia. Qed.
Lemma fill_ok count (tmp w : list T) : zlen tmp = count -> zlen w = count -> lean_fill count tmp (rev w) = Ok w.
Proof.
  intros Ht Hw. assert (Hc : 0 <= count) by (unfold zlen in Hw; lia). unfold lean_fill.
  assert (X : exists t, for_ 0 count (fun i tmp => let* v := rd (rev w) i in upd tmp (count - i - 1) v) tmp = Ok (t ++ skipn (Z.to_nat (count - count)) w) /\ zlen t = count - count).
  { apply (zind (fun j => exists t, for_ 0 j (fun i tmp => let* v := rd (rev w) i in upd tmp (count - i - 1) v) tmp = Ok (t ++ skipn (Z.to_nat (count - j)) w) /\ zlen t = count - j) 0 count); [lia| |].
    - exists tmp. rewrite for_nil by lia. rewrite Z.sub_0_r. split; [|exact Ht]. rewrite skipn_all2 by (unfold zlen in Hw; lia). rewrite app_nil_r. reflexivity.
    - intros m Hm (t & E & Zt). rewrite for_snoc by lia. rewrite E. cbn [bind]. assert (Zr : zlen (rev w) = count) by (unfold zlen; rewrite rev_length; exact Hw). rewrite rd_zf by lia. cbn [bind].
      destruct (exists_last (l := t)) as (t' & a & ->); [intros ->; unfold zlen in Zt; cbn in Zt; lia|]. rewrite zlen_app in Zt. cbn in Zt. rewrite zf_rev by lia.
      exists t'. split; [|lia]. rewrite <- app_assoc. cbn [app]. rewrite upd_ok by (unfold zlen in *; rewrite app_length; cbn [length]; lia). replace (Z.to_nat (count - m - 1)) with (length t') by (unfold zlen in Zt; lia). rewrite upd_app.
      do 2 f_equal. rewrite (skipn_cons w (count - (m + 1))) by lia. f_equal; [f_equal; lia|]. do 2 f_equal. lia. }
  destruct X as (t & E & Zt). rewrite E. destruct t; [|unfold zlen in Zt; cbn [length] in Zt; lia]. rewrite Z.sub_diag. reflexivity.
Qed.
Lemma fills_ok count (ws : list (list T)) w : Forall (fun v => zlen v = count) (ws ++ [w]) -> forall tmp, zlen tmp = count -> lean_fills count tmp (map (@rev T) (ws ++ [w])) = Ok w.
Proof.
  induction ws as [|v ws IH]; intros H tmp Ht; cbn [map app lean_fills] in *.
  - rewrite fill_ok; [reflexivity|exact Ht|exact (Forall_inv H)].
  - rewrite fill_ok; [|exact Ht|exact (Forall_inv H)]. cbn [bind]. apply IH; [exact (Forall_inv_tail H)|exact (Forall_inv H)].
Qed.
Lemma lean_default_eq start f nout ws options nin size inputs n s : wf nin size inputs -> (1 <= nin)%nat -> 1 <= n <= size -> start options = Ok s -> 0 <= s < INT_MAX ->
  lean_default start f nout ws options inputs n =
  let count := Z.min n (Z.max ws (s + 1)) in
  if count <=? s then Ok NotReady else
  let* (ret, outs) := f count (repeat (window (n - count) count (last inputs [])) nin) options in
  match ret with
  | OKAY => Ok (Values (map (fun i => nth_error (nth i outs []) (Z.to_nat (count - s - 1))) (seq 0 nout)))
  | _ => Ok Throw
  end.
Proof.
  intros (W1 & W2 & W3) Hn Hj Es Hs. unfold lean_default. rewrite Es. cbn [bind]. unfold ck. replace ((INT_MIN <=? s + 1) && (s + 1 <=? INT_MAX)) with true by (unfold INT_MIN; lia). cbn [bind]. cbv zeta.
  set (count := Z.min n (Z.max ws (s + 1))). assert (Hc : 1 <= count <= n) by lia. replace (Z.max ws (s + 1) <? 1) with false by lia.
  replace (negb (count >? s)) with (count <=? s) by lia. destruct (count <=? s) eqn:E; [reflexivity|].
  destruct (exists_last (l := inputs)) as (l & w & ->); [intros ->; cbn in W1; lia|]. rewrite last_last.
  assert (EM : map (fun x => rev (window (n - count) count x)) (l ++ [w]) = map (@rev T) (map (fun x => window (n - count) count x) l ++ [window (n - count) count w])) by (rewrite !map_app, map_map; reflexivity). rewrite EM.
  rewrite fills_ok; [|change [window (n - count) count w] with (map (fun x => window (n - count) count x) [w]); rewrite <- map_app; apply Forall_map; eapply Forall_impl; [|exact W2]; cbn; intros x Hx; apply zlen_window; lia|unfold zlen; rewrite repeat_length; lia].
  cbn [bind]. replace (map (fun _ : list T => window (n - count) count w) (l ++ [w])) with (repeat (window (n - count) count w) nin); [reflexivity|].
  rewrite <- W1. clear. induction (l ++ [w]) as [|x m IH]; [reflexivity|]. cbn [length repeat map]. rewrite IH. reflexivity.
Qed.
End L.

(** A NaN or an infinity in the data is never forgotten by running sums and recursive averages. *)
From Verif Require Import F64Laws M_basic M_osc Spec Tactics.
From Coq Require Import Floats.SpecFloat ZifyBool.
From Verif Require Import F64Range Fun_64 Fun_64d.
Open Scope Z_scope.

(** NaN or an infinity *)
Definition nonfin (v : spec_float) : Prop := match v with S754_nan | S754_infinity _ => True | _ => False end.

Section F.
Variable lm : libm1 -> spec_float -> spec_float.
Variable pw : spec_float -> spec_float -> spec_float.
Notation F := (F64 lm pw).
#[local] Existing Instance F64_laws.

Lemma nf_addl a b : nonfin a -> nonfin (@fadd F a b). Proof. destruct a as [| [] | |], b as [| [] | |]; cbn; tauto. Qed.
Lemma nf_addr a b : nonfin b -> nonfin (@fadd F a b). Proof. destruct a as [| [] | |], b as [| [] | |]; cbn; tauto. Qed.
Lemma nf_subl a b : nonfin a -> nonfin (@fsub F a b). Proof. destruct a as [| [] | |], b as [| [] | |]; cbn; tauto. Qed.
Lemma nf_subr a b : nonfin b -> nonfin (@fsub F a b). Proof. destruct a as [| [] | |], b as [| [] | |]; cbn; tauto. Qed.
Lemma nf_mull a b : nonfin a -> nonfin (@fmul F a b). Proof. destruct a as [| [] | |], b as [| [] | |]; cbn; tauto. Qed.
Lemma nf_mulr a b : nonfin b -> nonfin (@fmul F a b). Proof. destruct a as [| [] | |], b as [| [] | |]; cbn; tauto. Qed.
Lemma nf_divl a b : nonfin a -> nonfin (@fdiv F a b). Proof. destruct a as [| [] | |], b as [| [] | |]; cbn; tauto. Qed.
Lemma nf_sqrt a : nonfin a -> nonfin (@fsqrt F a). Proof. destruct a as [| [] | |]; cbn; tauto. Qed.
Lemma nf_abs a : nonfin a -> nonfin (@fabs F a). Proof. destruct a as [| [] | |]; cbn; tauto. Qed.
Lemma nf_if (b : bool) a c : nonfin a -> nonfin c -> nonfin (if b then a else c). Proof. destruct b; auto. Qed.
Lemma nf_truth a c d : nonfin a -> nonfin c -> nonfin (if @truth F a then c else d). Proof. intros Ha Hc. destruct a as [| [] | |]; cbn in *; tauto. Qed.
Hint Resolve nf_addl nf_addr nf_subl nf_subr nf_mull nf_mulr nf_divl nf_sqrt nf_abs nf_if : nf.

Lemma pp_rdv (l : list spec_float) i : pp (rd l i) (fun a => a = @zf F l i /\ 0 <= i < zlen l).
Proof.
  intros v E. unfold rd in E. destruct ((0 <=? i) && (i <? zlen l)) eqn:B; [|discriminate].
  destruct (nth_error l (Z.to_nat i)) as [w|] eqn:N; [|discriminate]. injection E as <-. split; [|lia]. unfold zf, zn. symmetry. apply nth_error_nth. exact N.
Qed.
(** values written for the bars c .. i-1, bad from bar k on *)
Definition poison (c k i : Z) (out : list spec_float) : Prop :=
  zlen out = i - c /\ forall j, k <= j < i -> c <= j -> nonfin (@zf F out (j - c)).
Lemma poison_nil c k : poison c k c []. Proof. split; [cbn; lia|]. intros. lia. Qed.
Lemma zf_snoc (out : list spec_float) v j : 0 <= j <= zlen out -> @zf F (out ++ [v]) j = if j =? zlen out then v else @zf F out j.
Proof.
  intros Hj. unfold zf, zn. destruct (j =? zlen out) eqn:E.
  - rewrite app_nth2 by (unfold zlen in *; lia). replace (Z.to_nat j - length out)%nat with 0%nat by (unfold zlen in *; lia). reflexivity.
  - rewrite app_nth1 by (unfold zlen in *; lia). reflexivity.
Qed.
Lemma poison_snoc c k i out v : c <= i -> poison c k i out -> (k <= i -> nonfin v) -> poison c k (i + 1) (out ++ [v]).
Proof.
  intros Hc [Z P] H. split; [rewrite zlen_app; cbn; lia|]. intros j Hj Hcj. rewrite zf_snoc by lia. destruct (j - c =? zlen out) eqn:E; [apply H; lia|apply P; lia].
Qed.
Lemma poison_one c k v : (k <= c -> nonfin v) -> poison c k (c + 1) [v].
Proof. intros H. apply (poison_snoc c k c []); [lia|apply poison_nil|exact H]. Qed.

Ltac prd := eapply pp_bind; [apply pp_rdv|let H := fresh in intros ? [-> H]].
Ltac chk := eapply pp_bind; [apply pp_any|intros ? _].
(** the state after bar i is bad if it was bad before or bar i is *)
Ltac nfs := match goal with X : nonfin (@zf F _ ?k) |- ?k < ?i + 1 -> _ => let K := fresh "K" in intros K; assert (k < i \/ i = k) as [K'|K'] by lia; [repeat match goal with H : k < i -> _ |- _ => specialize (H K') end|rewrite ?K' in *]; clear K K'; auto 12 with nf
  | X : nonfin (@zf F _ ?k) |- ?k <= ?i -> _ => let K := fresh "K" in intros K; assert (k < i \/ i = k) as [K'|K'] by lia; [repeat match goal with H : k < i -> _ |- _ => specialize (H K') end|rewrite ?K' in *]; clear K K'; auto 12 with nf end.

(** If bar [k] of the series is bad then every output for bar [k] and for every later bar is; the outputs begin at bar [start]. *)
Definition keeps (start : @startfn F) (f : @batchfn F) : Prop := forall size x options s k outs,
  zlen x = size -> start options = Ok s -> 0 <= k < size -> nonfin (@zf F x k) -> f size [x] options = Ok (OKAY, outs) ->
  Forall (fun out => forall j, k <= j < size -> s <= j -> nonfin (@zf F out (j - s))) outs.
(** [keeps] from a triple *)
Lemma keeps_pp start f :
  (forall size x options s k, zlen x = size -> start options = Ok s -> 0 <= k < size -> nonfin (@zf F x k) ->
     pp (f size [x] options) (fun r => fst r = OKAY -> Forall (fun out => forall j, k <= j < size -> s <= j -> nonfin (@zf F out (j - s))) (snd r))) -> keeps start f.
Proof. intros H size x options s k outs Hx Hs Hk Hn E. exact (H size x options s k Hx Hs Hk Hn _ E eq_refl). Qed.
Lemma nil_bad size s k : size <= s -> Forall (fun out => forall j, k <= j < size -> s <= j -> nonfin (@zf F out (j - s))) [[]].
Proof. intros H. repeat constructor. intros. lia. Qed.
Lemma poison_bad s k size out : poison s k size out -> forall j, k <= j < size -> s <= j -> nonfin (@zf F out (j - s)).
Proof. intros [_ P]. exact P. Qed.

Ltac enter f := apply keeps_pp; intros size x options s k Hx Hs Hk Hn; destruct options as [|o []]; [apply pp_ub| |apply pp_ub];
  unfold f; cbv zeta; unfold start_p1 in Hs; destruct (@cast F o) as [p|] eqn:Ep; [|discriminate]; cbn [bind] in *; destruct (p <? 1) eqn:P1; [apply pp_ok; discriminate|];
  unfold start_p1; rewrite Ep; cbn [bind]; rewrite Hs; cbn [bind];
  assert (s = p - 1) as -> by (unfold ck in Hs; destruct (_ && _); [injection Hs as <-; reflexivity|discriminate]);
  destruct (size <=? p - 1) eqn:P2; [apply pp_ok; intros _; apply nil_bad; lia|].
Ltac fin1 P := cbn [fst snd] in *; chk; apply pp_ok; intros _; repeat constructor; apply poison_bad;
  match type of P with poison _ _ ?m _ => match goal with |- poison _ _ ?n _ => replace n with m by lia; exact P end end.
Ltac one := match goal with |- poison (?p - 1) ?k ?p _ => replace p with (p - 1 + 1) at 2 by lia; apply poison_one; intros end.

Lemma sum_keeps : keeps (@start_p1 F) (@ti_sum F).
Proof.
  enter @ti_sum. eapply pp_bind; [apply (pp_fori (fun i sum => k < i -> nonfin sum)); [lia|]|].
  { intros i sum Hi I. prd. apply pp_ok. nfs. }
  intros sum I. replace (Z.max 0 p) with p in I by lia.
  eapply pp_bind; [apply (pp_fori (fun i s => (k < i -> nonfin (fst s)) /\ poison (p - 1) k i (snd s)))|].
  { split; [exact I|]. one. apply I. lia. }
  { intros i [sum' out] Hi [J P]. cbn [fst snd] in *. prd. prd. apply pp_ok. cbn [fst snd]. split; [nfs|]. apply poison_snoc; [lia|exact P|]. nfs. }
  intros [sum' out] [_ P]. fin1 P.
Qed.
Lemma sma_keeps : keeps (@start_p1 F) (@ti_sma F).
Proof.
  enter @ti_sma. eapply pp_bind; [apply (pp_fori (fun i sum => k < i -> nonfin sum)); [lia|]|].
  { intros i sum Hi I. prd. apply pp_ok. nfs. }
  intros sum I. replace (Z.max 0 p) with p in I by lia.
  eapply pp_bind; [apply (pp_fori (fun i s => (k < i -> nonfin (fst s)) /\ poison (p - 1) k i (snd s)))|].
  { split; [exact I|]. one. apply nf_mull, I. lia. }
  { intros i [sum' out] Hi [J P]. cbn [fst snd] in *. prd. prd. apply pp_ok. cbn [fst snd]. split; [nfs|]. apply poison_snoc; [lia|exact P|]. nfs. }
  intros [sum' out] [_ P]. fin1 P.
Qed.
Lemma wilders_keeps : keeps (@start_p1 F) (@ti_wilders F).
Proof.
  enter @ti_wilders. eapply pp_bind; [apply (pp_fori (fun i sum => k < i -> nonfin sum)); [lia|]|].
  { intros i sum Hi I. prd. apply pp_ok. nfs. }
  intros sum I. replace (Z.max 0 p) with p in I by lia.
  eapply pp_bind; [apply (pp_fori (fun i s => (k < i -> nonfin (fst s)) /\ poison (p - 1) k i (snd s)))|].
  { split; [intros; apply nf_divl, I; lia|]. one. apply nf_divl, I. lia. }
  { intros i [sum' out] Hi [J P]. cbn [fst snd] in *. prd. apply pp_ok. cbn [fst snd]. split; [nfs|]. apply poison_snoc; [lia|exact P|]. nfs. }
  intros [sum' out] [_ P]. fin1 P.
Qed.
Lemma wma_keeps : keeps (@start_p1 F) (@ti_wma F).
Proof.
  enter @ti_wma. chk. chk. eapply pp_bind; [apply (pp_fori (fun i s => k < i -> nonfin (fst s) /\ nonfin (snd s))); [lia|]|].
  { intros i [a b] Hi I. cbn [fst snd] in *. prd. apply pp_ok. cbn [fst snd]. nfs. destruct I as [I1 I2]. auto with nf. }
  intros [a b] I. cbn [fst snd] in I. replace (Z.max 0 (p - 1)) with (p - 1) in I by lia.
  eapply pp_bind; [apply (pp_fori (fun i s => (k < i -> nonfin (fst (fst s)) /\ nonfin (snd (fst s))) /\ poison (p - 1) k i (snd s)))|].
  { split; [exact I|apply poison_nil]. }
  { intros i [[u v] out] Hi [J P]. cbn [fst snd] in *. prd. prd. apply pp_ok. cbn [fst snd]. split; [|apply poison_snoc; [lia|exact P|]]; nfs; destruct J; auto 12 with nf. }
  intros [[u v] out] [_ P]. fin1 P.
Qed.
Lemma var_keeps : keeps (@start_p1 F) (@ti_var F).
Proof.
  enter @ti_var. eapply pp_bind; [apply (pp_fori (fun i s => k < i -> nonfin (fst s) /\ nonfin (snd s))); [lia|]|].
  { intros i [a b] Hi I. cbn [fst snd] in *. prd. apply pp_ok. cbn [fst snd]. nfs. destruct I as [I1 I2]. auto with nf. }
  intros [a b] I. cbn [fst snd] in I. replace (Z.max 0 p) with p in I by lia.
  eapply pp_bind; [apply (pp_fori (fun i s => (k < i -> nonfin (fst (fst s)) /\ nonfin (snd (fst s))) /\ poison (p - 1) k i (snd s)))|].
  { split; [exact I|]. one. destruct I; [lia|]. auto with nf. }
  { intros i [[u v] out] Hi [J P]. cbn [fst snd] in *. prd. prd. apply pp_ok. cbn [fst snd]. split; [|apply poison_snoc; [lia|exact P|]]; nfs; destruct J; auto 12 with nf. }
  intros [[u v] out] [_ P]. fin1 P.
Qed.
Lemma stddev_keeps : keeps (@start_p1 F) (@ti_stddev F).
Proof.
  enter @ti_stddev. eapply pp_bind; [apply (pp_fori (fun i s => k < i -> nonfin (fst s) /\ nonfin (snd s))); [lia|]|].
  { intros i [a b] Hi I. cbn [fst snd] in *. prd. apply pp_ok. cbn [fst snd]. nfs. destruct I as [I1 I2]. auto with nf. }
  intros [a b] I. cbn [fst snd] in I. replace (Z.max 0 p) with p in I by lia.
  eapply pp_bind; [apply (pp_fori (fun i s => (k < i -> nonfin (fst (fst s)) /\ nonfin (snd (fst s))) /\ poison (p - 1) k i (snd s)))|].
  { split; [exact I|]. one. destruct I; [lia|]. auto 12 with nf. }
  { intros i [[u v] out] Hi [J P]. cbn [fst snd] in *. prd. prd. apply pp_ok. cbn [fst snd]. split; [|apply poison_snoc; [lia|exact P|]]; nfs; destruct J; auto 12 with nf. }
  intros [[u v] out] [_ P]. fin1 P.
Qed.
Lemma stderr_keeps : keeps (@start_p1 F) (@ti_stderr F).
Proof.
  enter @ti_stderr. eapply pp_bind; [apply (pp_fori (fun i s => k < i -> nonfin (fst s) /\ nonfin (snd s))); [lia|]|].
  { intros i [a b] Hi I. cbn [fst snd] in *. prd. apply pp_ok. cbn [fst snd]. nfs. destruct I as [I1 I2]. auto with nf. }
  intros [a b] I. cbn [fst snd] in I. replace (Z.max 0 p) with p in I by lia.
  eapply pp_bind; [apply (pp_fori (fun i s => (k < i -> nonfin (fst (fst s)) /\ nonfin (snd (fst s))) /\ poison (p - 1) k i (snd s)))|].
  { split; [exact I|]. one. destruct I; [lia|]. auto 12 with nf. }
  { intros i [[u v] out] Hi [J P]. cbn [fst snd] in *. prd. prd. apply pp_ok. cbn [fst snd]. split; [|apply poison_snoc; [lia|exact P|]]; nfs; destruct J; auto 12 with nf. }
  intros [[u v] out] [_ P]. fin1 P.
Qed.
Lemma md_keeps : keeps (@start_p1 F) (@ti_md F).
Proof.
  enter @ti_md.
  eapply pp_bind; [apply (pp_fori (fun i s => (k < i -> nonfin (fst s)) /\ (i <= p - 1 -> snd s = []) /\ (p - 1 <= i -> poison (p - 1) k i (snd s))))|].
  { split; [lia|]. split; [reflexivity|]. intros. cbn [snd]. replace 0 with (p - 1) by lia. apply poison_nil. }
  { intros i [u out] Hi (J & N & P). cbn [fst snd] in *. prd.
    eapply (pp_bind _ _ (fun w => k < i + 1 -> nonfin w)).
    { destruct (i >=? p); [prd; apply pp_ok; nfs|apply pp_ok; nfs]. }
    intros w W. destruct (i >=? p - 1) eqn:E.
    - eapply (pp_bind _ _ (fun a => k <= i -> nonfin a)).
      { eapply pp_mono; [apply (pp_fori (fun j a => 0 < j -> k <= i -> nonfin a)); [lia|]|intros a Ha; apply Ha; lia].
        intros j a Hj Ha. prd. apply pp_ok. intros _ Hki. apply nf_addr, nf_abs, nf_subl, nf_mull, W. lia. }
      intros a Ha. apply pp_ok. cbn [fst snd]. split; [exact W|]. split; [lia|]. intros _. apply poison_snoc; [lia|apply P; lia|]. intros. apply nf_mull, Ha. assumption.
    - apply pp_ok. cbn [fst snd]. split; [exact W|]. split; [intros; apply N; lia|]. intros. rewrite N by lia. replace (i + 1) with (p - 1) by lia. apply poison_nil. }
  intros [u out] (_ & _ & P). cbn [fst snd] in P. specialize (P ltac:(lia)). fin1 P.
Qed.
Lemma ema_keeps : keeps (@start0 F) (@ti_ema F).
Proof.
  apply keeps_pp. intros size x options s k Hx Hs Hk Hn. destruct options as [|o []]; [apply pp_ub| |apply pp_ub].
  unfold ti_ema. cbv zeta. chk. destruct (_ <? 1); [apply pp_ok; discriminate|]. rewrite Hs. cbn [bind].
  unfold start0 in Hs. injection Hs as <-. destruct (size <=? 0) eqn:P2; [apply pp_ok; intros _; apply nil_bad; lia|].
  prd. eapply pp_bind; [apply (pp_fori (fun i s => (k < i -> nonfin (fst s)) /\ poison 0 k i (snd s)))|].
  { cbn [fst snd]. split; [intros; replace 0 with k by lia; exact Hn|]. apply (poison_one 0). intros. replace 0 with k by lia. exact Hn. }
  { intros i [v out] Hi [J P]. cbn [fst snd] in *. prd. apply pp_ok. cbn [fst snd]. split; [nfs|]. apply poison_snoc; [lia|exact P|]. nfs. }
  intros [v out] [_ P]. fin1 P.
Qed.
Lemma nil_bad3 size s k : size <= s -> Forall (fun out => forall j, k <= j < size -> s <= j -> nonfin (@zf F out (j - s))) [[]; []; []].
Proof. intros H. repeat constructor; intros; lia. Qed.
Lemma bbands_keeps : keeps (@ti_bbands_start F) (@ti_bbands F).
Proof.
  apply keeps_pp. intros size x options s k Hx Hs Hk Hn. destruct options as [|o [|d []]]; [apply pp_ub|apply pp_ub| |apply pp_ub].
  unfold ti_bbands. cbv zeta. unfold ti_bbands_start in Hs. destruct (@cast F o) as [p|] eqn:Ep; [|discriminate]. cbn [bind] in *. destruct (p <? 1) eqn:P1; [apply pp_ok; discriminate|].
  unfold ti_bbands_start. rewrite Ep. cbn [bind]. rewrite Hs. cbn [bind]. assert (s = p - 1) as -> by (unfold ck in Hs; destruct (_ && _); [injection Hs as <-; reflexivity|discriminate]).
  destruct (size <=? p - 1) eqn:P2; [apply pp_ok; intros _; apply nil_bad3; lia|].
  eapply pp_bind; [apply (pp_fori (fun i s => k < i -> nonfin (fst s) /\ nonfin (snd s))); [lia|]|].
  { intros i [a b] Hi I. cbn [fst snd] in *. prd. apply pp_ok. cbn [fst snd]. nfs. destruct I as [I1 I2]. auto with nf. }
  intros [a b] I. cbn [fst snd] in I. replace (Z.max 0 p) with p in I by lia.
  eapply pp_bind; [apply (pp_fori (fun i s => let '(u, v, lo, mi, up) := s in (k < i -> nonfin u /\ nonfin v) /\ poison (p - 1) k i lo /\ poison (p - 1) k i mi /\ poison (p - 1) k i up))|].
  { split; [exact I|]. split; [|split]; one; (destruct I; [lia|]); auto 12 with nf. }
  { intros i [[[[u v] lo] mi] up] Hi (J & Pl & Pm & Pu). prd. prd. apply pp_ok. split; [nfs; destruct J; auto 12 with nf|].
    split; [|split]; (apply poison_snoc; [lia|assumption|]); nfs; destruct J; auto 12 with nf. }
  intros [[[[u v] lo] mi] up] (_ & Pl & Pm & Pu). replace (Z.max p size) with size in * by lia. chk. chk. chk. apply pp_ok. intros _. cbn [snd].
  repeat apply Forall_cons; try apply Forall_nil; apply poison_bad; assumption.
Qed.
Lemma apo_keeps : keeps (@start1 F) (@ti_apo F).
Proof.
  apply keeps_pp. intros size x options s k Hx Hs Hk Hn. destruct options as [|o [|d []]]; [apply pp_ub|apply pp_ub| |apply pp_ub].
  unfold ti_apo. cbv zeta. chk. chk. do 3 (destruct (_ <? _); [apply pp_ok; discriminate|]). rewrite Hs. cbn [bind]. unfold start1 in Hs. injection Hs as <-.
  destruct (size <=? 1) eqn:P2; [apply pp_ok; intros _; apply nil_bad; lia|].
  prd. eapply pp_bind; [apply (pp_fori (fun i s => let '(a, b, out) := s in (k < i -> nonfin a) /\ (k < i -> nonfin b) /\ poison 1 k i out))|].
  { split; [|split; [|apply poison_nil]]; intros; replace 0 with k by lia; exact Hn. }
  { intros i [[a b] out] Hi (Ja & Jb & P). prd. apply pp_ok. split; [nfs|split; [nfs|]]. apply poison_snoc; [lia|exact P|]. nfs. }
  intros [[a b] out] (_ & _ & P). fin1 P.
Qed.
Lemma macd_keeps : keeps (@ti_macd_start F) (@ti_macd F).
Proof.
  apply keeps_pp. intros size x options s k Hx Hs Hk Hn. destruct options as [|o [|d [|e []]]]; [apply pp_ub|apply pp_ub|apply pp_ub| |apply pp_ub].
  unfold ti_macd. cbv zeta. chk. unfold ti_macd_start in Hs. destruct (@cast F d) as [p|] eqn:Ep; [|discriminate]. cbn [bind] in *. chk.
  do 4 (match goal with |- pp (if ?b then _ else _) _ => destruct b eqn:?; [apply pp_ok; discriminate|] end).
  unfold ti_macd_start. rewrite Ep. cbn [bind]. rewrite Hs. cbn [bind]. assert (s = p - 1) as -> by (unfold ck in Hs; destruct (_ && _); [injection Hs as <-; reflexivity|discriminate]).
  destruct (size <=? p - 1) eqn:P2; [apply pp_ok; intros _; apply nil_bad3; lia|].
  prd. match goal with |- context[for_ 1 size ?f ?s0] => set (f0 := f) end.
  eapply pp_bind; [apply (pp_fori (fun i s => let '(a, b, c, m, g, h) := s in (k < i -> nonfin a) /\ (k < i -> nonfin b) /\ (i <= p - 1 -> m = [] /\ g = [] /\ h = []) /\
     (p - 1 <= i -> poison (p - 1) k i m /\ poison (p - 1) k i g /\ poison (p - 1) k i h)))|].
  { split; [|split]; [intros; replace 0 with k by lia; exact Hn..|]. split; [auto|]. intros. replace (p - 1) with 1 by lia. split; [|split]; apply poison_nil. }
  { intros i [[[[[a b] c] m] g] h] Hi (Ja & Jb & N & P). unfold f0. prd. destruct (i >=? p - 1) eqn:E; apply pp_ok; (split; [nfs|split; [nfs|]]).
    - split; [lia|]. intros _. destruct (P ltac:(lia)) as (Q1 & Q2 & Q3). split; [|split]; (apply poison_snoc; [lia|assumption|]); nfs.
    - destruct (N ltac:(lia)) as (-> & -> & ->). split; [auto|]. intros. replace (i + 1) with (p - 1) by lia. split; [|split]; apply poison_nil. }
  intros [[[[[a b] c] m] g] h] (_ & _ & _ & P). destruct (P ltac:(lia)) as (Q1 & Q2 & Q3). replace (Z.max 1 size) with size in * by lia. chk. chk. chk. apply pp_ok. intros _. cbn [snd].
  repeat apply Forall_cons; try apply Forall_nil; apply poison_bad; assumption.
Qed.
Lemma dema_keeps : keeps (@ti_dema_start F) (@ti_dema F).
Proof.
  apply keeps_pp. intros size x options s k Hx Hs Hk Hn. destruct options as [|o []]; [apply pp_ub| |apply pp_ub].
  unfold ti_dema. cbv zeta. destruct (@cast F o) as [p|] eqn:Ep; [|apply pp_ub]. cbn [bind]. destruct (p <? 1) eqn:P1; [apply pp_ok; discriminate|]. rewrite Hs. cbn [bind].
  assert (s = (p - 1) * 2) as ->.
  { unfold ti_dema_start in Hs. rewrite Ep in Hs. cbn [bind] in Hs. unfold ck in Hs. destruct (_ && _); [|discriminate]. cbn [bind] in Hs. destruct (_ && _); [injection Hs as <-; reflexivity|discriminate]. }
  destruct (size <=? (p - 1) * 2) eqn:P2; [apply pp_ok; intros _; apply nil_bad; lia|].
  prd. eapply pp_bind; [apply (pp_fori (fun i s => let '(a, b, out) := s in (k < i -> nonfin a) /\ (i <= (p - 1) * 2 -> out = []) /\ ((p - 1) * 2 <= i -> poison ((p - 1) * 2) k i out)))|].
  { split; [lia|]. split; [reflexivity|]. intros. replace 0 with ((p - 1) * 2) by lia. apply poison_nil. }
  { intros i [[a b] out] Hi (J & N & P). prd. destruct (i >=? p - 1) eqn:E1; [destruct (i >=? (p - 1) * 2) eqn:E2|]; apply pp_ok; (split; [nfs|]).
    - split; [lia|]. intros _. apply poison_snoc; [lia|apply P; lia|]. nfs.
    - rewrite N by lia. split; [reflexivity|]. intros. replace (i + 1) with ((p - 1) * 2) by lia. apply poison_nil.
    - rewrite N by lia. split; [reflexivity|]. intros. replace (i + 1) with ((p - 1) * 2) by lia. apply poison_nil. }
  intros [[a b] out] (_ & _ & P). specialize (P ltac:(lia)). fin1 P.
Qed.
Lemma tema_keeps : keeps (@start_p13 F) (@ti_tema F).
Proof.
  apply keeps_pp. intros size x options s k Hx Hs Hk Hn. destruct options as [|o []]; [apply pp_ub| |apply pp_ub].
  unfold ti_tema. cbv zeta. destruct (@cast F o) as [p|] eqn:Ep; [|apply pp_ub]. cbn [bind]. destruct (p <? 1) eqn:P1; [apply pp_ok; discriminate|]. rewrite Hs. cbn [bind].
  assert (s = (p - 1) * 3) as ->.
  { unfold start_p13 in Hs. rewrite Ep in Hs. cbn [bind] in Hs. unfold ck in Hs. destruct (_ && _); [|discriminate]. cbn [bind] in Hs. destruct (_ && _); [injection Hs as <-; reflexivity|discriminate]. }
  destruct (size <=? (p - 1) * 3) eqn:P2; [apply pp_ok; intros _; apply nil_bad; lia|].
  prd. eapply pp_bind; [apply (pp_fori (fun i s => let '(a, b, c, out) := s in (k < i -> nonfin a) /\ (i <= (p - 1) * 3 -> out = []) /\ ((p - 1) * 3 <= i -> poison ((p - 1) * 3) k i out)))|].
  { split; [lia|]. split; [reflexivity|]. intros. replace 0 with ((p - 1) * 3) by lia. apply poison_nil. }
  { intros i [[[a b] c] out] Hi (J & N & P). prd.
    destruct (i >=? p - 1) eqn:E1; [destruct (i >=? (p - 1) * 2) eqn:E2; [destruct (i >=? (p - 1) * 3) eqn:E3|]|]; apply pp_ok; (split; [nfs|]).
    - split; [lia|]. intros _. apply poison_snoc; [lia|apply P; lia|]. nfs.
    - rewrite N by lia. split; [reflexivity|]. intros. replace (i + 1) with ((p - 1) * 3) by lia. apply poison_nil.
    - rewrite N by lia. split; [reflexivity|]. intros. replace (i + 1) with ((p - 1) * 3) by lia. apply poison_nil.
    - rewrite N by lia. split; [reflexivity|]. intros. replace (i + 1) with ((p - 1) * 3) by lia. apply poison_nil. }
  intros [[[a b] c] out] (_ & _ & P). specialize (P ltac:(lia)). fin1 P.
Qed.

(** *** least squares *)
Lemma regression_keeps (fl : Z -> spec_float -> spec_float -> spec_float -> unit * list spec_float -> res (unit * list spec_float)) size x p k :
  zlen x = size -> 0 <= k < size -> nonfin (@zf F x k) -> 1 <= p -> p - 1 < size ->
  (forall i a y b s, (k <= i -> nonfin y /\ nonfin b) -> p - 1 <= i -> poison (p - 1) k i (snd s) -> pp (fl i a y b s) (fun s' => poison (p - 1) k (i + 1) (snd s'))) ->
  pp (@LINEAR_REGRESSION F unit size x p fl tt) (poison (p - 1) k size).
Proof.
  intros Hx Hk Hn Hp Hs Hf. unfold LINEAR_REGRESSION.
  eapply pp_bind; [apply (pp_fori (fun i s => let '(_, _, y, xy) := s in (k < i -> nonfin y) /\ (k < i -> nonfin xy))); [split; lia|]|].
  { intros i [[[a b] y] xy] Hi [J1 J2]. chk. prd. apply pp_ok. split; nfs. }
  intros [[[a b] y] xy] [J1 J2]. replace (Z.max 0 (p - 1)) with (p - 1) in * by lia. chk. cbv zeta.
  eapply pp_bind; [apply (pp_fori (fun i s => let '(y, xy, s) := s in (k < i -> nonfin y) /\ (k < i -> nonfin xy) /\ poison (p - 1) k i (snd s)))|].
  { split; [exact J1|split; [exact J2|apply poison_nil]]. }
  { intros i [[u v] s] Hi (K1 & K2 & P). prd. eapply pp_bind; [apply Hf; [intros KK; split; revert KK; nfs|lia|exact P]|]. intros s' P'. prd. apply pp_ok. split; [nfs|split; [nfs|exact P']]. }
  intros [[u v] [t out]] (_ & _ & P). apply pp_ok. cbn [snd] in P. replace (Z.max (p - 1) size) with size in P by lia. exact P.
Qed.
Lemma line_keeps p k fc i a y b s : (k <= i -> nonfin y /\ nonfin b) -> p - 1 <= i -> poison (p - 1) k i (snd s) -> pp (@FINAL_line F p fc i a y b s) (fun s' => poison (p - 1) k (i + 1) (snd s')).
Proof. intros H Hi P. destruct s as [t out]. unfold FINAL_line. cbv zeta. apply pp_ok. cbn [snd] in *. apply poison_snoc; [exact Hi|exact P|]. intros K. destruct (H K). auto with nf. Qed.
Lemma linreg_keeps : keeps (@start_p1 F) (@ti_linreg F).
Proof. enter @ti_linreg. eapply pp_bind; [apply regression_keeps; try eassumption; try lia; intros; apply line_keeps; assumption|]. intros out P. fin1 P. Qed.
Lemma linregintercept_keeps : keeps (@start_p1 F) (@ti_linregintercept F).
Proof. enter @ti_linregintercept. eapply pp_bind; [apply regression_keeps; try eassumption; try lia; intros; apply line_keeps; assumption|]. intros out P. fin1 P. Qed.
Lemma tsf_keeps : keeps (@start_p1 F) (@ti_tsf F).
Proof. enter @ti_tsf. chk. eapply pp_bind; [apply regression_keeps; try eassumption; try lia; intros; apply line_keeps; assumption|]. intros out P. fin1 P. Qed.
Lemma linregslope_keeps : keeps (@start_p1 F) (@ti_linregslope F).
Proof.
  enter @ti_linregslope. eapply pp_bind; [apply regression_keeps; try eassumption; try lia|intros out P; fin1 P].
  intros i a y b [t out] H Hi P. apply pp_ok. cbn [snd] in *. apply poison_snoc; [exact Hi|exact P|]. intros K. apply H, K.
Qed.

Lemma ppo_keeps : keeps (@start1 F) (@ti_ppo F).
Proof.
  apply keeps_pp. intros size x options s k Hx Hs Hk Hn. destruct options as [|o [|d []]]; [apply pp_ub|apply pp_ub| |apply pp_ub].
  unfold ti_ppo. cbv zeta. chk. chk. do 3 (destruct (_ <? _); [apply pp_ok; discriminate|]). rewrite Hs. cbn [bind]. unfold start1 in Hs. injection Hs as <-.
  destruct (size <=? 1) eqn:P2; [apply pp_ok; intros _; apply nil_bad; lia|].
  prd. eapply pp_bind; [apply (pp_fori (fun i s => let '(a, b, out) := s in (k < i -> nonfin a) /\ (k < i -> nonfin b) /\ poison 1 k i out))|].
  { split; [|split; [|apply poison_nil]]; intros; replace 0 with k by lia; exact Hn. }
  { intros i [[a b] out] Hi (Ja & Jb & P). prd. apply pp_ok. split; [nfs|split; [nfs|]]. apply poison_snoc; [lia|exact P|]. intros K. apply nf_truth; [|apply nf_divl, nf_mulr]; revert K; nfs. }
  intros [[a b] out] (_ & _ & P). fin1 P.
Qed.
Lemma dpo_keeps : keeps (@start_p1 F) (@ti_dpo F).
Proof.
  enter @ti_dpo. eapply pp_bind; [apply (pp_fori (fun i sum => k < i -> nonfin sum)); [lia|]|].
  { intros i sum Hi I. prd. apply pp_ok. nfs. }
  intros sum I. replace (Z.max 0 p) with p in I by lia. prd.
  eapply pp_bind; [apply (pp_fori (fun i s => (k < i -> nonfin (fst s)) /\ poison (p - 1) k i (snd s)))|].
  { split; [exact I|]. one. apply nf_subr, nf_mull, I. lia. }
  { intros i [sum' out] Hi [J P]. cbn [fst snd] in *. prd. prd. prd. apply pp_ok. cbn [fst snd]. split; [nfs|]. apply poison_snoc; [lia|exact P|]. intros K. apply nf_subr, nf_mull. revert K. nfs. }
  intros [sum' out] [_ P]. fin1 P.
Qed.
Lemma vosc_keeps : keeps (@start_l1 F) (@ti_vosc F).
Proof.
  apply keeps_pp. intros size x options s k Hx Hs Hk Hn. destruct options as [|o [|d []]]; [apply pp_ub|apply pp_ub| |apply pp_ub].
  unfold ti_vosc. cbv zeta. chk. unfold start_l1 in Hs. destruct (@cast F d) as [p|] eqn:Ep; [|discriminate]. cbn [bind] in *.
  do 2 (match goal with |- pp (if ?b then _ else _) _ => destruct b eqn:?; [apply pp_ok; discriminate|] end).
  unfold start_l1. rewrite Ep. cbn [bind]. rewrite Hs. cbn [bind]. assert (s = p - 1) as -> by (unfold ck in Hs; destruct (_ && _); [injection Hs as <-; reflexivity|discriminate]).
  destruct (size <=? p - 1) eqn:P2; [apply pp_ok; intros _; apply nil_bad; lia|].
  eapply pp_bind; [apply (pp_fori (fun i s => k < i -> nonfin (snd s))); [lia|]|].
  { intros i [a b] Hi I. cbn [fst snd] in *. prd. apply pp_ok. cbn [fst snd]. nfs. }
  intros [a b] I. cbn [fst snd] in I. replace (Z.max 0 p) with p in I by lia.
  eapply pp_bind; [apply (pp_fori (fun i s => (k < i -> nonfin (snd (fst s))) /\ poison (p - 1) k i (snd s)))|].
  { split; [exact I|]. one. apply nf_truth; [|apply nf_divl, nf_mulr]; apply nf_subr, nf_mull, I; lia. }
  { intros i [[u v] out] Hi [J P]. cbn [fst snd] in *. prd. prd. prd. apply pp_ok. cbn [fst snd]. split; [nfs|]. apply poison_snoc; [lia|exact P|].
    intros K. apply nf_truth; [|apply nf_divl, nf_mulr]; apply nf_subr, nf_mull; revert K; nfs. }
  intros [[u v] out] [_ P]. fin1 P.
Qed.
Lemma trix_keeps : keeps (@ti_trix_start F) (@ti_trix F).
Proof.
  apply keeps_pp. intros size x options s k Hx Hs Hk Hn. destruct options as [|o []]; [apply pp_ub| |apply pp_ub].
  unfold ti_trix. cbv zeta. destruct (@cast F o) as [p|] eqn:Ep; [|apply pp_ub]. cbn [bind]. destruct (p <? 1) eqn:P1; [apply pp_ok; discriminate|]. rewrite Hs. cbn [bind].
  destruct (size <=? s) eqn:P2; [apply pp_ok; intros _; apply nil_bad; lia|].
  eapply (pp_bind _ _ (fun p3 => p3 = p * 3)); [intros v E; unfold ck in E; destruct (_ && _); [injection E as <-; reflexivity|discriminate]|]. intros p3 ->.
  eapply (pp_bind _ _ (fun _ => p * 3 - 2 = s)); [intros v E; unfold check in E; destruct (p * 3 - 2 =? s) eqn:E1; [lia|discriminate]|]. intros _ Es. rewrite Es.
  prd. eapply pp_bind; [apply (pp_fori (fun i s => k < i -> nonfin (fst (fst s)))); [cbn [fst]; intros; replace 0 with k by lia; exact Hn|]|].
  { intros i [[a b] c] Hi J. cbn [fst snd] in *. prd. repeat match goal with |- pp (if ?b then _ else _) _ => destruct b end; apply pp_ok; cbn [fst snd]; nfs. }
  intros [[a b] c] J. cbn [fst snd] in J. replace (Z.max 1 s) with s in J by lia.
  eapply pp_bind; [apply (pp_fori (fun i t => let '(a, b, c, out) := t in (k < i -> nonfin a) /\ poison s k i out))|].
  { split; [exact J|apply poison_nil]. }
  { intros i [[[u v] w] out] Hi [K P]. prd. apply pp_ok. split; [nfs|]. apply poison_snoc; [lia|exact P|].
    intros KK. assert (E1 : nonfin (@fadd F (@fmul F (@fsub F (@zf F x i) u) (@fdiv F (@of_Z F 2) (@fadd F (@of_Z F p) (@of_Z F 1)))) u)) by (revert KK; nfs). apply nf_truth; auto 12 with nf. }
  intros [[[u v] w] out] [_ P]. fin1 P.
Qed.
Lemma trima_keeps : keeps (@start_p1 F) (@ti_trima F).
Proof.
  intros size x options s k outs Hx Hs Hk Hn. destruct options as [|o []]; [discriminate| |discriminate].
  revert outs. assert (X : pp (@ti_trima F size [x] [o]) (fun r => fst r = OKAY -> Forall (fun out => forall j, k <= j < size -> s <= j -> nonfin (@zf F out (j - s))) (snd r))); [|intros outs E; exact (X _ E eq_refl)].
  unfold ti_trima. destruct (@cast F o) as [p|] eqn:Ep; [|apply pp_ub]. cbn [bind]. destruct (p <? 1) eqn:P1; [apply pp_ok; discriminate|]. rewrite Hs. cbn [bind].
  destruct (size <=? s) eqn:P2; [apply pp_ok; intros _; apply nil_bad; lia|].
  destruct (p <=? 2) eqn:P3. { intros [c outs] E Hc. cbn [fst snd] in *. subst c. exact (sma_keeps size x [o] s k outs Hx Hs Hk Hn E). }
  assert (s = p - 1) as -> by (unfold start_p1 in Hs; rewrite Ep in Hs; cbn [bind] in Hs; unfold ck in Hs; destruct (_ && _); [injection Hs as <-; reflexivity|discriminate]).
  cbv zeta. chk. match goal with |- context[if negb ?b then ?u else ?v] => generalize (if negb b then u else v) as lead; intros lead end.
  eapply pp_bind; [apply (pp_fori (fun i s => let '(a, _, _, _) := s in k < i -> nonfin a)); [lia|]|].
  { intros i [[[a b] c] w] Hi J. prd. apply pp_ok. nfs. }
  intros [[[a b] c] w] J. replace (Z.max 0 (p - 1)) with (p - 1) in J by lia.
  eapply pp_bind; [apply (pp_fori (fun i s => let '(a, _, _, _, _, _, out) := s in (k < i -> nonfin a) /\ poison (p - 1) k i out))|].
  { split; [exact J|apply poison_nil]. }
  { intros i [[[[[[a' b'] c'] d1] d2] d3] out] Hi [K P]. prd. prd. prd. prd. apply pp_ok. split; [nfs|]. apply poison_snoc; [lia|exact P|]. nfs. }
  intros [[[[[[a' b'] c'] d1] d2] d3] out] [_ P]. fin1 P.
Qed.

(** *** indicators of which every output after a bad one is bad *)
Definition sticky (f : @batchfn F) : Prop := forall size inputs options c outs, f size inputs options = Ok (c, outs) ->
  Forall (fun out => forall i j, 0 <= i <= j -> j < zlen out -> nonfin (@zf F out i) -> nonfin (@zf F out j)) outs.
Definition st_inv (v : spec_float) (out : list spec_float) : Prop :=
  (forall i, 0 <= i < zlen out -> nonfin (@zf F out i) -> nonfin v) /\ forall i j, 0 <= i <= j -> j < zlen out -> nonfin (@zf F out i) -> nonfin (@zf F out j).
Lemma st_one v : st_inv v [v].
Proof. split; [intros i Hi; replace i with 0 by (cbn in Hi; lia); exact (fun H => H)|]. intros i j Hi Hj. replace j with 0 by (cbn in Hj; lia). replace i with 0 by (cbn in Hj; lia). exact (fun H => H). Qed.
Lemma st_snoc v w out : st_inv v out -> (nonfin v -> nonfin w) -> st_inv w (out ++ [w]).
Proof.
  intros [A B] H. assert (A' : forall i, 0 <= i < zlen (out ++ [w]) -> nonfin (@zf F (out ++ [w]) i) -> nonfin w).
  { intros i Hi. rewrite zlen_app in Hi. cbn in Hi. rewrite zf_snoc by lia. destruct (i =? zlen out) eqn:E; [exact (fun X => X)|]. intros N. apply H. apply (A i); [lia|exact N]. }
  split; [exact A'|]. intros i j Hi Hj N. pose proof Hj as Hj'. rewrite zlen_app in Hj'. cbn in Hj'. rewrite (zf_snoc _ _ j) by lia. destruct (j =? zlen out) eqn:E; [apply (A' i); [lia|exact N]|].
  apply (B i); [lia|lia|]. rewrite zf_snoc in N by lia. destruct (i =? zlen out) eqn:E2; [lia|exact N].
Qed.
Lemma sticky_nil : forall i j, 0 <= i <= j -> j < zlen (@nil spec_float) -> nonfin (@zf F [] i) -> nonfin (@zf F [] j).
Proof. intros i j Hi Hj. cbn in Hj. lia. Qed.
Lemma sticky_pp (f : @batchfn F) : (forall size inputs options, pp (f size inputs options) (fun r => Forall (fun out => forall i j, 0 <= i <= j -> j < zlen out -> nonfin (@zf F out i) -> nonfin (@zf F out j)) (snd r))) -> sticky f.
Proof. intros H size inputs options c outs E. exact (H size inputs options _ E). Qed.
Ltac nilo := apply pp_ok; cbn [snd]; repeat constructor; apply sticky_nil.
Ltac ifs := repeat match goal with |- pp (if ?b then Ok _ else _) _ => destruct b; [nilo|] end.
Lemma vidya_sticky : sticky (@ti_vidya F).
Proof.
  apply sticky_pp. intros size inputs options. destruct inputs as [|x []]; [apply pp_ub| |apply pp_ub]. destruct options as [|o0 [|o1 [|al []]]]; [apply pp_ub|apply pp_ub|apply pp_ub| |apply pp_ub].
  unfold ti_vidya. cbv zeta. chk. chk. ifs. chk. ifs. chk.
  repeat match goal with |- context[match ?s with pair _ _ => _ end] => is_var s; destruct s end.
  chk. eapply (pp_bind _ _ (fun t => st_inv (fst t) (snd t))).
  { match goal with |- pp (if ?b then _ else _) _ => destruct b end; [chk|]; apply pp_ok; cbn [fst snd]; [|apply st_one]. eapply (st_snoc _ _ [_]); [apply st_one|]. auto with nf. }
  intros [v out] I. cbn [fst snd] in I.
  eapply (pp_bind _ _ (fun t => let '(_, _, _, _, v, out) := t in st_inv v out)).
  { apply (pp_fori (fun _ t => let '(_, _, _, _, v, out) := t in st_inv v out)); [exact I|].
    intros i [[[[[a b] c] d] v'] out'] Hi J. chk. chk. chk. apply pp_ok. eapply st_snoc; [exact J|]. auto with nf. }
  intros [[[[[a b] c] d] v'] out'] J. chk. apply pp_ok. cbn [snd]. repeat constructor. apply J.
Qed.
Lemma kama_sticky : sticky (@ti_kama F).
Proof.
  apply sticky_pp. intros size inputs options. destruct inputs as [|x []]; [apply pp_ub| |apply pp_ub]. destruct options as [|o0 []]; [apply pp_ub| |apply pp_ub].
  unfold ti_kama. cbv zeta. chk. ifs. chk. ifs. chk. chk.
  eapply (pp_bind _ _ (fun t => let '(_, v, out) := t in st_inv v out)).
  { apply (pp_fori (fun _ t => let '(_, v, out) := t in st_inv v out)); [apply st_one|].
    intros i [[a v'] out'] Hi J. chk. chk. chk. chk. apply pp_ok. eapply st_snoc; [exact J|]. auto with nf. }
  intros [[a v'] out'] J. chk. apply pp_ok. cbn [snd]. repeat constructor. apply J.
Qed.
Lemma zlema_sticky : sticky (@ti_zlema F).
Proof.
  apply sticky_pp. intros size inputs options. destruct inputs as [|x []]; [apply pp_ub| |apply pp_ub]. destruct options as [|o0 []]; [apply pp_ub| |apply pp_ub].
  unfold ti_zlema. cbv zeta. chk. chk. ifs. chk. ifs. chk.
  eapply (pp_bind _ _ (fun t => st_inv (fst t) (snd t))).
  { apply (pp_fori (fun _ t => st_inv (fst t) (snd t))); [apply st_one|].
    intros i [v' out'] Hi J. chk. chk. apply pp_ok. cbn [fst snd] in *. eapply st_snoc; [exact J|]. auto with nf. }
  intros [v' out'] J. chk. apply pp_ok. cbn [snd]. repeat constructor. apply J.
Qed.
End F.

(** *** a constant series on which vidya breaks down, and a spike which sma never forgets *)
Section G.
Variable lm : libm1 -> spec_float -> spec_float.
Variable pw : spec_float -> spec_float -> spec_float.
Notation F := (F64 lm pw).
#[local] Existing Instance F64_laws.
Ltac prd := eapply pp_bind; [apply (pp_rdv lm pw)|let H := fresh in intros ? [-> H]].
Ltac chk := eapply pp_bind; [apply pp_any|intros ? _].

Fixpoint sums03 (n : nat) : spec_float * spec_float * spec_float * spec_float :=
  match n with
  | O => (@of_Z F 0, @of_Z F 0, @of_Z F 0, @of_Z F 0)
  | S m => let '(a, b, c, d) := sums03 m in let x := dbl 3 1 in
    if Z.of_nat m >=? 1 then (@fadd F a x, @fadd F b (@fmul F x x), @fadd F c x, @fadd F d (@fmul F x x)) else (a, b, @fadd F c x, @fadd F d (@fmul F x x))
  end.
Lemma zf_const4 d tail i : 0 <= i < 4 -> @zf F (d :: d :: d :: d :: tail) i = d.
Proof. intros Hi. assert (i = 0 \/ i = 1 \/ i = 2 \/ i = 3) as [-> | [-> | [-> | ->]]] by lia; reflexivity. Qed.
Lemma vidya_03 tail : let d := dbl 3 1 in
  pp (@ti_vidya F (4 + zlen tail) [d :: d :: d :: d :: tail] [dbl 3 0; dbl 4 0; dbl 2 1]) (fun r => Forall (fun out => nonfin (@zf F out 1)) (snd r)).
Proof.
  intros d. assert (Zt : 0 <= zlen tail) by (unfold zlen; lia). unfold ti_vidya. cbv zeta.
  replace (@cast F (dbl 3 0)) with (Ok 3) by (vm_compute; reflexivity). replace (@cast F (dbl 4 0)) with (Ok 4) by (vm_compute; reflexivity). cbn [bind].
  change (3 <? 1) with false. change (4 <? 3) with false. change (4 <? 2) with false. cbv iota.
  replace (@flt F (dbl 2 1) (@of_Z F 0) || @flt F (@of_Z F 1) (dbl 2 1))%bool with false by (vm_compute; reflexivity). cbv iota.
  replace (@ti_vidya_start F [dbl 3 0; dbl 4 0; dbl 2 1]) with (Ok 2) by (vm_compute; reflexivity). cbn [bind].
  destruct (4 + zlen tail <=? 2) eqn:E1; [lia|].
  eapply pp_bind; [apply (pp_fori (fun i s => s = sums03 (Z.to_nat i))); [reflexivity|]|].
  { intros i [[[a b] u] v] Hi J. prd. fold d. rewrite zf_const4 by lia. replace (Z.to_nat (i + 1)) with (S (Z.to_nat i)) by lia. cbn [sums03]. rewrite <- J. rewrite Z2Nat.id by lia.
    replace (i >=? 4 - 3) with (i >=? 1) by reflexivity. destruct (i >=? 1); apply pp_ok; reflexivity. }
  intros [[[a b] u] v] J. change (Z.to_nat (Z.max 0 4)) with 4%nat in J. prd. rewrite zf_const4 by lia.
  destruct (4 - 1 <? 4 + zlen tail) eqn:E2; [|lia].
  eapply (pp_bind _ _ (fun t => exists w, t = (S754_nan, [w; S754_nan]))).
  { prd. rewrite zf_const4 by lia. apply pp_ok. exists d. assert (Ek : @vidya_k F a b (@fdiv F (@of_Z F 1) (@of_Z F 3)) u v (@fdiv F (@of_Z F 1) (@of_Z F 4)) (dbl 2 1) = S754_infinity false).
    { assert (Js : sums03 4 = sums03 4) by reflexivity. rewrite <- J in Js at 1. vm_compute in Js. injection Js as -> -> -> ->. vm_compute. reflexivity. }
    rewrite Ek. assert (En : @fadd F (@fmul F (@fsub F d d) (S754_infinity false)) d = S754_nan) by (vm_compute; reflexivity). rewrite En. reflexivity. }
  intros [w out] [w0 X]. injection X as -> ->.
  eapply (pp_bind _ _ (fun t => let '(_, _, _, _, _, out) := t in exists l, out = w0 :: S754_nan :: l)).
  { apply (pp_fori (fun _ t => let '(_, _, _, _, _, out) := t in exists l, out = w0 :: S754_nan :: l)); [exists []; reflexivity|].
    intros i [[[[[a' b'] c'] d'] v'] out'] Hi [l ->]. chk. chk. chk. apply pp_ok. eexists (l ++ [_]). reflexivity. }
  intros [[[[[a' b'] c'] d'] v'] out'] [l ->]. chk. apply pp_ok. cbn [snd]. repeat constructor.
Qed.

(** 10^17 followed by ones *)
Lemma zf_spike b i n : 0 <= i <= Z.of_nat n -> @zf F (b :: repeat (@of_Z F 1) n) i = if i =? 0 then b else @of_Z F 1.
Proof.
  intros Hi. unfold zf, zn. destruct (i =? 0) eqn:E; [replace i with 0 by lia; reflexivity|]. replace (Z.to_nat i) with (S (Z.to_nat (i - 1))) by lia. cbn [nth].
  rewrite (nth_indep _ _ (@of_Z F 1)) by (rewrite repeat_length; lia). apply nth_repeat.
Qed.
Lemma sma_spike n : (1 <= n)%nat ->
  pp (@ti_sma F (Z.of_nat n + 1) [@of_Z F (10 ^ 17) :: repeat (@of_Z F 1) n] [dbl 2 0]) (fun r => r = (OKAY, [@of_Z F (5 * 10 ^ 16) :: repeat (@of_Z F 0) (n - 1)])).
Proof.
  intros Hn. set (x := _ :: _). unfold ti_sma. cbv zeta. replace (@cast F (dbl 2 0)) with (Ok 2) by (vm_compute; reflexivity). cbn [bind]. change (2 <? 1) with false. cbv iota.
  replace (@start_p1 F [dbl 2 0]) with (Ok 1) by (vm_compute; reflexivity). cbn [bind]. destruct (Z.of_nat n + 1 <=? 1) eqn:E1; [lia|].
  eapply pp_bind; [apply (pp_fori (fun i s => s = if i =? 0 then @of_Z F 0 else @of_Z F (10 ^ 17))); [reflexivity|]|].
  { intros i s Hi ->. prd. unfold x. rewrite zf_spike by lia. apply pp_ok. assert (i = 0 \/ i = 1) as [-> | ->] by lia; vm_compute; reflexivity. }
  intros s ->. change (if Z.max 0 2 =? 0 then @of_Z F 0 else @of_Z F (10 ^ 17)) with (@of_Z F (10 ^ 17)).
  replace (@fmul F (@of_Z F (10 ^ 17)) (@fdiv F (@of_Z F 1) (@of_Z F 2))) with (@of_Z F (5 * 10 ^ 16)) by (vm_compute; reflexivity).
  eapply pp_bind; [apply (pp_fori (fun i t => t = (if i =? 2 then @of_Z F (10 ^ 17) else @of_Z F 0, @of_Z F (5 * 10 ^ 16) :: repeat (@of_Z F 0) (Z.to_nat (i - 2))))); [reflexivity|]|].
  { intros i t Hi ->. prd. prd. unfold x. rewrite !zf_spike by lia. apply pp_ok. destruct (i =? 0) eqn:A; [lia|]. destruct (i + 1 =? 2) eqn:B; [lia|].
    replace (Z.to_nat (i + 1 - 2)) with (S (Z.to_nat (i - 2))) by lia.
    assert (Er : forall (v : spec_float) m, repeat v (S m) = repeat v m ++ [v]) by (intros v m; exact (repeat_cons m v)). rewrite Er, app_comm_cons.
    replace (i - 2 =? 0) with (i =? 2) by lia. destruct (i =? 2) eqn:C; apply f_equal2; try (apply f_equal2; [reflexivity|]); vm_compute; reflexivity. }
  intros t ->. eapply pp_bind; [apply pp_any|]. intros _ _. apply pp_ok. replace (Z.max 2 (Z.of_nat n + 1) - 2) with (Z.of_nat (n - 1)) by lia. rewrite Nat2Z.id. reflexivity.
Qed.
End G.

(** Streams of the ranking indicators: rmf, hf, hfsma, hfema. *)
From Verif Require Export C_stream6 M_stream8.
From Coq Require Import ZifyBool Permutation Sorting.Sorted.

(** [<=] is total on the values that occur ([good]), and values are equivalent exactly when they have
    the same [key] (binary64: the two zeros). *)
Record RankLaws (A : Arith) (good : T -> Prop) (key : T -> T) : Prop := {
  rk_ord : OrdLaws A good;
  rk_key : forall x y, good x -> good y -> (x .<= y) = true /\ (y .<= x) = true <-> key x = key y }.
(** Halving a period. *)
Definition HalfLaw (A : Arith) : Prop := forall x n, to_int x = Some n -> 1 <= n -> to_int (x ./ #2) = Some (n / 2).

Section P.
Context {A : Arith}.
Context (good : T -> Prop) (key : T -> T) (RL : RankLaws A good key).
Let OL : OrdLaws A good := rk_ord A good key RL.

Definition rsorted (l : list T) : Prop := StronglySorted (fun a b => (a .<= b) = true) l.
(** A multiset holding the values [w]. *)
Definition ranks (ms w : list T) : Prop := rsorted ms /\ Forall good ms /\ Permutation (map key ms) (map key w).

Lemma lt_false x y : good x -> good y -> (x .< y) = false -> (y .<= x) = true.
Proof. intros Hx Hy H. rewrite (ord_lt_le A good OL) in H by assumption. destruct (y .<= x); [reflexivity|discriminate]. Qed.
Lemma lt_true x y : good x -> good y -> (x .< y) = true -> (y .<= x) = false /\ (x .<= y) = true.
Proof.
  intros Hx Hy H. rewrite (ord_lt_le A good OL) in H by assumption. destruct (y .<= x) eqn:E; [discriminate|]. split; [reflexivity|].
  destruct (ord_total A good OL x y Hx Hy); congruence.
Qed.
Lemma ins_perm x l : Permutation (ms_ins x l) (x :: l).
Proof.
  induction l as [|y t IH]; cbn; [reflexivity|]. destruct (x .< y); [reflexivity|]. rewrite IH. apply perm_swap.
Qed.
Lemma Forall_perm (P : T -> Prop) l l' : Permutation l l' -> Forall P l -> Forall P l'.
Proof. intros H F. rewrite Forall_forall in *. intros z Hz. apply F. eapply Permutation_in; [symmetry; exact H|exact Hz]. Qed.
Lemma ins_good x l : good x -> Forall good l -> Forall good (ms_ins x l).
Proof. intros Hx Hl. eapply Forall_perm; [symmetry; apply ins_perm|]. constructor; assumption. Qed.
Lemma ins_sorted x l : good x -> Forall good l -> rsorted l -> rsorted (ms_ins x l).
Proof.
  intros Hx. induction l as [|y t IH]; intros Hl Hs; cbn; [repeat constructor|]. inversion Hl; subst. inversion Hs; subst.
  destruct (x .< y) eqn:E.
  - apply lt_true in E; [|assumption|assumption]. destruct E as [_ E]. constructor; [exact Hs|]. constructor; [exact E|].
    rewrite Forall_forall in *. intros z Hz. eapply (ord_trans A good OL x y z); auto.
  - apply lt_false in E; [|assumption|assumption]. constructor; [apply IH; assumption|].
    eapply Forall_perm; [symmetry; apply ins_perm|]. constructor; assumption.
Qed.
Lemma sort_sorted l : Forall good l -> rsorted (fold_right ms_ins [] l) /\ Forall good (fold_right ms_ins [] l) /\ Permutation (fold_right ms_ins [] l) l.
Proof.
  induction 1 as [|x l Hx Hl (I1 & I2 & I3)]; cbn; [repeat constructor|]. split; [apply ins_sorted; assumption|]. split; [apply ins_good; assumption|].
  rewrite ins_perm, I3. reflexivity.
Qed.
Lemma del_ok x l : good x -> Forall good l -> rsorted l -> In (key x) (map key l) ->
  exists l', ms_del x l = Some l' /\ rsorted l' /\ Forall good l' /\ Permutation (map key l) (key x :: map key l').
Proof.
  intros Hx. induction l as [|y t IH]; intros Hl Hs Hin; [destruct Hin|]. inversion Hl as [|? ? Hy Ht]; subst. inversion Hs as [|? ? Hst Hle]; subst. cbn.
  destruct (y .< x) eqn:E1.
  - apply lt_true in E1 as [E1 E2]; [|assumption|assumption]. destruct Hin as [K|Hin].
    + apply (rk_key A good key RL) in K as [K1 K2]; [congruence|assumption|assumption].
    + destruct (IH Ht Hst Hin) as (l' & -> & S' & G' & P'). exists (y :: l'). cbn. split; [reflexivity|].
      assert (D : Forall (fun b => (y .<= b) = true) l').
      { assert (Q : Forall (fun c => exists b, good b /\ key b = c /\ (y .<= b) = true) (map key l')).
        { apply Forall_forall. intros c Hc. assert (Hc' : In c (map key t)) by (eapply Permutation_in; [symmetry; exact P'|right; exact Hc]).
          apply in_map_iff in Hc' as (b & <- & Hb). rewrite Forall_forall in Ht, Hle. exists b. auto. }
        rewrite Forall_forall in *. intros b Hb. destruct (Q (key b) (in_map key _ _ Hb)) as (b' & G1 & K1 & L1).
        apply (rk_key A good key RL) in K1; [|assumption|auto]. eapply (ord_trans A good OL y b' b); auto. apply K1. }
      split; [constructor; assumption|]. split; [constructor; assumption|]. rewrite P'. apply perm_swap.
  - apply lt_false in E1; [|assumption|assumption]. destruct (x .< y) eqn:E2.
    + apply lt_true in E2 as [E2 _]; [|assumption|assumption]. exfalso. destruct Hin as [K|Hin].
      * apply (rk_key A good key RL) in K as [K1 K2]; [congruence|assumption|assumption].
      * apply in_map_iff in Hin as (b & K & Hb). rewrite Forall_forall in Ht, Hle.
        apply (rk_key A good key RL) in K as [K1 K2]; [|auto|assumption].
        rewrite (ord_trans A good OL y b x) in E2; auto; try discriminate.
    + apply lt_false in E2; [|assumption|assumption]. exists t. split; [reflexivity|]. split; [assumption|]. split; [assumption|].
      assert (K : key y = key x) by (apply (rk_key A good key RL); auto). rewrite <- K. reflexivity.
Qed.

Lemma ranks_nil : ranks [] []. Proof. repeat constructor. Qed.
Lemma ranks_len ms w : ranks ms w -> zlen ms = zlen w.
Proof. intros (_ & _ & P). apply Permutation_length in P. rewrite !map_length in P. unfold zlen. lia. Qed.
Lemma ranks_insert x ms w : good x -> ranks ms w -> exists ms', ms_insert x ms = Ok ms' /\ ranks ms' (w ++ [x]).
Proof.
  intros Hx (S & G & P). unfold ms_insert. rewrite (ord_refl A good OL) by assumption. cbn. eexists. split; [reflexivity|].
  split; [apply ins_sorted; assumption|]. split; [apply ins_good; assumption|]. rewrite (Permutation_map key (ins_perm x ms)). cbn.
  rewrite P, map_app. cbn. apply Permutation_cons_append.
Qed.
Lemma ranks_erase x ms w : good x -> ranks ms (x :: w) -> exists ms', ms_erase x ms = Ok ms' /\ ranks ms' w.
Proof.
  intros Hx (S & G & P). destruct (del_ok x ms Hx G S) as (l' & E & S' & G' & P').
  - eapply Permutation_in; [symmetry; exact P|left; reflexivity].
  - unfold ms_erase. rewrite E. exists l'. split; [reflexivity|]. split; [assumption|]. split; [assumption|].
    rewrite P in P'. cbn in P'. apply Permutation_cons_inv in P'. symmetry. exact P'.
Qed.
(** The same for a window of a function. *)
Lemma ranks_in g lo i ms : lo <= i -> good (g i) -> ranks ms (tab lo i g) -> exists ms', ms_insert (g i) ms = Ok ms' /\ ranks ms' (tab lo (i + 1) g).
Proof. intros L Hg H. rewrite tab_snoc by lia. apply ranks_insert; assumption. Qed.
Lemma tab_cons {X} lo hi (g : Z -> X) : lo < hi -> tab lo hi g = g lo :: tab (lo + 1) hi g.
Proof. intros L. rewrite (tab_split lo (lo + 1) hi) by lia. replace (tab lo (lo + 1) g) with [g lo]; [reflexivity|]. rewrite tab_snoc, tab_nil by lia. reflexivity. Qed.
Lemma ranks_out g lo hi ms : lo < hi -> good (g lo) -> ranks ms (tab lo hi g) -> exists ms', ms_erase (g lo) ms = Ok ms' /\ ranks ms' (tab (lo + 1) hi g).
Proof. intros L Hg H. rewrite tab_cons in H by lia. apply ranks_erase; assumption. Qed.
Lemma ranks_rd ms w k : ranks ms w -> 0 <= k < zlen w -> rd ms k = Ok (zf ms k) /\ good (zf ms k).
Proof.
  intros H Hk. rewrite <- (ranks_len _ _ H) in Hk. split; [apply rd_zf; exact Hk|]. destruct H as (_ & G & _). rewrite Forall_forall in G. apply G.
  unfold zf, zn. apply nth_In. unfold zlen in Hk. lia.
Qed.

(** ** rmf *)
Definition win (s : list T * list T) (g : Z -> T) (lo hi : Z) : Prop := ranks (fst s) (tab lo hi g) /\ snd s = tab lo hi g.
Lemma push_win s g lo i : lo <= i -> good (g i) -> win s g lo i -> exists s', rmf_push (g i) s = Ok s' /\ win s' g lo (i + 1).
Proof.
  intros L Hg [W E]. destruct s as [ms pr]. cbn [fst snd] in *. destruct (ranks_in g lo i ms L Hg W) as (ms' & E' & W').
  unfold rmf_push. rewrite E'. cbn [bind]. eexists. split; [reflexivity|]. split; [exact W'|]. cbn. rewrite tab_snoc by lia. congruence.
Qed.
Lemma pop_win s g lo hi : lo < hi -> good (g lo) -> win s g lo hi -> exists s', rmf_pop s = Ok s' /\ win s' g (lo + 1) hi.
Proof.
  intros L Hg [W E]. destruct s as [ms pr]. cbn [fst snd] in *. destruct (ranks_out g lo hi ms L Hg W) as (ms' & E' & W').
  unfold rmf_pop. rewrite E, tab_cons by lia. rewrite E'. cbn [bind]. eexists. split; [reflexivity|]. split; [exact W'|reflexivity].
Qed.
Lemma median_win m n s g lo hi : HalfLaw A -> to_int m = Some n -> 1 <= n -> hi - lo = n -> win s g lo hi ->
  rmf_median m (fst s) = Ok (zf (fst s) (n / 2)).
Proof.
  intros HL Hm Hn Hw [W _]. unfold rmf_median, cast. rewrite (HL m n Hm Hn). cbn [bind].
  apply (ranks_rd _ _ _ W). rewrite zlen_tab. assert (0 <= n / 2 < n) by (split; [apply Z.div_pos; lia|apply Z.div_lt; lia]). lia.
Qed.

Definition o_rmf : optspec := fun opts v => exists c m, opts = [c; m] /\
  v = if m .< #1 then Reject else if c .< #1 then Reject else match to_int m with
      | None => Outside | Some n => if negb (Z.rem n 2 =? 1) then Reject else Accept (n - 1) end.
Lemma rmf_sim {IL : IntLaws A} : HalfLaw A -> sim 1 1 o_rmf (good_inputs good 1) ti_rmf_start ti_rmf ti_rmf_stream_new rmf_loops.
Proof.
  intros HL options v (c & m & -> & ->). unfold ti_rmf, ti_rmf_stream_new, ti_rmf_start.
  destruct (m .< #1) eqn:E1; [reject_tac2|]. destruct (c .< #1) eqn:E2; [reject_tac2|].
  destruct (to_int m) as [n|] eqn:Em; [|exact I]. unfold cast at 2 3. unfold cast. rewrite Em. cbn [bind].
  assert (Hn : 1 <= n) by (rewrite (to_int_flt m n 1) in E1 by (auto; zl); lia).
  destruct (negb _); [reject_tac2|]. rewrite (to_int_pred m n Em Hn). cbn [bind]. accept_tac.
  match goal with HG : good_inputs _ _ _ |- _ => inversion_clear HG end.
  match goal with HG : Forall good x |- _ => pose proof (Forall_zf good _ HG) as GX end.
  loops_tac (fun (i : Z) (a : option T * (list T * list T)) (b : T * (list T * list T)) => snd a = snd b /\ win (snd a) (zf x) (Z.max 0 (i - (n - 1))) i /\ (n <= i -> fst a = Some (fst b))).
  - split; [reflexivity|]. split; [unfold win; rewrite tab_nil by lia; split; [exact ranks_nil|reflexivity]|]. lia.
  - subst. replace (0 - - (n - 1)) with (n - 1) by lia. replace (1 - - (n - 1)) with (n - 1 + 1) by lia.
    rewrite !rd_zf by lia. cbn [bind].
    match goal with W : win ?s _ _ _ |- _ => destruct (push_win s (zf x) (Z.max 0 (i - (n - 1))) i ltac:(lia) (GX i ltac:(lia)) W) as (s' & Es & W') end.
    rewrite !Es. cbn [bind]. destruct (i <? n - 1) eqn:E3.
    + cbn [wp]. emit. replace (Z.max 0 (i + 1 - (n - 1))) with (Z.max 0 (i - (n - 1))) by lia. assumption.
    + rewrite !(median_win m n s' (zf x) (Z.max 0 (i - (n - 1))) (i + 1) HL Em Hn ltac:(lia) W'). cbn [bind].
      destruct (pop_win s' (zf x) (Z.max 0 (i - (n - 1))) (i + 1) ltac:(lia) (GX (Z.max 0 (i - (n - 1))) ltac:(lia)) W') as (s2 & E2' & W2). rewrite !E2'. cbn [bind].
      replace (Z.max 0 (i - (n - 1)) + 1) with (Z.max 0 (i + 1 - (n - 1))) in W2 by lia.
      destruct (i <? n - 1 + 1) eqn:E4.
      * cbn [wp]. emit.
      * match goal with HE : n <= i -> _ |- _ => rewrite HE by lia end. unfold val. cbn [bind wp]. emit.
Qed.

(** ** The deviations *)
Context (good' : T -> Prop) (OL' : OrdLaws A good') (DL : forall x y, good x -> good y -> good' (fabs (x .- y))).

Lemma nth_elem_ok k l : Forall good' l -> 0 <= k < zlen l -> exists s, rsorted s /\ Forall good' s /\ Permutation s l /\ nth_elem k l = Ok (zf s k).
Proof.
  intros G Hk. exists (fold_right ms_ins [] l). unfold nth_elem, std_sort.
  assert (F : forallb (fun x => x .<= x) l = true).
  { apply forallb_forall. intros z Hz. rewrite Forall_forall in G. apply (ord_refl A good' OL'). auto. }
  rewrite F. cbn [check bind].
  assert (Q : rsorted (fold_right ms_ins [] l) /\ Forall good' (fold_right ms_ins [] l) /\ Permutation (fold_right ms_ins [] l) l).
  { clear F Hk. induction G as [|z l Hz Hl (I1 & I2 & I3)]; cbn; [repeat constructor|]. split; [|split].
    - revert I1 I2. generalize (fold_right ms_ins [] l) as m. intros m. induction m as [|y m IH]; intros S G; cbn; [repeat constructor|].
      inversion S as [|? ? S1 S2]; subst. inversion G as [|? ? G1 G2]; subst. destruct (z .< y) eqn:E.
      + rewrite (ord_lt_le A good' OL') in E by assumption. assert (E' : (z .<= y) = true) by (destruct (y .<= z) eqn:Q; [discriminate|destruct (ord_total A good' OL' z y Hz G1); congruence]).
        constructor; [exact S|]. constructor; [exact E'|]. rewrite Forall_forall in *. intros v Hv. eapply (ord_trans A good' OL' z y v); auto.
      + rewrite (ord_lt_le A good' OL') in E by assumption. assert (E' : (y .<= z) = true) by (destruct (y .<= z); [reflexivity|discriminate]).
        constructor; [apply IH; assumption|]. eapply Forall_perm; [symmetry; apply ins_perm|]. constructor; assumption.
    - eapply Forall_perm; [symmetry; apply ins_perm|]. constructor; assumption.
    - rewrite ins_perm, I3. reflexivity. }
  destruct Q as (Q1 & Q2 & Q3). split; [exact Q1|]. split; [exact Q2|]. split; [exact Q3|]. apply rd_zf.
  apply Permutation_length in Q3. unfold zlen in *. lia.
Qed.
(** The middle of three or more values, 2k+1 of them: [v] is among them, at most k are less and at most k are
    greater. *)
Definition middle (k : Z) (w : list T) (v : T) : Prop :=
  In v w /\ zlen (filter (fun u => u .< v) w) <= k /\ zlen (filter (fun u => v .< u) w) <= k.
Lemma middle_perm k w w' v : Permutation w w' -> middle k w v -> middle k w' v.
Proof.
  intros P (H1 & H2 & H3). split; [eapply Permutation_in; eassumption|].
  assert (F : forall f : T -> bool, length (filter f w) = length (filter f w')).
  { intros f. apply Permutation_length. clear H1 H2 H3. induction P; cbn.
    - constructor.
    - destruct (f x); [constructor|]; assumption.
    - destruct (f x), (f y); try reflexivity. constructor.
    - etransitivity; eassumption. }
  unfold zlen in *. rewrite <- !F. auto.
Qed.
End P.

Section Q.
Context {A : Arith}.
(** In a sorted list the elements before position k are not greater than, those after it not less than the one at k. *)
Lemma filter_none {X} (f : X -> bool) l : Forall (fun x => f x = false) l -> filter f l = [].
Proof. induction 1 as [|x l Hx Hl IH]; cbn; [reflexivity|]. rewrite Hx. exact IH. Qed.
Lemma filter_len {X} (f : X -> bool) l : (length (filter f l) <= length l)%nat.
Proof. induction l as [|x l IH]; cbn; [lia|]. destruct (f x); cbn; lia. Qed.
Lemma sorted_middle good k s : OrdLaws A good -> rsorted s -> Forall good s -> 0 <= k -> zlen s = 2 * k + 1 -> middle k s (zf s k).
Proof.
  intros OL S G Hk Hl. set (n := Z.to_nat k).
  assert (Hn : (n < length s)%nat) by (unfold zlen in Hl; lia).
  destruct (nth_split s f0 Hn) as (l1 & l2 & E & E1). change (nth n s f0) with (zf s k) in E. assert (L1 : Z.of_nat (length l1) = k) by lia. clear E1.
  set (v := zf s k) in *. clearbody v. subst s.
  rewrite app_length in Hn. cbn in Hn. unfold zlen in Hl. rewrite app_length in Hl. cbn [length] in Hl.
  rewrite Forall_app in G. destruct G as [G1 G2]. inversion G2 as [|? ? Gv G3]; subst.
  assert (Q : Forall (fun u => (u .<= v) = true) l1 /\ Forall (fun u => (v .<= u) = true) l2).
  { clear - S. induction l1 as [|a l1 IH]; cbn in *; inversion S; subst.
    - split; [constructor|assumption].
    - destruct (IH H1) as [I1 I2]. split; [constructor; [|assumption]|assumption]. rewrite Forall_app in H2. destruct H2 as [_ H2]. inversion H2; subst. assumption. }
  destruct Q as [Q1 Q2]. split; [apply in_or_app; right; left; reflexivity|].
  assert (NL : forall a b, good a -> good b -> (a .<= b) = true -> (b .< a) = false).
  { intros a b Ha Hb H. rewrite (ord_lt_le A good OL) by assumption. rewrite H. reflexivity. }
  assert (Vv : (v .< v) = false) by (apply NL; auto; apply (ord_refl A good OL); assumption).
  unfold zlen. rewrite !filter_app, !app_length. cbn. rewrite Vv. split.
  - rewrite (filter_none (fun u => u .< v) l2). { pose proof (filter_len (fun u => u .< v) l1). cbn. lia. }
    rewrite Forall_forall in *. intros u Hu. apply NL; auto.
  - rewrite (filter_none (fun u => v .< u) l1). { pose proof (filter_len (fun u => v .< u) l2). cbn. lia. }
    rewrite Forall_forall in *. intros u Hu. apply NL; auto.
Qed.

Context (good : T -> Prop) (key : T -> T) (RL : RankLaws A good key).
Context (good' : T -> Prop) (OL' : OrdLaws A good') (DL : forall x y, good x -> good y -> good' (fabs (x .- y))).
(** The median of the window and the median distance from it. *)
Definition mad (k : Z) (w : list T) (m d : T) : Prop := middle k w m /\ middle k (map (fun p => fabs (p .- m)) w) d.
Lemma mad_ok k ms g lo hi : 1 <= k -> hi - lo = 2 * k + 1 -> ranks good key ms (tab lo hi g) ->
  exists m d, rd ms k = Ok m /\ median_deviation k ms m = Ok d /\ ((forall x, key x = x) -> mad k (tab lo hi g) m d).
Proof.
  intros Hk Hw W. pose proof (ranks_len good key _ _ W) as Hl. rewrite zlen_tab in Hl.
  destruct (ranks_rd good key ms _ k W) as [E G]; [rewrite zlen_tab; lia|]. destruct W as (S & F & P).
  destruct (nth_elem_ok good' OL' k (map (fun p => fabs (p .- zf ms k)) ms)) as (s & S1 & S2 & S3 & S4).
  { apply Forall_forall. intros u Hu. apply in_map_iff in Hu as (p & <- & Hp). apply DL; [|assumption]. rewrite Forall_forall in F. auto. }
  { unfold zlen in *. rewrite map_length. lia. }
  exists (zf ms k), (zf s k). split; [exact E|]. split.
  { unfold median_deviation. replace (zlen ms =? 2 * k + 1) with true by lia. exact S4. }
  intros Hid. assert (P' : Permutation ms (tab lo hi g)) by (rewrite !(map_ext key (fun x => x) Hid), !map_id in P; exact P).
  split.
  - eapply middle_perm; [exact P'|]. apply (sorted_middle good); [apply RL|assumption|assumption|lia|lia].
  - eapply middle_perm; [apply Permutation_map; exact P'|]. eapply middle_perm; [exact S3|]. apply (sorted_middle good'); [assumption|assumption|assumption|lia|].
    apply Permutation_length in S3. rewrite map_length in S3. unfold zlen in *. lia.
Qed.

(** ** hf *)
Definition v_hf (k : Z) (t : T) : verdict :=
  if k <? 1 then Reject else if t .< #0 then Reject else if INT_MAX <? 2 * k + 1 then Outside else Accept (2 * k).
Definition o_hf : optspec := fun opts v => exists o k t, opts = [o; t] /\ to_int o = Some k /\ v = v_hf k t.
Lemma hf_sim {IL : IntLaws A} : sim 1 1 o_hf (good_inputs good 1) ti_hf_start ti_hf ti_hf_stream_new hf_loops.
Proof.
  intros options v (o & k & t & -> & Ho & ->). unfold ti_hf, ti_hf_stream_new, ti_hf_start, v_hf. ranges. unfold cast. rewrite Ho. cbn [bind].
  destruct (k <? 1) eqn:E1; [reject_tac2|]. destruct (t .< #0) eqn:E2; [reject_tac2|]. destruct (INT_MAX <? 2 * k + 1) eqn:E3; [exact I|].
  rewrite !ck_ok by zl. cbn [bind]. destruct (ring_new_ok (2 * k + 1) ltac:(lia)) as (rp & -> & Hrp). cbn [bind]. accept_tac.
  match goal with HG : good_inputs _ _ _ |- _ => inversion_clear HG end.
  match goal with HG : Forall good x |- _ => pose proof (Forall_zf good _ HG) as GX end.
  loops_tac (fun (i : Z) (a : list T) (b : ring * list T) => a = snd b /\ ranks good key a (tab (Z.max 0 (i - 2 * k)) i (zf x)) /\ hist (fst b) (2 * k + 1) (zp x) i).
  - split; [reflexivity|]. split; [rewrite tab_nil by lia; exact (ranks_nil good key)|]. apply hist_of_ok; [exact Hrp|intros; apply zp_neg; lia].
  - subst. replace (0 - - (2 * k)) with (2 * k) by lia. rewrite !rd_zf by lia. cbn [bind].
    match goal with W : ranks _ _ ?ms _ |- _ => destruct (ranks_in good key RL (zf x) (Z.max 0 (i - 2 * k)) i ms ltac:(lia) (GX i ltac:(lia)) W) as (ms' & Es & W') end.
    match goal with HH : hist ?r _ (zp x) i |- _ => destruct (hist_set r (2 * k + 1) (zp x) i (zf x i) HH) as (r' & Er & F); [rewrite zp_pos by lia; reflexivity|] end.
    rewrite !Er. cbn [bind]. rewrite !Es. cbn [bind]. destruct (i <? 2 * k) eqn:E4.
    + cbn [wp]. emit; [|apply hist_step; assumption]. replace (Z.max 0 (i + 1 - 2 * k)) with (Z.max 0 (i - 2 * k)) by lia. assumption.
    + destruct (mad_ok k ms' (zf x) (Z.max 0 (i - 2 * k)) (i + 1) ltac:(lia) ltac:(lia) W') as (m & d & Em & Ed & _).
      unfold hf_out. rewrite Em. cbn [bind]. rewrite Ed. cbn [bind]. rewrite (full_get _ _ _ _ _ F) by lia. rewrite zp_pos by lia. cbn [bind].
      replace (Z.max 0 (i - 2 * k)) with (i - 2 * k) in * by lia.
      destruct (ranks_out good key RL (zf x) (i - 2 * k) (i + 1) ms' ltac:(lia) (GX (i - 2 * k) ltac:(lia)) W') as (m2 & E5 & W2). rewrite !E5. cbn [bind wp]. rewrite rd_zf by lia. cbn [bind]. rewrite E5. cbn [bind wp].
      emit; [|apply hist_step; assumption]. replace (Z.max 0 (i + 1 - 2 * k)) with (i - 2 * k + 1) by lia. assumption.
Qed.

(** ** hfsma *)
(** The running sum before bar i, and the smoothed value at bar i. *)
Definition hs_sum (p : Z) (x : list T) (i : Z) : T :=
  trec (fun j s => let s := s .+ zf x j in if j <? p - 1 then s else s .- zf x (j - p + 1)) 0 i #0.
Definition hs_at (p : Z) (x : list T) (i : Z) : T := (hs_sum p x i .+ zf x i) ./ #p.
Definition good_sma (p : Z) : list (list T) -> Prop := fun inputs =>
  match inputs with [x] => forall i, p - 1 <= i < zlen x -> good (hs_at p x i) | _ => False end.
Definition v_hfsma (p k : Z) (t : T) : verdict :=
  if p <? 1 then Reject else if k <? 1 then Reject else if t .< #0 then Reject else
  if (INT_MAX <? 2 * k + 1) || (INT_MAX <? p - 1 + 2 * k) then Outside else Accept (p - 1 + 2 * k).
(** sma_period [p]; [long] tells whether it may exceed 2k+1. *)
Definition o_hfsma (p : Z) (long : bool) : optspec := fun opts v => exists o o' k t, opts = [o; o'; t] /\ to_int o = Some p /\ to_int o' = Some k /\
  v = if long || (p <=? 2 * k + 1) then v_hfsma p k t else Outside.
Definition hs_g (p : Z) (x : list T) (j : Z) : T := if j <? p - 1 then #0 else hs_at p x j.
Lemma hs_sum_snoc p x i : 0 <= i -> hs_sum p x (i + 1) = if i <? p - 1 then hs_sum p x i .+ zf x i else hs_sum p x i .+ zf x i .- zf x (i - p + 1).
Proof. intros H. unfold hs_sum at 1. rewrite trec_snoc by lia. reflexivity. Qed.
Lemma hfsma_sim {IL : IntLaws A} p : sim 1 1 (o_hfsma p false) (good_sma p) ti_hfsma_start ti_hfsma ti_hfsma_stream_new hfsma_loops.
Proof.
  intros options v (o & o' & k & t & -> & Ho & Ho' & ->). cbn [orb]. unfold ti_hfsma, ti_hfsma_stream_new, ti_hfsma_start, v_hfsma. ranges. unfold cast. rewrite Ho, Ho'. cbn [bind].
  destruct (p <=? 2 * k + 1) eqn:E0; [|exact I].
  destruct (p <? 1) eqn:E1; [reject_tac2|]. destruct (k <? 1) eqn:E2; [reject_tac2|]. destruct (t .< #0) eqn:E3; [reject_tac2|]. destruct (orb _ _) eqn:E4; [exact I|].
  rewrite !ck_ok by zl. cbn [bind]. rewrite !ck_ok by zl. cbn [bind]. destruct (ring_new_ok (2 * k + 1) ltac:(lia)) as (rp & -> & Hrp). cbn [bind]. accept_tac.
  match goal with HG : good_sma _ _ |- _ => cbn in HG; rename HG into GX end.
  loops_tac (fun (i : Z) (a : T * list T * ring) (b : T * list T * ring * ring) => let '(sum, ms, sm) := a in let '(sum', ms', pr, sm') := b in
    sum = sum' /\ ms = ms' /\ sm = sm' /\ sum = hs_sum p x i /\ ranks good key ms (tab (Z.max (p - 1) (i - 2 * k)) i (hs_g p x)) /\ hist pr (2 * k + 1) (zp x) i /\
    (i <= p - 1 -> ring_ok sm (2 * k + 1) (fun _ => #0)) /\ (p - 1 <= i -> hist sm (2 * k + 1) (hs_g p x) i)).
  - split; [reflexivity|]. split; [reflexivity|]. split; [reflexivity|]. split; [reflexivity|]. split; [rewrite tab_nil by lia; exact (ranks_nil good key)|].
    split; [apply hist_of_ok; [exact Hrp|intros; apply zp_neg; lia]|]. split; [intros _; exact Hrp|]. intros Hp. apply hist_fresh; [exact Hrp|].
    intros j Hj. unfold hs_g. replace (j <? p - 1) with true by lia. reflexivity.
  - subst. replace (- (2 * k) - - (p - 1 + 2 * k)) with (p - 1) by lia. replace (0 - - (p - 1 + 2 * k)) with (p - 1 + 2 * k) by lia.
    match goal with HH : hist ?r _ (zp x) i |- _ => destruct (hist_set r (2 * k + 1) (zp x) i (zf x i) HH) as (r' & Er & F); [rewrite zp_pos by lia; reflexivity|] end.
    rewrite !rd_zf by lia. cbn [bind]. rewrite !Er. cbn [bind].
    destruct (i <? p - 1) eqn:E5.
    + cbn [wp]. emit.
      * rewrite hs_sum_snoc by lia. rewrite E5. reflexivity.
      * rewrite tab_nil by lia. match goal with W : ranks _ _ _ _ |- _ => rewrite tab_nil in W by lia; exact W end.
      * apply hist_step; assumption.
      * apply ring_step_fresh. auto with zarith.
      * apply hist_fresh; [apply ring_step_fresh; auto with zarith|]. intros j Hj. unfold hs_g. replace (j <? p - 1) with true by lia. reflexivity.
    + replace ((hs_sum p x i .+ zf x i) ./ #p) with (hs_g p x i) by (unfold hs_g; rewrite E5; reflexivity).
      assert (GG : good (hs_g p x i)) by (unfold hs_g; rewrite E5; apply GX; lia).
      match goal with W : ranks _ _ ?ms _ |- _ => destruct (ranks_in good key RL (hs_g p x) (Z.max (p - 1) (i - 2 * k)) i ms ltac:(lia) GG W) as (ms' & Es & W') end.
      match goal with HH : p - 1 <= i -> hist ?r _ (hs_g p x) i |- _ => destruct (hist_set r (2 * k + 1) (hs_g p x) i _ (HH ltac:(lia)) eq_refl) as (s' & E6 & F2) end.
      rewrite !Es. cbn [bind]. rewrite !E6. cbn [bind]. rewrite ?Es. cbn [bind]. rewrite (full_get _ _ _ _ _ F) by lia. rewrite zp_pos by lia. rewrite rd_zf by lia. cbn [bind].
      destruct (i <? p - 1 + 2 * k) eqn:E7.
      * cbn [wp]. replace (i - (p - 1)) with (i - p + 1) by lia. emit.
        -- rewrite hs_sum_snoc by lia. rewrite E5. reflexivity.
        -- replace (Z.max (p - 1) (i + 1 - 2 * k)) with (Z.max (p - 1) (i - 2 * k)) by lia. assumption.
        -- apply hist_step; assumption.
        -- apply hist_step; assumption.
      * destruct (mad_ok k ms' (hs_g p x) (Z.max (p - 1) (i - 2 * k)) (i + 1) ltac:(lia) ltac:(lia) W') as (m & d & Em & Ed & _).
        unfold hfs_out. rewrite !Em. cbn [bind]. rewrite !Ed. cbn [bind]. rewrite !(full_get _ _ _ _ _ F2) by lia. cbn [bind].
        rewrite ?rd_zf by lia. cbn [bind].
        replace (Z.max (p - 1) (i - 2 * k)) with (i - 2 * k) in * by lia.
        assert (G2 : good (hs_g p x (i - 2 * k))) by (unfold hs_g; replace (i - 2 * k <? p - 1) with false by lia; apply GX; lia).
        destruct (ranks_out good key RL (hs_g p x) (i - 2 * k) (i + 1) ms' ltac:(lia) G2 W') as (m2 & E8 & W2). rewrite !E8. cbn [bind wp].
        replace (i - (p - 1)) with (i - p + 1) by lia. emit.
        -- rewrite hs_sum_snoc by lia. rewrite E5. reflexivity.
        -- replace (Z.max (p - 1) (i + 1 - 2 * k)) with (i - 2 * k + 1) by lia. assumption.
        -- apply hist_step; assumption.
        -- apply hist_step; assumption.
Qed.

(** ** hfema *)
Definition he_at (p : Z) (x : list T) (i : Z) : T :=
  trec (fun j e => (zf x j .- e) .* #2 ./ (#1 .+ #p) .+ e) 1 (i + 1) (zf x 0).
Definition good_ema (p : Z) : list (list T) -> Prop := fun inputs =>
  match inputs with [x] => forall i, 0 <= i < zlen x -> good (he_at p x i) | _ => False end.
Definition v_hfema (p k : Z) (t : T) : verdict :=
  if p <? 1 then Reject else if k <? 1 then Reject else if t .< #0 then Reject else
  if INT_MAX <? 2 * k + 1 then Outside else Accept (2 * k).
Definition o_hfema (p : Z) : optspec := fun opts v => exists o o' k t, opts = [o; o'; t] /\ to_int o = Some p /\ to_int o' = Some k /\ v = v_hfema p k t.
Definition he_g (p : Z) (x : list T) (j : Z) : T := if j <? 0 then #0 else he_at p x j.
Lemma he_at_0 p x : he_at p x 0 = zf x 0. Proof. unfold he_at. rewrite trec_nil by lia. reflexivity. Qed.
Lemma he_at_S p x i : 1 <= i -> he_at p x i = (zf x i .- he_at p x (i - 1)) .* #2 ./ (#1 .+ #p) .+ he_at p x (i - 1).
Proof. intros H. unfold he_at at 1. rewrite trec_snoc by lia. unfold he_at. replace (i - 1 + 1) with i by lia. reflexivity. Qed.
Lemma hfema_sim {IL : IntLaws A} p : sim 1 1 (o_hfema p) (good_ema p) ti_hfema_start ti_hfema ti_hfema_stream_new hfema_loops.
Proof.
  intros options v (o & o' & k & t & -> & Ho & Ho' & ->). unfold ti_hfema, ti_hfema_stream_new, ti_hfema_start, v_hfema. ranges. unfold cast. rewrite Ho, Ho'. cbn [bind].
  destruct (p <? 1) eqn:E1; [reject_tac2|]. destruct (k <? 1) eqn:E2; [reject_tac2|]. destruct (t .< #0) eqn:E3; [reject_tac2|]. destruct (INT_MAX <? 2 * k + 1) eqn:E4; [exact I|].
  rewrite !ck_ok by zl. cbn [bind]. destruct (ring_new_ok (2 * k + 1) ltac:(lia)) as (rp & -> & Hrp). cbn [bind]. accept_tac.
  match goal with HG : good_ema _ _ |- _ => cbn in HG; rename HG into GX end.
  loops_tac (fun (i : Z) (a : option T * list T * ring) (b : T * list T * ring) => let '(ema, ms, sm) := a in let '(ema', ms', sm') := b in
    (1 <= i -> ema = Some (he_at p x (i - 1)) /\ ema' = he_at p x (i - 1)) /\ ms = ms' /\ sm = sm' /\
    ranks good key ms (tab (Z.max 0 (i - 2 * k)) i (he_g p x)) /\ hist sm (2 * k + 1) (he_g p x) i).
  - split; [lia|]. split; [reflexivity|]. split; [reflexivity|]. split; [rewrite tab_nil by lia; exact (ranks_nil good key)|].
    apply hist_of_ok; [exact Hrp|intros; unfold he_g; replace (_ <? 0) with true by lia; reflexivity].
  - subst. replace (- (2 * k) + 1 - - (2 * k)) with 1 by lia. replace (0 - - (2 * k)) with (2 * k) by lia.
    assert (GG : good (he_g p x i)) by (unfold he_g; replace (i <? 0) with false by lia; apply GX; lia).
    match goal with W : ranks _ _ ?ms _ |- _ => destruct (ranks_in good key RL (he_g p x) (Z.max 0 (i - 2 * k)) i ms ltac:(lia) GG W) as (ms' & Es & W') end.
    match goal with HH : hist ?r _ (he_g p x) i |- _ => destruct (hist_set r (2 * k + 1) (he_g p x) i _ HH eq_refl) as (s' & E6 & F) end.
    assert (Eg : he_g p x i = he_at p x i) by (unfold he_g; replace (i <? 0) with false by lia; reflexivity).
    rewrite !rd_zf by lia. cbn [bind].
    destruct (i <? 1) eqn:E5.
    + assert (i = 0) by lia. subst i. replace (zf x 0) with (he_g p x 0) by (rewrite Eg; apply he_at_0).
      rewrite !E6. cbn [bind]. rewrite (full_cur _ _ _ _ F). cbn [bind]. rewrite !Es. cbn [bind wp]. emit.
      * replace (Z.max 0 (0 + 1 - 2 * k)) with (Z.max 0 (0 - 2 * k)) by lia. assumption.
      * apply hist_step; assumption.
    + match goal with HH : 1 <= i -> _ /\ _ |- _ => destruct (HH ltac:(lia)) as [-> ->] end. unfold val. cbn [bind].
      rewrite (fadd_comm (#p) #1). rewrite <- (he_at_S p x i) by lia. rewrite <- Eg. rewrite !E6. cbn [bind]. rewrite (full_cur _ _ _ _ F). cbn [bind]. rewrite !Es. cbn [bind].
      destruct (i <? 2 * k) eqn:E7.
      * cbn [wp]. emit.
        -- replace (i + 1 - 1) with i by lia. rewrite Eg. split; reflexivity.
        -- replace (Z.max 0 (i + 1 - 2 * k)) with (Z.max 0 (i - 2 * k)) by lia. assumption.
        -- apply hist_step; assumption.
      * destruct (mad_ok k ms' (he_g p x) (Z.max 0 (i - 2 * k)) (i + 1) ltac:(lia) ltac:(lia) W') as (m & d & Em & Ed & _).
        unfold hfs_out. rewrite !Em. cbn [bind]. rewrite !Ed. cbn [bind]. rewrite !(full_get _ _ _ _ _ F) by lia. cbn [bind].
        replace (Z.max 0 (i - 2 * k)) with (i - 2 * k) in * by lia.
        assert (G2 : good (he_g p x (i - 2 * k))) by (unfold he_g; replace (i - 2 * k <? 0) with false by lia; apply GX; lia).
        destruct (ranks_out good key RL (he_g p x) (i - 2 * k) (i + 1) ms' ltac:(lia) G2 W') as (m2 & E8 & W2). rewrite !E8. cbn [bind wp]. emit.
        -- replace (i + 1 - 1) with i by lia. rewrite Eg. split; reflexivity.
        -- replace (Z.max 0 (i + 1 - 2 * k)) with (i - 2 * k + 1) by lia. assumption.
        -- apply hist_step; assumption.
Qed.
End Q.

Lemma rmf_online {A : Arith} : online 1 rmf_loops. Proof. online_tac @rmf_loops. Qed.
Lemma hf_online {A : Arith} : online 1 hf_loops. Proof. online_tac @hf_loops. Qed.
Lemma hfsma_online {A : Arith} : online 1 hfsma_loops. Proof. online_tac @hfsma_loops. Qed.
Lemma hfema_online {A : Arith} : online 1 hfema_loops. Proof. online_tac @hfema_loops. Qed.

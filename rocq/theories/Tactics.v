(** Proof automation shared by the proof files. *)
From Verif Require Export Spec.
From Coq Require Export ZifyBool ZifyNat.
From Verif Require RArith.

Lemma wp_out {A : Arith} nout (st size : Z) (m : res (code * list (list T))) :
  wp m (fun r => fst r = OKAY /\ length (snd r) = nout /\
                 Forall (fun o => zlen o = Z.max 0 (size - st)) (snd r)) ->
  exists outs, m = Ok (OKAY, outs) /\ length outs = nout /\
                 Forall (fun o => zlen o = Z.max 0 (size - st)) outs.
Proof.
  intros H. apply wp_ex in H. destruct H as ([c outs] & E & H1 & H2 & H3).
  cbn in *. subst c. exists outs. auto.
Qed.

Lemma prefix_refl {B} (l : list B) : prefix_of l l.
Proof. exists []. symmetry. apply app_nil_r. Qed.

Lemma Forall_inv_cons {B} (P : B -> Prop) x l : Forall P (x :: l) -> P x /\ Forall P l.
Proof. intros H; inversion H; auto. Qed.
Lemma Forall2_inv_cons {B C} (P : B -> C -> Prop) x l m :
  Forall2 P (x :: l) m -> exists y m', m = y :: m' /\ P x y /\ Forall2 P l m'.
Proof. intros H; inversion H; subst; eauto. Qed.
Lemma Forall2_inv_nil {B C} (P : B -> C -> Prop) m : Forall2 P [] m -> m = [].
Proof. intros H; inversion H; auto. Qed.

(** Break lists of known length into their elements. *)
Ltac lists :=
  repeat match goal with
  | H : length ?l = 0%nat |- _ => is_var l; destruct l; [clear H|discriminate H]
  | H : length ?l = S _ |- _ => is_var l; let x := fresh "x" in let t := fresh "t" in
      destruct l as [|x t]; [discriminate H|cbn [length] in H; apply Nat.succ_inj in H]
  | H : Forall _ (_ :: _) |- _ =>
      let H1 := fresh "Hl" in apply Forall_inv_cons in H; destruct H as [H1 H]
  | H : Forall _ [] |- _ => clear H
  | H : Forall2 _ (_ :: _) _ |- _ =>
      let p := fresh "p" in let t := fresh "t" in let H1 := fresh "Hp" in
      apply Forall2_inv_cons in H; destruct H as (p & t & -> & H1 & H)
  | H : Forall2 _ [] _ |- _ => apply Forall2_inv_nil in H; match type of H with ?m = _ => subst m end
  end.

(** Open a [contract] goal with integer options. *)
Ltac open_int_contract :=
  let size := fresh "size" in let inputs := fresh "inputs" in
  let options := fresh "options" in let v := fresh "v" in
  intros size inputs options v (? & ? & Hmax) (? & ? & ? & ->); lists.

Lemma wp_pair_let {X Y Z0} (p : X * Y) (k : X -> Y -> res Z0) Q :
  wp (k (fst p) (snd p)) Q -> wp (let (a, b) := p in k a b) Q.
Proof. destruct p; exact (fun H => H). Qed.

(** [lia] with lengths normalised. *)
Ltac zlen_norm := rewrite ?zlen_snoc, ?zlen_app, ?zlen_cons, ?zlen_nil, ?zlen_map, ?zlen_tab in *.
Ltac zl := first [lia | zlen_norm; lia | zlen_norm; unfold INT_MIN, INT_MAX, BIG in *; lia
  | change (@T RArith.RA) with Rdefinitions.RbaseSymbolsImpl.R in *; zlen_norm; unfold INT_MIN, INT_MAX, BIG in *; lia].

Ltac getcast :=
  match goal with
  | H : to_int ?x = Some ?n |- context[cast ?x] =>
      replace (cast x) with (Ok n) by (unfold cast; rewrite H; reflexivity)
  end.

(** One step of symbolic execution. *)
Ltac wp1 :=
  cbn beta iota;
  match goal with
  | |- wp (bind _ _) _ => apply wp_bind
  | |- wp (Ok _) _ => apply wp_ret
  | |- wp (cast _) _ => eapply wp_cast; [eassumption|]
  | |- wp (ck _) _ => apply wp_ck; [try solve [zl]|]
  | |- wp (rd _ _) _ => apply wp_rdf; [try solve [zl]|]
  | |- wp (check _ _) _ => apply wp_check; [try solve [zl]|]
  | |- wp (if ?b then _ else _) _ => let E := fresh "E" in destruct b eqn:E
  | |- wp (let (_, _) := ?p in _) _ => let a := fresh "a" in let b := fresh "b" in destruct p as [a b]
  | |- forall _, _ => intro
  | H : context[let (_, _) := ?p in _] |- _ => is_var p; let a := fresh "a" in let b := fresh "b" in destruct p as [a b]; cbn beta iota in H
  end.
Ltac wps := repeat wp1; cbn beta iota.

(** Loop with invariant [I]. *)
Tactic Notation "loop" uconstr(J) :=
  wps; apply (wp_for J).

(** Bring the int range of every cast option into the context. *)
Ltac ranges :=
  repeat match goal with
  | H : to_int ?x = Some ?n |- _ =>
      lazymatch goal with
      | _ : INT_MIN <= n <= INT_MAX |- _ => fail
      | _ => pose proof (to_int_range x n H)
      end
  end.

Ltac head t := match t with ?g _ => head g | _ => t end.
(** Unfold the function applied on the left-hand side. *)
Ltac unfold_lhs := match goal with |- ?l = _ => let h := head l in unfold h end.
(** Unfold the function under [wp]. *)
Ltac unfold_wp := match goal with |- wp ?l _ => let h := head l in unfold h end.

(** Close the "rejected" half of a contract. *)
Ltac reject_tac :=
  unfold_lhs; repeat (getcast; cbn [bind]);
  repeat match goal with
  | |- context[if ?b then _ else _] => let E := fresh "E" in destruct b eqn:E; try reflexivity; try (exfalso; zl)
  end.

(** Close the "start" half of a contract. *)
Ltac start_tac := unfold_lhs; repeat (getcast; cbn [bind]); try reflexivity;
  repeat (rewrite ck_ok by zl; cbn [bind]); try reflexivity; try (f_equal; zl).

(** Final length obligations. *)
Ltac fin := cbn [fst snd length] in *;
  repeat match goal with |- _ /\ _ => split end; try reflexivity; repeat (apply Forall_cons || apply Forall_nil); try solve [zl].

(** Contradictory branches. *)
Ltac contra := try discriminate; try (exfalso; solve [zl]).

(** Loops whose state does not matter for safety. *)
Ltac loop_any := loop (fun _ _ => True); [try solve [zl]|exact I|wps; try exact I|intros ? _].
(** Loops writing one value per iteration: [zlen out = i - c] where the output list is the
    whole state, or its last component. *)
Tactic Notation "loop_out" constr(c) :=
  loop (fun i out => zlen out = i - c); [try solve [zl]|try solve [cbn; zl]|wps; fin|intros ? ?].
Tactic Notation "loop_len" constr(c) :=
  loop (fun i s => zlen (snd s) = i - c); [try solve [zl]|try solve [cbn; zl]|wps; fin|intros ? ?].

(** Case analysis on every condition in the goal. *)
Ltac ifs := repeat match goal with |- context[if ?b then _ else _] => let E := fresh "E" in destruct b eqn:E end.

Ltac okay := wps; contra; fin.

(** ** Functional proofs *)
Lemma wp_eq {B} (m : res B) v : wp m (fun r => r = v) -> m = Ok v.
Proof. destruct m; cbn; [intros ->; reflexivity|tauto]. Qed.

(** Extending a table by its next entry. *)
Lemma tab_next {B} (out : list B) n F v : 0 <= n -> out = tab 0 n F -> v = F n -> out ++ [v] = tab 0 (n + 1) F.
Proof. intros H -> ->. rewrite tab_snoc by lia. reflexivity. Qed.
Lemma tab_next' {B} (out : list B) n m F v :
  0 <= n -> m = n + 1 -> out = tab 0 n F -> v = F n -> out ++ [v] = tab 0 m F.
Proof. intros H ->. apply tab_next; exact H. Qed.
Lemma tab_one {B} m (F : Z -> B) v : m = 1 -> v = F 0 -> [v] = tab 0 m F.
Proof. intros -> ->. reflexivity. Qed.
Lemma okl {X Y} (c : X) (a b : Y) : a = b -> Ok (c, a) = Ok (c, b).
Proof. congruence. Qed.
Lemma consl {X} (x y : X) l m : x = y -> l = m -> x :: l = y :: m.
Proof. congruence. Qed.

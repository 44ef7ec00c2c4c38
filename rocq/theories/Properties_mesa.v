(** C51: what mesastoch computes, on exact numbers with infinities ([XR], needed because the search for the
    highest and lowest filtered price starts at the infinities).
    Reading guide: [mesastoch_at m n x h f s r i] (SpecR7.v) is the equation of bar [i] for a cycle of [m]
    bars and a window of [n] bars; [tends] is that of SpecR5.v; [tab lo hi f] lists f lo .. f (hi-1). *)
From Coq Require Import Reals Lra.
From Verif Require Import Fun_mesaR Fun_ref2 Fun_cycle XArith RArith Properties_basic Properties_value Properties_value2 Properties_ref Properties_ref4.
Open Scope Z_scope.

(** The equations have a solution, for every price series. *)
Theorem C51_solutions : forall m n x, 1 <= n -> exists h f s r, forall i, mesastoch_at m n x h f s r i.
Proof. exact mesastoch_exists. Qed.
Print Assumptions C51_solutions.
(** Every output is the [r] of the equations. *)
Theorem C51_mesastoch : forall size (x : list R) n m h f s r, zlen x = size -> 3 <= n -> n + 2 <= INT_MAX -> 1 <= m <= INT_MAX ->
  (forall i, mesastoch_at m n (zr x) h f s r i) ->
  @ti_mesastoch XR size [map Fin x] [Fin (IZR n); Fin (IZR m)] = Ok (OKAY, [tab (n + 2) size (fun i => Fin (r i))]).
Proof. exact mesastoch_R. Qed.
Print Assumptions C51_mesastoch.
(** The position in the window is in [0, 1]. *)
Theorem C51_position : forall m n x h f s r, 1 <= n -> (forall i, mesastoch_at m n x h f s r i) -> forall i, (0 <= s i <= 1)%R.
Proof. exact mesastoch_pos_range. Qed.
Print Assumptions C51_position.
(** A straight line of prices gives 0 at every bar. *)
Theorem C51_line : forall size (x : list R) n m a b, zlen x = size -> 3 <= n -> n + 2 <= INT_MAX -> 1 <= m <= INT_MAX ->
  (forall i, 0 <= i < size -> zr x i = (a + b * IZR i)%R) ->
  @ti_mesastoch XR size [map Fin x] [Fin (IZR n); Fin (IZR m)] = Ok (OKAY, [tab (n + 2) size (fun _ => Fin 0)]).
Proof. exact mesastoch_line_out. Qed.
Print Assumptions C51_line.
(** If the position settles, the output settles at the same value. *)
Theorem C51_follow : forall m n x h f s r v, (forall i, mesastoch_at m n x h f s r i) -> tends s v -> tends r v.
Proof. exact mesastoch_follow. Qed.
Print Assumptions C51_follow.
(** For cycles of two bars and more the filters remove a trend: if the prices approach a straight line the
    filtered prices approach 0. *)
Theorem C51_filters : forall m n x h f s r a b, 2 <= m -> (forall i, mesastoch_at m n x h f s r i) -> tends (fun i => x i - (a + b * IZR i))%R 0 -> tends h 0 /\ tends f 0.
Proof. exact mesastoch_filters. Qed.
Print Assumptions C51_filters.
(** For a cycle of one bar, which the option check accepts, they do not: after one price of 1 among zeros the
    filtered prices pass every bound. *)
Theorem C51_one_bar_cycle_refuted : forall n x h f s r, (forall i, mesastoch_at 1 n x h f s r i) -> (forall i, x i = if i =? 2 then 1%R else 0%R) -> forall M, exists i, 0 <= i /\ (M < Rabs (h i))%R.
Proof. exact mesastoch_unstable. Qed.
Print Assumptions C51_one_bar_cycle_refuted.

(** ** Cases *)
Lemma stoch_gain_pos : (0 < stoch_gain)%R.
Proof.
  unfold stoch_gain, stoch_b. pose proof stoch_a_lt as H. pose proof (exp_pos (- (1414 / 1000) * (3141459 / 1000000) / 10)) as P. fold stoch_a in P.
  pose proof (COS_bound stoch_t). nra.
Qed.
Lemma step_last m x : 2 <= m -> x = [0; 0; 0; 0; 0; 1]%R -> forall h f s r, (forall i, mesastoch_at m 3 (zr x) h f s r i) ->
  f 3 = 0%R /\ f 4 = 0%R /\ (0 < f 5%Z)%R /\ r 5 = (stoch_gain / 2)%R.
Proof.
  intros Hm -> h f s r H.
  assert (K : (0 < (1 - stoch_alpha m / 2) * (1 - stoch_alpha m / 2))%R) by (pose proof (stoch_beta m Hm) as B; apply Rabs_def2 in B; nra). set (k := ((1 - stoch_alpha m / 2) * (1 - stoch_alpha m / 2))%R) in *.
  pose proof stoch_gain_pos as G.
  pose proof (H 0) as H0; pose proof (H 1) as H1; pose proof (H 2) as H2; pose proof (H 3) as H3; pose proof (H 4) as H4; specialize (H 5).
  unfold mesastoch_at in H0, H1, H2, H3, H4, H. fold k in H2, H3, H4, H. unfold stoch_smooth in H2, H3, H4, H. cbn -[stoch_alpha stoch_gain stoch_b stoch_a k IZR stoch_pos] in H0, H1, H2, H3, H4, H.
  destruct H0 as (A1 & A2 & A3 & A4), H1 as (B1 & B2 & B3 & B4), H2 as (C1 & C2 & C3 & C4), H3 as (D1 & D2 & D3 & D4), H4 as (E1 & E2 & E3 & E4), H as (F1 & F2 & F3 & F4).
  cbv [Pos.to_nat Pos.iter_op Nat.add] in C1, D1, E1, F1. assert (Y2 : h 2 = 0%R) by (rewrite C1, A1, B1; ring). assert (Y3 : h 3 = 0%R) by (rewrite D1, Y2, B1; ring). assert (Y4 : h 4 = 0%R) by (rewrite E1, Y2, Y3; ring). assert (Y5 : h 5 = k) by (rewrite F1, Y3, Y4; ring).
  assert (Z2 : f 2 = 0%R) by (rewrite C2, A2, B2, B1, Y2; field). assert (Z3 : f 3 = 0%R) by (rewrite D2, Y2, Y3, Z2, B2; field). assert (Z4 : f 4 = 0%R) by (rewrite E2, Y3, Y4, Z2, Z3; field).
  assert (Z5 : f 5 = (stoch_gain * k / 2)%R) by (rewrite F2, Y4, Y5, Z3, Z4; field).
  assert (P5 : (0 < f 5%Z)%R) by (rewrite Z5; nra). split; [exact Z3|]. split; [exact Z4|]. split; [exact P5|].
  assert (S5 : s 5 = 1%R).
  { rewrite F3. unfold stoch_pos.
    assert (T : trough f 3 5 = 0%R) by (symmetry; apply trough_unique; [lia| |exists 3; split; [lia|congruence]]; intros j Hj; assert (j = 3 \/ j = 4 \/ j = 5) as [-> |[-> | ->]] by lia; lra).
    assert (P : peak f 3 5 = f 5) by (symmetry; apply peak_unique; [lia| |exists 5; split; [lia|congruence]]; intros j Hj; assert (j = 3 \/ j = 4 \/ j = 5) as [-> |[-> | ->]] by lia; lra).
    rewrite T, P. destruct (Reqb_spec (f 5) 0); [lra|field; lra]. }
  rewrite F4, S5, E3, D4, E4. field.
Qed.
(** Only the last price is not 0: the position is 1. *)
Example C51_case : @ti_mesastoch XR 6 [map Fin [0; 0; 0; 0; 0; 1]%R] [Fin 3; Fin 10] = Ok (OKAY, [[Fin (stoch_gain / 2)]]) /\ (0 < stoch_gain)%R /\
  agree (A := XR) ti_mesastoch ti_mesastoch_ref 6 [map Fin [0; 0; 0; 0; 0; 1]%R] [Fin 3; Fin 10].
Proof.
  destruct (C51_solutions 10 3 (zr [0; 0; 0; 0; 0; 1]%R) ltac:(lia)) as (h & f & s & r & H).
  destruct (step_last 10 _ ltac:(lia) eq_refl h f s r H) as (F3 & F4 & F5 & R5). split; [|split; [exact stoch_gain_pos|]].
  - etransitivity; [apply (C51_mesastoch 6 [0; 0; 0; 0; 0; 1]%R 3 10 h f s r); try assumption; try reflexivity; zl|]. rewrite (tab_ext (3 + 2) 6 (fun i => Fin (r i)) (fun _ => Fin (stoch_gain / 2))); [reflexivity|]. intros i Hi. assert (i = 5) as -> by lia. rewrite R5. reflexivity.
  - apply (C36_mesastoch 6 [0; 0; 0; 0; 0; 1]%R 3 10 h f s r); try assumption; try reflexivity; try zl. intros i Hi. assert (i = 5) as -> by lia. exists 4. split; [lia|lra].
Qed.
Example C51_line_case : @ti_mesastoch XR 7 [map Fin [3; 5; 7; 9; 11; 13; 15]%R] [Fin 3; Fin 10] = Ok (OKAY, [[Fin 0; Fin 0]]).
Proof. apply (C51_line 7 _ 3 10 3 2); try reflexivity; try zl. intros i Hi. assert (i = 0 \/ i = 1 \/ i = 2 \/ i = 3 \/ i = 4 \/ i = 5 \/ i = 6) as E by lia. repeat (destruct E as [-> |E]; [nums; lra|]). subst. nums. lra. Qed.
(** A price that settles: the line a = 5, b = 0. *)
Example C51_filters_case : exists h f s r, (forall i, mesastoch_at 10 3 (fun i => if i <? 3 then 7 else 5)%R h f s r i) /\ tends h 0 /\ tends f 0.
Proof.
  destruct (C51_solutions 10 3 (fun i => if i <? 3 then 7 else 5)%R ltac:(lia)) as (h & f & s & r & H). exists h, f, s, r. split; [exact H|].
  apply (C51_filters 10 3 _ h f s r 5 0 ltac:(lia) H). intros e He. exists 3. intros i Hi. cbv beta. replace (i <? 3) with false by lia. replace (5 - (5 + 0 * IZR i) - 0)%R with 0%R by ring. rewrite Rabs_R0. exact He.
Qed.
(** A blip after a line: the one-bar cycle. *)
Example C51_one_bar_case : exists h f s r, (forall i, mesastoch_at 1 3 (fun i => if i =? 2 then 1 else 0)%R h f s r i) /\ forall M, exists i, 0 <= i /\ (M < Rabs (h i))%R.
Proof.
  destruct (C51_solutions 1 3 (fun i => if i =? 2 then 1 else 0)%R ltac:(lia)) as (h & f & s & r & H). exists h, f, s, r. split; [exact H|].
  apply (C51_one_bar_cycle_refuted 3 _ h f s r H). reflexivity.
Qed.

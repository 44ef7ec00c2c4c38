(** What hd, mama and arsi compute, in exact real arithmetic. *)
From Verif Require Export Fun_last C_stream7R Settle.
From Coq Require Import Reals Lra.
Open Scope Z_scope.

Section R.
Local Existing Instance RA.

(** Offset k of the ring is the value of k bars ago. *)
Definition kept (f : Z -> R) (M i : Z) (r : ring) : Prop := exists h, ring_ok r M h /\ forall k, 1 <= k < M -> h k = f (i - k).
Lemma kept_set f M i r v : 1 < M -> kept f M i r -> v = f i ->
  exists r', @ring_set RA r v = Ok r' /\ @ring_cur RA r' = Ok (f i) /\ (forall k, 0 <= k < M -> @ring_get RA r' k = Ok (f (i - k))) /\ kept f M (i + 1) (ring_step r').
Proof.
  intros HM (h & Hr & E) ->. destruct (ring_set_ok r M h (f i) Hr) as (r' & E1 & Hr'). exists r'. split; [exact E1|]. split; [|split].
  - rewrite (ring_cur_ok r' M _ Hr'). reflexivity.
  - intros k Hk. rewrite (ring_get_ok r' M _ k Hr') by lia. destruct (k =? 0) eqn:Ek; [do 2 f_equal; lia|rewrite E by lia; reflexivity].
  - eexists. split; [apply ring_step_ok; exact Hr'|]. intros k Hk. cbn beta. replace (k =? 0) with false by lia. destruct (k - 1 =? 0) eqn:Ek.
    + f_equal. lia.
    + rewrite E by lia. f_equal. lia.
Qed.
Lemma kept_new f M i : 0 < M -> (forall k, 1 <= k < M -> f (i - k) = 0%R) -> exists r, @ring_new RA M = Ok r /\ kept f M i r.
Proof. intros H H0. destruct (@ring_new_ok RA M H) as (r & E & Hr). exists r. split; [exact E|]. eexists. split; [exact Hr|]. intros k Hk. cbn beta. rewrite H0 by lia. reflexivity. Qed.
Definition kept2 (f : Z -> R) (i : Z) (r : ring2) : Prop := r = {| ra1 := f (i - 2); ra2 := f (i - 1) |}.
Lemma kept2_step f i r : ra1 r = f i -> ra2 r = f (i - 1) -> kept2 f (i + 1) (@ring2_step RA r).
Proof. intros H1 H2. unfold kept2, ring2_step. rewrite H1, H2. do 2 f_equal; lia. Qed.

Record disc_has (c : cycle) (i : Z) (d : @M_stream7.disc RA) : Prop := {
  h_smooth : kept (c_smooth c) 7 i (d_Smooth d); h_detrend : kept (c_detrend c) 7 i (d_Detrender d);
  h_I1 : kept (c_I1 c) 7 i (d_I1 d); h_Q1 : kept (c_Q1 c) 7 i (d_Q1 d);
  h_I2 : kept2 (c_I2 c) i (d_I2 d); h_Q2 : kept2 (c_Q2 c) i (d_Q2 d); h_Re : kept2 (c_Re c) i (d_Re d); h_Im : kept2 (c_Im c) i (d_Im d);
  h_period : kept2 (c_period c) i (d_Period d); h_avg : kept2 (c_avg c) i (d_SmoothPeriod d) }.

Lemma clampd_R raw last : @disc_clamp RA raw last = (2 / 10 * within raw last + 8 / 10 * last)%R.
Proof.
  unfold disc_clamp, within. toR. change (IZR (10 ^ 1)) with 10%R. change (IZR (10 ^ 2)) with 100%R. f_equal. f_equal.
  unfold Rmin, Rmax. repeat match goal with |- context[Rltb ?a ?b] => lazymatch constr:((a, b)) with context[Rltb _ _] => fail | _ => destruct (Rltb_spec a b) end end;
    repeat match goal with |- context[Rle_dec ?a ?b] => lazymatch constr:((a, b)) with context[Rle_dec _ _] => fail | _ => destruct (Rle_dec a b) end end; lra.
Qed.
Lemma hilbert_R f i last r : (forall k, 0 <= k < 7 -> @ring_get RA r k = Ok (f (i - k))) -> @ring_cur RA r = Ok (f i) -> @hd_hilbert RA r last = Ok (hilbert last f i).
Proof. intros H H0. unfold hd_hilbert. rewrite H0, !H by lia. reflexivity. Qed.

Ltac foldc C := lazymatch type of C with ?v = ?e => let e' := fresh in
  lazymatch goal with |- context[@fadd RA ?a ?b] => idtac end;
  repeat match goal with |- context[@fadd RA ?a ?b] => let H := fresh in assert (H : @fadd RA a b = v) by (rewrite C; reflexivity); rewrite !H; clear H end end.

(** One bar of the discriminator. *)
Lemma disc_set_R circle first x c i d : first <= i -> cycle_at circle first x c i -> disc_has c i d ->
  exists u, @disc_set RA circle (@disc_smooth RA (x i) (x (i - 1)) (x (i - 2)) (x (i - 3))) d = Ok u /\ disc_has c (i + 1) (disc_step u) /\
    @ring_cur RA (d_I1 u) = Ok (c_I1 c i) /\ @ring_cur RA (d_Q1 u) = Ok (c_Q1 c i) /\ @ring2_cur RA (d_SmoothPeriod u) = c_avg c i.
Proof.
  intros Hf Hc [K1 K2 K3 K4 E1 E2 E3 E4 E5 E6]. unfold cycle_at in Hc. replace (i <? first) with false in Hc by lia. cbv zeta in Hc.
  destruct Hc as (C1 & C2 & C3 & C4 & C5 & C6 & C7 & C8 & C9 & C10).
  unfold disc_set. rewrite E1, E2, E3, E4, E5, E6. 
  destruct (kept_set _ 7 i _ (@disc_smooth RA (x i) (x (i - 1)) (x (i - 2)) (x (i - 3))) ltac:(lia) K1) as (a & -> & Ca & Ga & Ka); [rewrite C1; unfold disc_smooth; toR; reflexivity|].
  cbn [bind]. change (@ring2_get RA {| ra1 := ?u; ra2 := ?v |} 1) with (Ok v). cbn [bind]. rewrite (hilbert_R _ _ _ _ Ga Ca). cbn [bind].
  destruct (kept_set _ 7 i _ _ ltac:(lia) K2 (eq_sym C2)) as (b & -> & Cb & Gb & Kb). cbn [bind]. rewrite (hilbert_R _ _ _ _ Gb Cb). cbn [bind].
  destruct (kept_set _ 7 i _ _ ltac:(lia) K4 (eq_sym C3)) as (q & -> & Cq & Gq & Kq). cbn [bind]. rewrite Gb by lia. cbn [bind].
  destruct (kept_set _ 7 i _ _ ltac:(lia) K3 (eq_sym C4)) as (r & -> & Cr & Gr & Kr). cbn [bind]. rewrite (hilbert_R _ _ _ _ Gr Cr), (hilbert_R _ _ _ _ Gq Cq). cbn [bind].
  rewrite Cr, Cq. cbn [bind]. unfold ring2_set. cbn [ring2_get bind check ring2_cur ra1 ra2].
  foldc C5. foldc C6. foldc C7. foldc C8.
  lazymatch goal with |- context[@disc_clamp RA ?r ?l] => assert (F9 : @disc_clamp RA r l = c_period c i) end.
  { rewrite clampd_R, C9. do 3 f_equal. toR. destruct (Reqb (c_Im c i) 0), (Reqb (c_Re c i) 0); reflexivity. }
  rewrite F9. foldc C10.
  eexists. split; [reflexivity|]. split; [|split; [exact Cr|split; [exact Cq|reflexivity]]].
  unfold disc_step. constructor; cbn [d_Smooth d_Detrender d_I1 d_Q1 d_I2 d_Q2 d_Re d_Im d_Period d_SmoothPeriod]; try assumption; apply kept2_step; reflexivity.
Qed.

(** hd *)
Lemma hd_clamp_R raw last : (let p := @stdmin RA raw (@fmul RA (@lit RA 15 1) last) in let p := @stdmax RA p (@fmul RA (@lit RA 67 2) last) in
  let p := @stdmax RA p (@of_Z RA 6) in let p := @stdmin RA p (@of_Z RA 50) in @fadd RA (@fmul RA (@lit RA 2 1) p) (@fmul RA (@lit RA 8 1) last)) = (2 / 10 * within raw last + 8 / 10 * last)%R.
Proof. cbv zeta. rewrite !stdmin_R, !stdmax_R. reflexivity. Qed.
Lemma PI_R : @Arith.PI RA = PI.
Proof. unfold Arith.PI. cbn. replace (-1)%R with (- (1))%R by lra. rewrite acos_opp, acos_1. lra. Qed.
Definition disc_of (s : @hd_state RA) : @M_stream7.disc RA := {| d_Smooth := hd_Smooth s; d_Detrender := hd_Detrender s; d_I1 := hd_I1 s; d_Q1 := hd_Q1 s;
  d_I2 := hd_I2 s; d_Q2 := hd_Q2 s; d_Re := hd_Re s; d_Im := hd_Im s; d_Period := hd_Period s; d_SmoothPeriod := hd_SmoothPeriod s |}.
Lemma hd_clamp_disc raw last : (let p := @stdmin RA raw (@fmul RA (@lit RA 15 1) last) in let p := @stdmax RA p (@fmul RA (@lit RA 67 2) last) in
  let p := @stdmax RA p (@of_Z RA 6) in let p := @stdmin RA p (@of_Z RA 50) in @fadd RA (@fmul RA (@lit RA 2 1) p) (@fmul RA (@lit RA 8 1) last)) = @disc_clamp RA raw last.
Proof. rewrite hd_clamp_R, clampd_R. reflexivity. Qed.
Definition hd_of (u : @M_stream7.disc RA) (Price : @ring RA) : @hd_state RA := {| hd_Smooth := d_Smooth u; hd_Detrender := d_Detrender u; hd_I1 := d_I1 u; hd_Q1 := d_Q1 u;
  hd_I2 := d_I2 u; hd_Q2 := d_Q2 u; hd_Re := d_Re u; hd_Im := d_Im u; hd_Period := d_Period u; hd_SmoothPeriod := d_SmoothPeriod u; hd_Price := Price |}.
Ltac nextop := lazymatch goal with |- bind ?e _ = bind ?e _ => destruct e; cbn [bind]; [|reflexivity] end.
Lemma hd_rest_disc sm s P : (let* Smooth := ring_set (hd_Smooth s) sm in
  let* Period1 := ring2_get (hd_Period s) 1 in
  let* v := hd_hilbert Smooth Period1 in
  let* Detrender := ring_set (hd_Detrender s) v in
  let* v := hd_hilbert Detrender Period1 in
  let* Q1 := ring_set (hd_Q1 s) v in
  let* v := ring_get Detrender 3 in
  let* I1 := ring_set (hd_I1 s) v in
  let* jI := hd_hilbert I1 Period1 in
  let* jQ := hd_hilbert Q1 Period1 in
  let* i1 := ring_cur I1 in let* q1 := ring_cur Q1 in
  let I2 := ring2_set (hd_I2 s) (i1 .- jQ) in
  let Q2 := ring2_set (hd_Q2 s) (q1 .+ jI) in
  let* I2_1 := ring2_get I2 1 in let* Q2_1 := ring2_get Q2 1 in
  let I2 := ring2_set I2 (lit 2 1 .* ring2_cur I2 .+ lit 8 1 .* I2_1) in
  let Q2 := ring2_set Q2 (lit 2 1 .* ring2_cur Q2 .+ lit 8 1 .* Q2_1) in
  let Re := ring2_set (hd_Re s) (ring2_cur I2 .* I2_1 .+ ring2_cur Q2 .* Q2_1) in
  let Im := ring2_set (hd_Im s) (ring2_cur I2 .* Q2_1 .- ring2_cur Q2 .* I2_1) in
  let* Re_1 := ring2_get Re 1 in let* Im_1 := ring2_get Im 1 in
  let Re := ring2_set Re (lit 2 1 .* ring2_cur Re .+ lit 8 1 .* Re_1) in
  let Im := ring2_set Im (lit 2 1 .* ring2_cur Im .+ lit 8 1 .* Im_1) in
  let Period := hd_Period s in
  let Period := if (ring2_cur Im .!= #0) && (ring2_cur Re .!= #0)
                then ring2_set Period (#2 .* Arith.PI ./ libm Latan (ring2_cur Im ./ ring2_cur Re)) else Period in
  let Period := ring2_set Period (stdmin (ring2_cur Period) (lit 15 1 .* Period1)) in
  let Period := ring2_set Period (stdmax (ring2_cur Period) (lit 67 2 .* Period1)) in
  let Period := ring2_set Period (stdmax (ring2_cur Period) #6) in
  let Period := ring2_set Period (stdmin (ring2_cur Period) #50) in
  let Period := ring2_set Period (lit 2 1 .* ring2_cur Period .+ lit 8 1 .* Period1) in
  let* sp1 := ring2_get (hd_SmoothPeriod s) 1 in
  let SmoothPeriod := ring2_set (hd_SmoothPeriod s) (lit 33 2 .* ring2_cur Period .+ lit 67 2 .* sp1) in
  Ok ({| hd_Smooth := ring_step Smooth; hd_Detrender := ring_step Detrender; hd_I1 := ring_step I1; hd_Q1 := ring_step Q1;
         hd_I2 := ring2_step I2; hd_Q2 := ring2_step Q2; hd_Re := ring2_step Re; hd_Im := ring2_step Im;
         hd_Period := ring2_step Period; hd_SmoothPeriod := ring2_step SmoothPeriod; hd_Price := ring_step P |},
      [[ring2_cur SmoothPeriod]])) =
  let* u := @disc_set RA (#2 .* Arith.PI) sm (disc_of s) in Ok (hd_of (disc_step u) (ring_step P), [[ring2_cur (d_SmoothPeriod u)]]).
Proof.
  unfold disc_set, disc_of. cbn [d_Smooth d_Detrender d_I1 d_Q1 d_I2 d_Q2 d_Re d_Im d_Period d_SmoothPeriod]. rewrite !bind_assoc. 
  nextop. rewrite !ring2_get1. cbn [bind]. rewrite !bind_assoc. nextop. rewrite !bind_assoc. nextop. rewrite !bind_assoc. nextop. rewrite !bind_assoc. nextop. rewrite !bind_assoc. nextop.
  rewrite !bind_assoc. nextop. rewrite !bind_assoc. nextop. rewrite !bind_assoc. nextop. rewrite !bind_assoc. nextop. rewrite !bind_assoc. nextop.
  repeat (rewrite !ring2_get1; cbn [bind]). unfold hd_of, disc_step, ring2_set. cbn [ring2_cur ra1 ra2 d_Smooth d_Detrender d_I1 d_Q1 d_I2 d_Q2 d_Re d_Im d_Period d_SmoothPeriod].
  destruct (_ && _); cbn [ra1 ra2]; rewrite <- !hd_clamp_disc; reflexivity.
Qed.
Lemma hd_main_R x c i s : 5 <= i -> i < zlen x -> cycle_at (2 * PI) 5 (zr x) c i -> disc_has c i (disc_of s) -> kept (at0 (zr x)) 4 i (hd_Price s) ->
  exists u, @hd_main RA x i s = Ok (u, [[c_avg c i]]) /\ disc_has c (i + 1) (disc_of u) /\ kept (at0 (zr x)) 4 (i + 1) (hd_Price u).
Proof.
  intros Hf Hx Hc Hd Kp. unfold hd_main. rewrite rdr by lia. cbn [bind].
  destruct (kept_set _ 4 i _ (zr x i) ltac:(lia) Kp (eq_sym (at0_pos _ i ltac:(lia)))) as (pr & -> & Cp & Gp & Kp'). cbn [bind]. rewrite Cp, !Gp by lia. cbn [bind]. rewrite !at0_pos by lia.
  rewrite (hd_rest_disc _ s pr). destruct (disc_set_R (2 * PI) 5 (zr x) c i (disc_of s) Hf Hc Hd) as (u & E & Du & _ & _ & Es).
  unfold disc_smooth in E. rewrite PI_R. change (@fmul RA (@of_Z RA 2) PI) with (2 * PI)%R. rewrite E. cbn [bind]. rewrite Es.
  eexists. split; [reflexivity|]. split; [|exact Kp']. destruct u; exact Du.
Qed.
Lemma disc_has_new circle x c i : (forall k, cycle_at circle i x c k) -> exists d, @disc_init RA = Ok d /\ disc_has c i d.
Proof.
  intros H. unfold disc_init. 
  assert (Z0 : forall k, k < i -> c_smooth c k = 0%R /\ c_detrend c k = 0%R /\ c_I1 c k = 0%R /\ c_Q1 c k = 0%R /\ c_I2 c k = 0%R /\ c_Q2 c k = 0%R /\
    c_Re c k = 0%R /\ c_Im c k = 0%R /\ c_period c k = 0%R /\ c_avg c k = 0%R).
  { intros k Hk. specialize (H k). unfold cycle_at in H. replace (k <? i) with true in H by lia. exact H. }
  destruct (kept_new (c_smooth c) 7 i ltac:(lia)) as (r & -> & K); [intros; apply Z0; lia|]. cbn [bind].
  eexists. split; [reflexivity|].
  assert (Kk : forall f, (forall k, k < i -> f k = 0%R) -> kept f 7 i r).
  { intros f Hf. destruct K as (h & Hr & E). exists h. split; [exact Hr|]. intros k Hk. rewrite E, Hf by lia. apply Z0. lia. }
  assert (K2 : forall f, (forall k, k < i -> f k = 0%R) -> kept2 f i (@ring2_new RA)).
  { intros f Hf. unfold kept2, ring2_new. rewrite !Hf by lia. reflexivity. }
  constructor; cbn [d_Smooth d_Detrender d_I1 d_Q1 d_I2 d_Q2 d_Re d_Im d_Period d_SmoothPeriod]; (apply Kk || apply K2); intros; apply Z0; lia.
Qed.
Lemma hd_fun size (x : list R) c : zlen x = size -> 0 <= size <= INT_MAX -> (forall i, cycle_at (2 * PI) 5 (zr x) c i) ->
  @ti_hd RA size [x] [] = Ok (OKAY, [tab 5 size (c_avg c)]).
Proof.
  intros Hx Hs Hc. unfold ti_hd. destruct (disc_has_new _ _ c 5 Hc) as (d & Ed & Hd).
  destruct (kept_new (at0 (zr x)) 4 0 ltac:(lia)) as (pr & Ep & Kp); [intros; apply at0_neg; lia|].
  assert (E : @hd_init RA = Ok (hd_of d pr)).
  { unfold hd_init. unfold disc_init in Ed. destruct (@ring_new RA 7) as [r|]; cbn [bind] in *; [|discriminate]. rewrite Ep. cbn [bind]. injection Ed as <-. reflexivity. }
  rewrite E. cbn [bind].
  apply (batch1 (fun i s => (if i <? 5 then disc_of s = d else disc_has c i (disc_of s)) /\ kept (at0 (zr x)) 4 i (hd_Price s))); [lia|lia| |].
  - cbn [Z.ltb Z.compare]. split; [destruct d; reflexivity|exact Kp].
  - intros i s Hi [I1 I2]. disp. destruct (i <? 5) eqn:E5.
    + unfold hd_warm. rewrite rdr by lia. cbn [bind]. destruct (kept_set _ 4 i _ (zr x i) ltac:(lia) I2 (eq_sym (at0_pos _ i ltac:(lia)))) as (r & -> & _ & _ & Kr). cbn [bind wp fst snd].
      split; [reflexivity|]. split; [|exact Kr]. change (disc_of _) with (disc_of s). destruct (i + 1 <? 5) eqn:E6; [exact I1|]. rewrite I1. replace (i + 1) with 5 by lia. exact Hd.
    + destruct (hd_main_R x c i s ltac:(lia) ltac:(lia) (Hc i) I1 I2) as (u & -> & Du & Ku). cbn [wp fst snd]. replace (i + 1 <? 5) with false by lia. split; [reflexivity|split; assumption].
Qed.

(** mama *)
Lemma mama_out_R fast slow x c phase m f i u q : 6 <= i -> mama_at fast slow x c phase m f i ->
  @ring_cur RA (d_I1 u) = Ok (c_I1 c i) -> @ring_cur RA (d_Q1 u) = Ok (c_Q1 c i) ->
  kept2 phase i (fst (fst q)) -> kept2 m i (snd (fst q)) -> kept2 f i (snd q) ->
  exists r, @mama_out RA fast slow (x i) u q = Ok (r, [[m i]; [f i]]) /\ kept2 phase (i + 1) (fst (fst r)) /\ kept2 m (i + 1) (snd (fst r)) /\ kept2 f (i + 1) (snd r).
Proof.
  intros Hi H E1 E2 K1 K2 K3. destruct q as [[ph mm] ff]. cbn [fst snd] in K1, K2, K3. unfold mama_at in H. replace (i <? 6) with false in H by lia. cbv zeta in H. destruct H as (H1 & H2 & H3).
  unfold mama_out. rewrite E1, E2, K1, K2, K3. cbn [bind]. rewrite !ring2_get1. unfold ring2_set. cbn [ra1 ra2 ring2_cur bind].
  lazymatch goal with |- context[@fsub RA (phase (i - 1)) ?p] => assert (Eq : p = phase i) end.
  { rewrite H1. toR. destruct (Reqb (c_I1 c i) 0); reflexivity. }
  rewrite Eq. rewrite !stdmax_R. change (Rmax slow _) with (mama_alpha fast slow phase i). set (a := mama_alpha fast slow phase i) in *.
  assert (Em : @fadd RA (@fmul RA a (x i)) (@fmul RA (@fsub RA (@of_Z RA 1) a) (m (i - 1))) = m i) by (rewrite H2; reflexivity). rewrite Em.
  assert (Ef : @fadd RA (@fmul RA (@fmul RA (@lit RA 5 1) a) (m i)) (@fmul RA (@fsub RA (@of_Z RA 1) (@fmul RA (@lit RA 5 1) a)) (f (i - 1))) = f i) by (rewrite H3; toR; change (IZR (10 ^ 1)) with 10%R; field). rewrite Ef.
  eexists. split; [reflexivity|]. cbn [fst snd]. repeat split; apply kept2_step; reflexivity.
Qed.
Lemma mama_fun size (x : list R) fast slow c phase m f : zlen x = size -> 0 <= size <= INT_MAX -> (0 <= fast <= 1)%R -> (0 <= slow <= 1)%R ->
  (forall i, cycle_at 360 6 (zr x) c i) -> (forall i, mama_at fast slow (zr x) c phase m f i) ->
  @ti_mama RA size [x] [fast; slow] = Ok (OKAY, [tab 6 size m; tab 6 size f]).
Proof.
  intros Hx Hs Hf1 Hs1 Hc Hm. unfold ti_mama.
  assert (Hb : forall v, (0 <= v <= 1)%R -> @bad_limit RA v = false).
  { intros v Hv. unfold bad_limit. toR. destruct (Rleb_spec 0 v), (Rleb_spec v 1); try lra; reflexivity. }
  rewrite !Hb by assumption. destruct (disc_has_new _ _ c 6 Hc) as (d & -> & Hd). cbn [bind].
  etransitivity; [apply (@batch_tab RA _ (fun i s => disc_has c (Z.max 6 i) (fst s) /\ kept2 phase (Z.max 6 i) (fst (fst (snd s))) /\ kept2 m (Z.max 6 i) (snd (fst (snd s))) /\ kept2 f (Z.max 6 i) (snd (snd s)))
    [(fun k => m (k + 6)); (fun k => f (k + 6))] 6); [lia|lia| |]|].
  - cbn [fst snd]. change (Z.max 6 0) with 6. split; [exact Hd|].
    assert (Z0 : forall k, k < 6 -> phase k = 0%R /\ m k = 0%R /\ f k = 0%R) by (intros k Hk; specialize (Hm k); unfold mama_at in Hm; replace (k <? 6) with true in Hm by lia; exact Hm).
    unfold kept2, ring2_new. destruct (Z0 4 ltac:(lia)) as (A1 & A2 & A3), (Z0 5 ltac:(lia)) as (B1 & B2 & B3). cbn [Z.sub Z.opp Z.add Z.pos_sub Pos.pred_double]. simpl. rewrite A1, A2, A3, B1, B2, B3. repeat split.
  - intros i [d1 q] Hi (I1 & I2 & I3 & I4). cbn [fst snd] in *. disp. destruct (i <? 6) eqn:E6.
    + cbn [wp skip fst snd map]. replace (Z.max 6 (i + 1)) with 6 by lia. replace (Z.max 6 i) with 6 in * by lia. split; [reflexivity|]. split; [assumption|]. repeat split; assumption.
    + replace (Z.max 6 i) with i in * by lia. replace (Z.max 6 (i + 1)) with (i + 1) by lia. rewrite !rdr by lia. cbn [bind].
      destruct (disc_set_R 360 6 (zr x) c i d1 ltac:(lia) (Hc i) I1) as (u & E & Du & E1 & E2 & _). change (@of_Z RA 360) with 360%R. rewrite E. cbn [bind].
      destruct (mama_out_R fast slow (zr x) c phase m f i u q ltac:(lia) (Hm i) E1 E2 I2 I3 I4) as (r & Er & R1 & R2 & R3). rewrite Er. cbn [bind wp fst snd map].
      rewrite !Z.sub_add. split; [reflexivity|]. split; [assumption|]. repeat split; assumption.
  - cbn [map]. unfold tab. rewrite !Z.sub_0_r. do 3 f_equal; [|f_equal]; apply map_ext; intros k; f_equal; lia.
Qed.

(** arsi *)
Lemma cycle_in50 circle first x c : (forall i, cycle_at circle first x c i) -> forall i, in50 (c_period c i) /\ in50 (c_avg c i).
Proof.
  intros Hc. assert (Hneg : forall i, i < first -> in50 (c_period c i) /\ in50 (c_avg c i)).
  { intros i Hi. specialize (Hc i). unfold cycle_at in Hc. replace (i <? first) with true in Hc by lia. destruct Hc as (_ & _ & _ & _ & _ & _ & _ & _ & -> & ->). unfold in50. split; lra. }
  intros i. destruct (Z.lt_ge_cases i first) as [L|L]; [auto|].
  apply (zind (fun i => in50 (c_period c i) /\ in50 (c_avg c i)) (first - 1) i); [lia|apply Hneg; lia|].
  intros m Hm [I1 I2]. specialize (Hc (m + 1)). unfold cycle_at in Hc. replace (m + 1 <? first) with false in Hc by lia. cbv zeta in Hc.
  destruct Hc as (_ & _ & _ & _ & _ & _ & _ & _ & E1 & E2). rewrite Z.add_simpl_r in *.
  assert (J : in50 (c_period c (m + 1))).
  { rewrite E1. rewrite <- clampd_R. apply clamp_in50. exact I1. }
  split; [exact J|]. rewrite E2. unfold in50 in *. lra.
Qed.
Lemma arsi_fun size (x : list R) cycpart c : zlen x = size -> 0 <= size <= INT_MAX -> (0 < cycpart)%R -> (cycpart * 50 <= IZR INT_MAX)%R ->
  (forall i, cycle_at (2 * PI) 5 (zr x) c i) -> @ti_arsi RA size [x] [cycpart] = Ok (OKAY, [tab 5 size (arsi_at cycpart (zr x) c)]).
Proof.
  intros Hx Hs Hp Hm Hc. unfold ti_arsi. replace (@fle RA cycpart (@of_Z RA 0)) with false by (toR; destruct (Rleb_spec cycpart 0); [lra|reflexivity]).
  destruct (disc_has_new _ _ c 5 Hc) as (d & -> & Hd). cbn [bind].
  apply (batch1 (fun i s => disc_has c (Z.max 5 i) s)); [lia|lia|exact Hd|].
  intros i d1 Hi I1. disp. destruct (i <? 5) eqn:E5.
  - cbn [wp skip fst snd]. replace (Z.max 5 (i + 1)) with 5 by lia. replace (Z.max 5 i) with 5 in * by lia. split; [reflexivity|exact I1].
  - replace (Z.max 5 i) with i in * by lia. replace (Z.max 5 (i + 1)) with (i + 1) by lia. rewrite !rdr by lia. cbn [bind].
    destruct (disc_set_R (2 * PI) 5 (zr x) c i d1 ltac:(lia) (Hc i) I1) as (u & E & Du & _ & _ & Es). rewrite PI_R. change (@fmul RA (@of_Z RA 2) PI) with (2 * PI)%R. rewrite E. cbn [bind].
    rewrite Es. unfold arsi_out.
    destruct (cycle_in50 _ _ _ _ Hc i) as [_ [A1 A2]].
    assert (Ec : @cast RA (@fmul RA cycpart (c_avg c i)) = Ok (Int_part (cycpart * c_avg c i))).
    { unfold cast. cbn [to_int RA fmul]. unfold Rto_int. assert (0 <= cycpart * c_avg c i)%R by nra. assert (cycpart * c_avg c i <= IZR INT_MAX)%R by nra.
      unfold Rtrunc. destruct (Rle_dec 0 (cycpart * c_avg c i)); [|lra]. pose proof (Int_part_bounds (cycpart * c_avg c i)) as [B1 B2].
      assert (IZR (-1) < IZR (Int_part (cycpart * c_avg c i)))%R as K by (cbn; lra). apply lt_IZR in K.
      assert (IZR (Int_part (cycpart * c_avg c i)) <= IZR INT_MAX)%R as K2 by lra. apply le_IZR in K2. replace ((INT_MIN <=? Int_part (cycpart * c_avg c i)) && (Int_part (cycpart * c_avg c i) <=? INT_MAX)) with true by zl. reflexivity. }
    rewrite Ec. cbn [bind].
    set (n := Z.min (Int_part (cycpart * c_avg c i)) i).
    set (up := fun k => Rmax 0 (zr x (i - k)%Z - zr x (i - k - 1)%Z)%R). set (down := fun k => Rmax 0 (zr x (i - k - 1)%Z - zr x (i - k)%Z)%R).
    match goal with |- wp (bind (bind ?L _) _) _ => assert (EL : L = Ok (zsum 0 n up, zsum 0 n down)) end.
    { destruct (Z.le_gt_cases 0 n) as [Ln|Ln]; [|rewrite for_nil, !zsum_nil by lia; reflexivity].
      apply wp_eq. apply (wp_for (fun k s => s = (zsum 0 k up, zsum 0 k down))); [lia|rewrite !zsum_nil by lia; reflexivity| |intros s ->; reflexivity].
      intros k s Hk ->. rewrite !rdr by lia. cbn [bind wp]. rewrite !zsum_snoc by lia. rewrite stdmax_R, stdmin_R. unfold up, down. replace (i - (k + 1)) with (i - k - 1) by lia.
      toR. apply peq; [reflexivity|]. f_equal. unfold Rmin, Rmax. repeat match goal with |- context[Rle_dec ?a ?b] => destruct (Rle_dec a b) end; lra. }
    rewrite EL. cbn [bind wp fst snd]. split; [|exact Du]. unfold arsi_at. cbv zeta. fold n up down. toR. destruct (Reqb (zsum 0 n up + zsum 0 n down) 0); reflexivity.
Qed.
End R.

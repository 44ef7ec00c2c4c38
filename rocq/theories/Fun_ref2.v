(** The reference implementations of hd and mama. *)
From Verif Require Export M_ref2 Fun_cycle.
From Coq Require Import Reals Lra.
Open Scope Z_scope.

(** ** hd_ref, in any arithmetic *)
Section H.
Context {A : Arith}.
Lemma rok_put r v : rok r 1 -> exists r', ring_set r v = Ok r' /\ ring_cur r' = Ok v /\ rok (ring_step r') 1.
Proof.
  intros [h H]. destruct (ring_set_ok r 1 h v H) as (r' & E & Hr). exists r'. split; [exact E|]. split; [apply (ring_cur_ok r' 1 _ Hr)|]. eexists. apply ring_step_ok, Hr.
Qed.
(** The two bodies run side by side. *)
Definition side (a : res (hd_state * list (list T))) (b : res (hd_state * ring * ring * list (list T))) : Prop :=
  match a with
  | Ok (s, out) => exists j q, b = Ok ((s, j, q), out) /\ rok j 1 /\ rok q 1
  | Ub e => b = Ub e
  end.
Lemma side_bind {X} (m : res X) f g : (forall v, side (f v) (g v)) -> side (bind m f) (bind m g).
Proof. intros H. destruct m; cbn [bind]; [apply H|reflexivity]. Qed.
Lemma hd_ref_main_side x i s jI jQ : rok jI 1 -> rok jQ 1 -> side (hd_main x i s) (hd_ref_main x i (s, jI, jQ)).
Proof.
  intros H1 H2. unfold hd_main, hd_ref_main.
  repeat (apply side_bind; intros ?).
  lazymatch goal with |- context[ring_set jI ?v] => destruct (rok_put jI v H1) as (j' & -> & Cj & Rj) end. cbn [bind]. apply side_bind. intros w.
  destruct (rok_put jQ w H2) as (q' & -> & Cq & Rq). cbn [bind]. apply side_bind. intros i1. rewrite Cq. cbn [bind]. apply side_bind. intros q1. rewrite Cj. cbn [bind].
  repeat (apply side_bind; intros ?). cbn [side]. eexists _, _. split; [reflexivity|]. split; assumption.
Qed.
Lemma hd_ref_warm_side x i s jI jQ : rok jI 1 -> rok jQ 1 -> side (hd_warm x i s) (hd_ref_warm x i (s, jI, jQ)).
Proof. intros H1 H2. unfold hd_ref_warm. destruct (hd_warm x i s) as [[s' o]|e]; cbn [bind side]; [|reflexivity]. exists jI, jQ. auto. Qed.
Lemma hd_ref_same size inputs options : 0 <= size -> ti_hd_ref size inputs options = ti_hd size inputs options.
Proof.
  intros Hs. unfold ti_hd_ref, ti_hd. destruct inputs as [|x [|]], options; try reflexivity.
  destruct hd_init as [s0|e]; cbn [bind]; [|reflexivity]. destruct (ring_new_ok 1 ltac:(lia)) as (r & -> & Hr). cbn [bind].
  assert (Rr : rok r 1) by (eexists; exact Hr). unfold batch_loops. rewrite !run_loops_dispatch by exact Hs. unfold emits, for_. clear Hr.
  assert (E : forall n i s o jI jQ, rok jI 1 -> rok jQ 1 ->
    match Monad.iter n i (fun i '(s, o) => let* (s', e) := dispatch {| Stream.bounded := [(5, hd_warm x)]; final := hd_main x |} i s in Ok (s', zapp o e)) (s, o) with
    | Ok (s', o') => exists j q, Monad.iter n i (fun i '(s, o) => let* (s', e) := dispatch {| Stream.bounded := [(5, hd_ref_warm x)]; final := hd_ref_main x |} i s in Ok (s', zapp o e)) ((s, jI, jQ), o) = Ok ((s', j, q), o')
    | Ub e => Monad.iter n i (fun i '(s, o) => let* (s', e) := dispatch {| Stream.bounded := [(5, hd_ref_warm x)]; final := hd_ref_main x |} i s in Ok (s', zapp o e)) ((s, jI, jQ), o) = Ub e
    end).
  { induction n as [|n IH]; intros i s o jI jQ H1 H2; cbn [Monad.iter]; [exists jI, jQ; reflexivity|].
    assert (D : side (dispatch {| Stream.bounded := [(5, hd_warm x)]; final := hd_main x |} i s) (dispatch {| Stream.bounded := [(5, hd_ref_warm x)]; final := hd_ref_main x |} i (s, jI, jQ))).
    { unfold dispatch. cbn [dispatch' Stream.bounded final]. destruct (i <? 5); [apply hd_ref_warm_side|apply hd_ref_main_side]; assumption. }
    destruct (dispatch {| Stream.bounded := [(5, hd_warm x)]; final := hd_main x |} i s) as [[s1 e1]|u]; cbn [side] in D; [|rewrite D; reflexivity].
    destruct D as (j & q & -> & Rj & Rq). cbn [bind]. apply IH; assumption. }
  specialize (E (Z.to_nat (size - 0)) 0 s0 (repeat [] 1) r r Rr Rr).
  destruct (Monad.iter (Z.to_nat (size - 0)) 0 _ (s0, repeat [] 1)) as [[s' o']|u]; [destruct E as (j & q & ->)|rewrite E]; reflexivity.
Qed.
End H.

(** ** mama_ref, in exact arithmetic *)
Section R.
Local Existing Instance RA.
Lemma within_low raw last : (raw <= 6)%R -> within 0 last = within raw last.
Proof. intros H. unfold within, Rmin, Rmax. repeat match goal with |- context[Rle_dec ?a ?b] => lazymatch constr:((a, b)) with context[Rle_dec _ _] => fail | _ => destruct (Rle_dec a b) end end; lra. Qed.
Lemma rd_arr (f : Z -> R) i j : 0 <= j < i -> @rd R (tab 0 i f) j = Ok (f j).
Proof. intros H. rewrite (rd_ok 0%R) by (rewrite zlen_tab; lia). rewrite zn_tab by lia. reflexivity. Qed.
Lemma app_arr (f : Z -> R) i v : 0 <= i -> v = f i -> tab 0 i f ++ [v] = tab 0 (i + 1) f.
Proof. intros H ->. rewrite tab_snoc by lia. reflexivity. Qed.
Lemma hilbert_arr f i last : 6 <= i -> @mama_hilbert RA (tab 0 (i + 1) f) i last = Ok (hilbert last f i).
Proof. intros H. unfold mama_hilbert. rewrite !rd_arr by lia. reflexivity. Qed.
Lemma if_max a b : (if @flt RA a b then b else a) = Rmax b a.
Proof. toR. destruct (Rltb_spec a b) as [L|L]; unfold Rmax; destruct (Rle_dec b a); lra. Qed.
Lemma bind_ok_eq {B C} (r : res B) v (k : B -> res C) : r = Ok v -> bind r k = k v.
Proof. intros ->. reflexivity. Qed.
Definition arrays (c : cycle) (phase : Z -> R) (i : Z) : @mama_arrays RA :=
  @Build_mama_arrays RA (tab 0 i (c_smooth c)) (tab 0 i (c_detrend c)) (tab 0 i (c_I1 c)) (tab 0 i (c_Q1 c)) (tab 0 i (c_I2 c)) (tab 0 i (c_Q2 c))
    (tab 0 i (c_Re c)) (tab 0 i (c_Im c)) (tab 0 i (c_period c)) (tab 0 i (c_avg c)) (tab 0 i phase).
Ltac foldc C := lazymatch type of C with ?v = ?e =>
  repeat match goal with |- context[@fadd RA ?a ?b] => let H := fresh in assert (H : @fadd RA a b = v) by (rewrite C; reflexivity); rewrite !H; clear H end end.
Lemma mama_ref_step_R fast slow x c phase m f i : 6 <= i < zlen x -> cycle_at 360 6 (zr x) c i -> mama_at fast slow (zr x) c phase m f i ->
  (c_Im c i <> 0%R /\ c_Re c i <> 0%R \/ (c_period c (i - 2) <= 6)%R) -> m 5 = 0%R -> f 5 = 0%R ->
  @mama_ref_step RA fast slow x i (arrays c phase i, tab 6 i m, tab 6 i f) = Ok (arrays c phase (i + 1), tab 6 (i + 1) m, tab 6 (i + 1) f).
Proof.
  intros Hi Hc Hm Hp M5 F5. unfold cycle_at in Hc. unfold mama_at in Hm. replace (i <? 6) with false in * by lia. cbv zeta in Hc, Hm.
  destruct Hc as (C1 & C2 & C3 & C4 & C5 & C6 & C7 & C8 & C9 & C10). destruct Hm as (H1 & H2 & H3).
  unfold mama_ref_step, arrays. cbn [m_smooth m_detrender m_I1 m_Q1 m_I2 m_Q2 m_Re m_Im m_period m_smoothperiod m_phase].
  rewrite !rdr by lia. cbn [bind]. rewrite (app_arr (c_smooth c)) by (lia || (rewrite C1; reflexivity)). rewrite (rd_arr (c_period c)) by lia. cbn [bind].
  rewrite hilbert_arr by lia. cbn [bind]. rewrite (app_arr (c_detrend c)) by (lia || (rewrite C2; reflexivity)). rewrite hilbert_arr by lia. cbn [bind].
  rewrite (app_arr (c_Q1 c)) by (lia || (rewrite C3; reflexivity)). rewrite rd_arr by lia. cbn [bind]. rewrite (app_arr (c_I1 c)) by (lia || (rewrite C4; reflexivity)).
  rewrite !hilbert_arr by lia. cbn [bind]. rewrite !rd_arr by lia. cbn [bind].
  foldc C5. foldc C6. foldc C7. foldc C8.
  fold (@disc_clamp RA (if (negb (@feq RA (c_Im c i) (@of_Z RA 0)) && negb (@feq RA (c_Re c i) (@of_Z RA 0)))%bool then @fdiv RA (@of_Z RA 360) (@libm RA Latan (@fdiv RA (c_Im c i) (c_Re c i))) else @of_Z RA 0) (c_period c (i - 1))).
  lazymatch goal with |- context[@disc_clamp RA ?raw ?l] => assert (Ep : @disc_clamp RA raw l = c_period c i) end.
  { rewrite clampd_R, C9. do 2 f_equal. toR. destruct (Reqb_spec (c_Im c i) 0) as [Z1|Z1], (Reqb_spec (c_Re c i) 0) as [Z2|Z2]; cbn [negb andb orb]; try reflexivity;
      (destruct Hp as [[N1 N2]|Hp]; [contradiction|rewrite (within_low (c_period c (i - 2))) by exact Hp; reflexivity]). }
  rewrite !Ep. clear Ep C9.
  lazymatch goal with |- context[@fsub RA (phase (i - 1)) ?p] => assert (Eq : p = phase i) end.
  { rewrite H1. toR. destruct (Reqb (c_I1 c i) 0); reflexivity. }
  rewrite !Eq. clear Eq. rewrite !if_max. change (Rmax slow _) with (mama_alpha fast slow phase i). set (a := mama_alpha fast slow phase i) in *. clearbody a.
  assert (R1 : (if 6 <? i then @rd R (tab 6 i m) (i - 7) else Ok (@of_Z RA 0)) = Ok (m (i - 1))).
  { destruct (Z.ltb_spec 6 i) as [L|L]; [|replace i with 6 by lia; change (6 - 1) with 5; rewrite M5; reflexivity].
    rewrite (rd_ok 0%R) by (rewrite zlen_tab; lia). rewrite zn_tab by lia. do 2 f_equal. lia. }
  assert (R2 : (if 6 <? i then @rd R (tab 6 i f) (i - 7) else Ok (@of_Z RA 0)) = Ok (f (i - 1))).
  { destruct (Z.ltb_spec 6 i) as [L|L]; [|replace i with 6 by lia; change (6 - 1) with 5; rewrite F5; reflexivity].
    rewrite (rd_ok 0%R) by (rewrite zlen_tab; lia). rewrite zn_tab by lia. do 2 f_equal. lia. }
  etransitivity; [apply (bind_ok_eq _ _ _ R1)|]. etransitivity; [apply (bind_ok_eq _ _ _ R2)|].
  assert (Em : @fadd RA (@fmul RA a (zr x i)) (@fmul RA (@fsub RA (@of_Z RA 1) a) (m (i - 1))) = m i) by (rewrite H2; reflexivity). rewrite !Em.
  assert (Ef : @fadd RA (@fmul RA (@fmul RA (@lit RA 5 1) a) (m i)) (@fmul RA (@fsub RA (@of_Z RA 1) (@fmul RA (@lit RA 5 1) a)) (f (i - 1))) = f i)
    by (rewrite H3; toR; change (IZR (10 ^ 1)) with 10%R; field). rewrite !Ef.
  rewrite !app_arr by (lia || reflexivity || (rewrite C10; reflexivity) || (rewrite H1; toR; destruct (Reqb (c_I1 c i) 0); reflexivity)).
  rewrite (tab_snoc 6 i m), (tab_snoc 6 i f) by lia. reflexivity.
Qed.
Lemma mama_ref_fun size (x : list R) fast slow c phase m f : zlen x = size -> (0 <= fast <= 1)%R -> (0 <= slow <= 1)%R ->
  (forall i, cycle_at 360 6 (zr x) c i) -> (forall i, mama_at fast slow (zr x) c phase m f i) ->
  (forall i, 6 <= i < size -> c_Im c i <> 0%R /\ c_Re c i <> 0%R \/ (c_period c (i - 2) <= 6)%R) ->
  @ti_mama_ref RA size [x] [fast; slow] = Ok (OKAY, [tab 6 size m; tab 6 size f]).
Proof.
  intros Hx Hf Hs Hc Hm Hp. unfold ti_mama_ref.
  assert (Hb : forall v, (0 <= v <= 1)%R -> (@flt RA v (@of_Z RA 0) || @flt RA (@of_Z RA 1) v)%bool = false).
  { intros v Hv. toR. destruct (Rltb_spec v 0), (Rltb_spec 1 v); try lra; reflexivity. }
  rewrite !Hb by assumption.
  assert (Zc : forall k, k < 6 -> c_smooth c k = 0%R /\ c_detrend c k = 0%R /\ c_I1 c k = 0%R /\ c_Q1 c k = 0%R /\ c_I2 c k = 0%R /\ c_Q2 c k = 0%R /\
    c_Re c k = 0%R /\ c_Im c k = 0%R /\ c_period c k = 0%R /\ c_avg c k = 0%R).
  { intros k Hk. specialize (Hc k). unfold cycle_at in Hc. replace (k <? 6) with true in Hc by lia. exact Hc. }
  assert (Zm : forall k, k < 6 -> phase k = 0%R /\ m k = 0%R /\ f k = 0%R).
  { intros k Hk. specialize (Hm k). unfold mama_at in Hm. replace (k <? 6) with true in Hm by lia. exact Hm. }
  assert (Hz : forall g : Z -> R, (forall k, k < 6 -> g k = 0%R) -> repeat (@of_Z RA 0) 6 = tab 0 6 g).
  { intros g Hg. rewrite (tab_ext 0 6 g (fun _ => 0%R)) by (intros; apply Hg; lia). reflexivity. }
  match goal with |- context[for_ 6 size ?step ?s0] => assert (E : s0 = (arrays c phase 6, tab 6 6 m, tab 6 6 f)) end.
  { rewrite !(tab_nil 6 6) by lia. unfold arrays. do 2 f_equal.
    rewrite <- !Hz by (intros k Hk; (apply Zc || apply Zm); exact Hk). reflexivity. }
  rewrite E. clear E.
  destruct (Z.le_gt_cases size 6) as [L|L].
  { rewrite for_nil by lia. cbn [bind]. rewrite !(tab_nil 6) by lia. reflexivity. }
  assert (E : for_ 6 size (@mama_ref_step RA fast slow x) (arrays c phase 6, tab 6 6 m, tab 6 6 f) = Ok (arrays c phase size, tab 6 size m, tab 6 size f)).
  { apply wp_eq. apply (wp_for (fun i s => s = (arrays c phase i, tab 6 i m, tab 6 i f))); [lia|reflexivity| |intros s ->; reflexivity].
    intros i s Hi ->. rewrite (mama_ref_step_R fast slow x c phase m f i); [reflexivity|lia|apply Hc|apply Hm|apply Hp; lia|apply Zm; lia|apply Zm; lia]. }
  etransitivity; [apply (bind_ok_eq _ _ _ E)|]. reflexivity.
Qed.
End R.

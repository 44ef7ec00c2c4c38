(** C36, continued: the reference implementations of hd, mama and mesastoch.  [agree] is that of
    Properties_ref.v. *)
From Coq Require Import Reals Lra String Floats.SpecFloat.
From Verif Require Import M_ref2 Fun_ref2 Fun_mesaR Fun_cycle XArith RArith F64 F64Ord F64Laws Properties_basic Properties_value Properties_value2 Properties_ref.
Open Scope Z_scope.

(** hd and its reference are the same function, in every arithmetic and for all inputs and options. *)
Theorem C36_hd : forall (A : Arith) size inputs options, 0 <= size -> @ti_hd_ref A size inputs options = @ti_hd A size inputs options.
Proof. intros A size inputs options H. apply hd_ref_same, H. Qed.
Print Assumptions C36_hd.
(** mama: at each bar the two parts of the phase are not 0, or the period of two bars before is at most 6.
    The reference starts from a period of 0 where the indicator finds the one of two bars before. *)
Theorem C36_mama : forall size (x : list R) fast slow c, zlen x = size -> 0 <= size <= INT_MAX -> (0 <= fast <= 1)%R -> (0 <= slow <= 1)%R ->
  (forall i, cycle_at 360 6 (zr x) c i) -> (forall i, 6 <= i < size -> c_Im c i <> 0%R /\ c_Re c i <> 0%R \/ (c_period c (i - 2) <= 6)%R) ->
  agree (A := RA) ti_mama ti_mama_ref size [x] [fast; slow].
Proof.
  intros size x fast slow c Hx Hs Hf Hl Hc Hp. destruct (mama_exists fast slow (zr x) c) as (phase & m & f & Hm).
  eapply agree_by; [apply (mama_fun size x fast slow c phase m f)|apply (mama_ref_fun size x fast slow c phase m f)]; assumption.
Qed.
Print Assumptions C36_mama.
(** mesastoch, for series at least as long as the first window and filtered prices that are not all the
    same in a window. *)
Theorem C36_mesastoch : forall size (x : list R) n m h f s r, zlen x = size -> 3 <= n -> n + 2 <= INT_MAX -> n + 2 <= size -> 1 <= m <= INT_MAX ->
  (forall i, mesastoch_at m n (zr x) h f s r i) -> (forall i, n + 2 <= i < size -> exists j, i - n < j <= i /\ f j <> f i) ->
  agree (A := XR) ti_mesastoch ti_mesastoch_ref size [map Fin x] [Fin (IZR n); Fin (IZR m)].
Proof. intros size x n m h f s r Hx Hn Hn' Hs Hm H Hf. eapply agree_by; [apply (mesastoch_R size x n m h f s r)|apply (mesastoch_ref_R size x n m h f s r)]; assumption. Qed.
Print Assumptions C36_mesastoch.

(** ** Cases *)
Example C36_hd_case : let x := [dbl 1 0; dbl 2 0; dbl 3 0; dbl 5 0; dbl 4 0; dbl 6 0; dbl 5 0] in agree (A := F64c) ti_hd ti_hd_ref 7 [x] [].
Proof. cbv zeta. eapply agree_by; vm_compute; reflexivity. Qed.
Lemma first_mama_period x c : (forall i, cycle_at 360 6 x c i) -> (c_period c 6 <= 6)%R.
Proof.
  intros H. pose proof (H 5) as H5. specialize (H 6). unfold cycle_at in H, H5. change (6 <? 6) with false in H. change (5 <? 6) with true in H5. cbv beta iota zeta in H, H5.
  destruct H as (_ & _ & _ & _ & _ & _ & _ & _ & -> & _). destruct H5 as (_ & _ & _ & _ & _ & _ & _ & _ & E & _). change (6 - 1) with 5. rewrite E.
  set (raw := if (_ || _)%bool then _ else _). clearbody raw. unfold within, Rmin, Rmax. repeat match goal with |- context[Rle_dec ?a ?b] => lazymatch constr:((a, b)) with context[Rle_dec _ _] => fail | _ => destruct (Rle_dec a b) end end; lra.
Qed.
Example C36_mama_case : agree (A := RA) ti_mama ti_mama_ref 9 [[1; 2; 1; 4; 3; 8; 5; 6; 2]%R] [(1 / 2)%R; (1 / 20)%R].
Proof.
  destruct (cycle_exists 360 6 (zr [1; 2; 1; 4; 3; 8; 5; 6; 2]%R)) as [c Hc]. apply (C36_mama 9 _ _ _ c); r1; try lra; [exact Hc|].
  intros i Hi. right. assert (E : i = 8 \/ i - 2 < 6) by lia. destruct E as [->|L]; [apply (first_mama_period _ _ Hc)|].
  specialize (Hc (i - 2)). unfold cycle_at in Hc. replace (i - 2 <? 6) with true in Hc by lia. destruct Hc as (_ & _ & _ & _ & _ & _ & _ & _ & -> & _). lra.
Qed.

(** ** Refuted without the conditions *)
(** NaN limits: mama refuses them, its reference does not. *)
Theorem C36_mama_options_refuted : exists x : list (@T F64c), x = [dbl 1 0; dbl 2 0] /\
  @ti_mama F64c 2 [x] [S754_nan; S754_nan] = Ok (INVALID_OPTION, [[]; []]) /\ @ti_mama_ref F64c 2 [x] [S754_nan; S754_nan] = Ok (OKAY, [[]; []]).
Proof. eexists. split; [reflexivity|]. vm_compute. repeat split. Qed.
Print Assumptions C36_mama_options_refuted.
(** A series shorter than the first window: mesastoch writes nothing, its reference reads past the input.  A
    flat series: mesastoch gives 0, its reference NaN; shown with library functions that return 1/2. *)
Theorem C36_mesastoch_refuted : exists (lm : libm1 -> spec_float -> spec_float) pw, let A := F64 lm pw in (forall f v, lm f v = dbl 5 1) /\ exists x y : list (@T A),
  x = [dbl 7 0; dbl 7 0; dbl 7 0; dbl 7 0] /\ y = [dbl 7 0; dbl 7 0; dbl 7 0; dbl 7 0; dbl 7 0; dbl 7 0] /\
  @ti_mesastoch A 4 [x] [dbl 3 0; dbl 10 0] = Ok (OKAY, [[]]) /\ @ti_mesastoch_ref A 4 [x] [dbl 3 0; dbl 10 0] = Ub OobRead /\
  @ti_mesastoch A 6 [y] [dbl 3 0; dbl 10 0] = Ok (OKAY, [[dbl 0 0]]) /\ @ti_mesastoch_ref A 6 [y] [dbl 3 0; dbl 10 0] = Ok (OKAY, [[S754_nan]]).
Proof. exists (fun _ _ => dbl 5 1), (fun _ _ => S754_nan). cbv zeta. split; [reflexivity|]. do 2 eexists. split; [reflexivity|]. split; [reflexivity|]. vm_compute. repeat split. Qed.
Print Assumptions C36_mesastoch_refuted.

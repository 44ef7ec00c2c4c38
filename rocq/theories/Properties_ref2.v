(** C36, continued: the reference implementations of the indicators built on running extremes.
    [agree] is that of Properties_ref.v. *)
From Coq Require Import Reals Lra String Floats.SpecFloat.
From Verif Require Import C_ref M_stream4 M_stream5 M_stream6 M_stream7 M_window Fun_exact4 RSum RArith F64 F64Ord F64Laws
  Properties_basic Properties_value Properties_value2 Properties_ref Properties_stream3.
Open Scope Z_scope.

(** ** Bit for bit, on doubles that are neither NaN nor -0 *)
Theorem C36_pc : forall lm pw size x y p, zlen x = size -> zlen y = size -> 0 <= size <= INT_MAX -> 2 <= p <= INT_MAX ->
  Forall plain x -> Forall plain y -> agree (A := F64 lm pw) ti_pc ti_pc_ref size [x; y] [@of_Z (F64 lm pw) p].
Proof.
  intros lm pw size x y p Hx Hy Hs Hp Gx Gy. pose proof (F64_laws lm pw) as L. assert (Ho : @to_int (F64 lm pw) (@of_Z (F64 lm pw) p) = Some p) by (apply to_int_of_Z; zl).
  eapply agree_by; [apply (@pc_fun (F64 lm pw) plain (plain_laws lm pw) size x y _ p (plain_inf lm pw))|apply (@pc_ref_fun (F64 lm pw) L plain (plain_laws lm pw) size x y _ p)]; auto; lia.
Qed.
Print Assumptions C36_pc.
Theorem C36_ichi : forall lm pw size x y a b c, zlen x = size -> zlen y = size -> 0 <= size <= INT_MAX -> 1 <= a <= b -> b <= c -> c - 1 + b <= INT_MAX ->
  Forall plain x -> Forall plain y -> agree (A := F64 lm pw) ti_ichi ti_ichi_ref size [x; y] [@of_Z (F64 lm pw) a; @of_Z (F64 lm pw) b; @of_Z (F64 lm pw) c].
Proof.
  intros lm pw size x y a b c Hx Hy Hs Ha Hb Hc Gx Gy. pose proof (F64_laws lm pw) as L.
  assert (H1 : @to_int (F64 lm pw) (@of_Z (F64 lm pw) a) = Some a) by (apply to_int_of_Z; zl). assert (H2 : @to_int (F64 lm pw) (@of_Z (F64 lm pw) b) = Some b) by (apply to_int_of_Z; zl). assert (H3 : @to_int (F64 lm pw) (@of_Z (F64 lm pw) c) = Some c) by (apply to_int_of_Z; zl).
  eapply agree_by; [apply (@ichi_fun (F64 lm pw) plain (plain_laws lm pw)) with (a := a) (b := b) (c := c)|apply (@ichi_ref_fun (F64 lm pw) L plain (plain_laws lm pw)) with (a := a) (b := b) (c := c)]; auto using (plain_inf lm pw); zl.
Qed.
Print Assumptions C36_ichi.
Example C36_pc_case : let x := [dbl 1 0; dbl 4 0; dbl 2 0; dbl 3 0; dbl 7 0; dbl 5 0] in let y := [dbl 0 0; dbl 3 0; dbl 1 0; dbl 2 0; dbl 6 0; dbl 1 0] in
  Forall plain x /\ Forall plain y /\ agree (A := F64c) ti_pc ti_pc_ref 6 [x; y] [dbl 2 0] /\ agree (A := F64c) ti_ichi ti_ichi_ref 6 [x; y] [dbl 2 0; dbl 2 0; dbl 3 0] /\
  @ti_pc F64c 6 [x; y] [dbl 2 0] = Ok (OKAY, [[dbl 0 0; dbl 1 0; dbl 1 0; dbl 2 0; dbl 1 0]; [dbl 4 0; dbl 4 0; dbl 3 0; dbl 7 0; dbl 7 0]]).
Proof.
  cbv zeta. split; [repeat constructor; discriminate|]. split; [repeat constructor; discriminate|]. split; [eapply agree_by; vm_compute; reflexivity|].
  split; [eapply agree_by; vm_compute; reflexivity|]. vm_compute. reflexivity.
Qed.

(** ** Exact arithmetic *)
Theorem C36_ce : forall size h l c p k, zlen h = size -> zlen l = size -> zlen c = size -> 0 <= size <= INT_MAX -> 2 <= p <= INT_MAX ->
  (forall i, 0 <= i < size -> (zr l i <= zr h i)%R) -> agree (A := RA) ti_ce ti_ce_ref size [h; l; c] [IZR p; k].
Proof. intros size h l c p k Hh Hl Hc Hs Hp HL. eapply agree_by; [apply (ce_fun _ _ _ _ _ p)|apply ce_ref_fun]; auto; try (apply RA_int; zl); lia. Qed.
Print Assumptions C36_ce.
Theorem C36_mhlma : forall size x p q, zlen x = size -> 0 <= size <= INT_MAX -> 1 <= p <= INT_MAX -> 2 <= q < INT_MAX ->
  agree (A := RA) ti_mhlma ti_mhlma_ref size [x] [IZR p; IZR q].
Proof. intros size x p q Hx Hs Hp Hq. eapply agree_by; [apply (mhlma_fun _ _ _ _ p q)|apply mhlma_ref_fun]; auto; try (apply RA_int; zl); lia. Qed.
Print Assumptions C36_mhlma.
Theorem C36_smi : forall size h l c q r s, zlen h = size -> zlen l = size -> zlen c = size -> size <= INT_MAX -> 2 <= q <= size + 1 -> q <= INT_MAX ->
  1 <= r <= INT_MAX -> 1 <= s <= INT_MAX ->
  (forall k, 0 <= k < size - q + 1 -> emaR s (ema_list r (tab 0 (size - q + 1) (fun k => hiR h k (k + q - 1) - loR l k (k + q - 1))%R)) k <> 0%R) ->
  agree (A := RA) ti_smi ti_smi_ref size [h; l; c] [IZR q; IZR r; IZR s].
Proof. intros size h l c q r s Hh Hl Hc Hs Hq Hq' Hr Hs' _. eapply agree_by; [apply smi_fun|apply smi_ref_fun]; auto; lia. Qed.
Print Assumptions C36_smi.
Theorem C36_cmi : forall size h l c p, zlen h = size -> zlen l = size -> zlen c = size -> size <= INT_MAX -> 2 <= p <= size + 1 -> p <= INT_MAX ->
  (forall i, 0 <= i < size -> (zr l i <= zr h i)%R) ->
  (forall k, 0 <= k < size - p + 1 -> let tr := tab 0 size (@tr_at RA h l c) in (loR tr k (k + p - 1) < hiR tr k (k + p - 1))%R /\ (0 < Rsum (window k p tr))%R) ->
  agree (A := RA) ti_cmi ti_cmi_ref size [h; l; c] [IZR p].
Proof. intros size h l c p Hh Hl Hc Hs Hp Hp' HL _. eapply agree_by; [apply (cmi_fun _ _ _ _ _ p)|apply cmi_ref_fun]; auto; try (apply RA_int; zl); lia. Qed.
Print Assumptions C36_cmi.
Example C36_extremes_case : let h := [3; 6; 9]%R in let l := [1; 3; 5]%R in let c := [2; 4; 8]%R in
  agree (A := RA) ti_ce ti_ce_ref 3 [h; l; c] [2%R; 1%R] /\ agree (A := RA) ti_mhlma ti_mhlma_ref 3 [c] [2%R; 2%R] /\
  agree (A := RA) ti_smi ti_smi_ref 3 [h; l; c] [2%R; 1%R; 3%R] /\ agree (A := RA) ti_cmi ti_cmi_ref 3 [h; l; c] [2%R].
Proof.
  cbv zeta. split; [apply (C36_ce 3 _ _ _ 2); r1; upto4; nums; lra|]. split; [apply (C36_mhlma 3 _ 2 2); r1|]. split; [apply (C36_smi 3 _ _ _ 2 1 3); r1; upto4; nums; unlt; lra|].
  apply (C36_cmi 3 _ _ _ 2); r1; upto4; cbv -[Rplus Rmult Rminus Rdiv Rinv Ropp IZR Rabs Rltb Rleb Rlt Rle]; unabs; unlt; lra.
Qed.

(** ce on a bar whose low is above its high: the indicator's true range is max(high, close) - min(low, close),
    the reference's the largest of three differences. *)
Theorem C36_ce_refuted : exists h l c : list (@T F64c), h = [dbl 5 0; dbl 1 0] /\ l = [dbl 3 0; dbl 3 0] /\ c = [dbl 2 0; dbl 2 0] /\
  @ti_ce F64c 2 [h; l; c] [dbl 2 0; dbl 1 0] = Ok (OKAY, [[dbl 4 0]; [dbl 4 0]]) /\
  @ti_ce_ref F64c 2 [h; l; c] [dbl 2 0; dbl 1 0] = Ok (OKAY, [[dbl 35 1]; [dbl 45 1]]).
Proof. do 3 eexists. do 3 (split; [reflexivity|]). vm_compute. split; reflexivity. Qed.
Print Assumptions C36_ce_refuted.

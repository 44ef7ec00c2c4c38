(** C41: the lines of pc and ichi are the extremes of their windows. *)
From Coq Require Import String Floats.SpecFloat.
From Verif Require Import C_stream6 Fun_ext RArith F64 F64Ord F64Laws Properties_contracts Properties_stream Properties_stream3.
From Coq Require Import ZifyBool.
Open Scope Z_scope.

(** The spec is Fun_ext.v's [highest], [lowest], [channel] and [spanA_ok]: the value occurs in the
    window and no bar of the window lies beyond it. *)
(** pc: output j is the lowest low and the highest high of bars j .. j+p-1. *)
Theorem C41_pc : forall lm pw, let A := F64 lm pw in forall size x y o p,
  @to_int A o = Some p -> 2 <= p -> zlen x = size -> zlen y = size -> Forall plain x -> Forall plain y ->
  exists lo hi, @ti_pc A size [x; y] [o] = Ok (OKAY, [lo; hi]) /\
  (zlen lo = Z.max 0 (size - (p - 1)) /\ forall j, 0 <= j < zlen lo -> @lowest A y j (j + p) (@zf A lo j)) /\
  (zlen hi = Z.max 0 (size - (p - 1)) /\ forall j, 0 <= j < zlen hi -> @highest A x j (j + p) (@zf A hi j)).
Proof. intros lm pw A. exact (@pc_values A plain (plain_laws lm pw) (plain_inf lm pw)). Qed.
Print Assumptions C41_pc.

(** ichi with periods a <= b <= c: tenkan and kijun are the middles of the last a and b bars; the
    spans are those of b bars earlier, span A the mean of tenkan and kijun, span B the middle of c
    bars. *)
Theorem C41_ichi : forall lm pw, let A := F64 lm pw in forall size x y o0 o1 o2 a b c,
  @to_int A o0 = Some a -> @to_int A o1 = Some b -> @to_int A o2 = Some c ->
  1 <= a -> a <= b -> b <= c -> c - 1 + b <= INT_MAX -> b + 1 <= INT_MAX -> zlen x = size -> zlen y = size -> Forall plain x -> Forall plain y ->
  exists t k sa sb, @ti_ichi A size [x; y] [o0; o1; o2] = Ok (OKAY, [t; k; sa; sb]) /\
  let n := Z.max 0 (size - (c - 1 + b)) in let st := c - 1 + b in
  (zlen t = n /\ forall j, 0 <= j < n -> @channel A x y a (st + j) (@zf A t j)) /\
  (zlen k = n /\ forall j, 0 <= j < n -> @channel A x y b (st + j) (@zf A k j)) /\
  (zlen sa = n /\ forall j, 0 <= j < n -> @spanA_ok A x y a b (st + j - b) (@zf A sa j)) /\
  (zlen sb = n /\ forall j, 0 <= j < n -> @channel A x y c (st + j - b) (@zf A sb j)).
Proof. intros lm pw A. exact (@ichi_values A plain (plain_laws lm pw) (plain_inf lm pw)). Qed.
Print Assumptions C41_ichi.

(** The hypotheses can be met: periods 1, 2, 3 over six bars (for pc see C30_extremes_example). *)
Example C41_example :
  let h := [dbl 5 0; dbl 3 0; dbl 4 0; dbl 7 0; dbl 2 0; dbl 9 0] in let l := [dbl 1 0; dbl 2 0; dbl 1 0; dbl 1 0; dbl 0 0; dbl 6 0] in
  Forall plain h /\ Forall plain l /\
  @ti_ichi F64c 6 [h; l] [dbl 1 0; dbl 2 0; dbl 3 0] = Ok (OKAY, [[dbl 1 0; dbl 75 1]; [dbl 35 1; dbl 45 1]; [dbl 25 1; dbl 4 0]; [dbl 3 0; dbl 4 0]]) /\
  @channel F64c h l 3 3 (dbl 4 0).
Proof.
  cbv zeta. split; [repeat constructor; vm_compute; discriminate|]. split; [repeat constructor; vm_compute; discriminate|]. split; [vm_compute; reflexivity|].
  exists (dbl 7 0), (dbl 1 0). split; [|split; [|vm_compute; reflexivity]].
  - split; [exists 3; split; [lia|reflexivity]|]. intros k Hk. assert (E : k = 1 \/ k = 2 \/ k = 3) by lia. destruct E as [-> | [-> | ->]]; vm_compute; reflexivity.
  - split; [exists 2; split; [lia|reflexivity]|]. intros k Hk. assert (E : k = 1 \/ k = 2 \/ k = 3) by lia. destruct E as [-> | [-> | ->]]; vm_compute; reflexivity.
Qed.

(** What mesastoch computes, as one equation per bar, in any arithmetic. *)
From Verif Require Export Arith Spec.
Open Scope Z_scope.

Section S.
Context {A : Arith}.
(** The largest and the smallest of the values at a..b. *)
Definition largest (f : Z -> T) (a b : Z) (v : T) : Prop := (exists k, a <= k <= b /\ v = f k) /\ forall j, a <= j <= b -> (f j .<= v) = true.
Definition smallest (f : Z -> T) (a b : Z) (v : T) : Prop := (exists k, a <= k <= b /\ v = f k) /\ forall j, a <= j <= b -> (v .<= f j) = true.
(** A two-pole high-pass filter, a two-pole smoother, the stochastic of the smoothed series over [n] bars, and the
    smoother applied to the stochastic.  Everything is 0 before bar 2, the last two before bar n + 2. *)
Record mesa := Mesa { q_hp : Z -> T; q_filt : Z -> T; q_stoc : Z -> T; q_res : Z -> T }.
Definition mesa_bar (alpha1 c1 c2 c3 : T) (stoc : T -> T -> T -> T) (n : Z) (x : list T) (q : mesa) (i : Z) : Prop :=
  let smoother (u y : Z -> T) := c1 .* (u i .+ u (i - 1)) ./ #2 .+ c2 .* y (i - 1) .+ c3 .* y (i - 2) in
  if i <? 2 then q_hp q i = #0 /\ q_filt q i = #0 /\ q_stoc q i = #0 /\ q_res q i = #0
  else
  q_hp q i = (#1 .- alpha1 ./ #2) .* (#1 .- alpha1 ./ #2) .* (zf x i .- #2 .* zf x (i - 1) .+ zf x (i - 2))
    .+ #2 .* (#1 .- alpha1) .* q_hp q (i - 1) .- (#1 .- alpha1) .* (#1 .- alpha1) .* q_hp q (i - 2) /\
  q_filt q i = smoother (q_hp q) (q_filt q) /\
  if i <? n + 2 then q_stoc q i = #0 /\ q_res q i = #0
  else (exists hi lo, largest (q_filt q) (i - n + 1) i hi /\ smallest (q_filt q) (i - n + 1) i lo /\ q_stoc q i = stoc (q_filt q i) hi lo) /\
    q_res q i = smoother (q_stoc q) (q_res q).
(** The stochastic, with and without the test for zero. *)
Definition stoc_tested (f hi lo : T) : T := if (f .- lo) .!= #0 then (f .- lo) ./ (hi .- lo) else #0.
Definition stoc_plain (f hi lo : T) : T := (f .- lo) ./ (hi .- lo).
End S.

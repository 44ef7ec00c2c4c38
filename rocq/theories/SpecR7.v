(** What mesastoch computes on real prices, as one equation per bar. *)
From Verif Require Export SpecR6.
From Coq Require Import Reals List ZArith.
Open Scope Z_scope.

Local Open Scope R_scope.
(** The angle of the high-pass filter for a cycle of [m] bars, in radians. *)
Definition stoch_w (m : Z) : R := 707 / 1000 * 360 / IZR m * (3141592 / 1000000) / 180.
Definition stoch_alpha (m : Z) : R := (cos (stoch_w m) + sin (stoch_w m) - 1) / cos (stoch_w m).
(** The smoother: poles of modulus [stoch_a], and the gain that makes it keep a constant. *)
Definition stoch_a : R := exp (- (1414 / 1000) * (3141459 / 1000000) / 10).
Definition stoch_t : R := 1414 / 1000 * 180 / 10 * (3141592 / 1000000) / 180.
Definition stoch_b : R := 2 * stoch_a * cos stoch_t.
Definition stoch_gain : R := 1 - stoch_b + stoch_a * stoch_a.
Definition stoch_smooth (x f : Z -> R) (i : Z) : R :=
  stoch_gain * ((x i + x (i - 1)%Z) / 2) + stoch_b * f (i - 1)%Z - stoch_a * stoch_a * f (i - 2)%Z.
(** Where [f i] lies between the lowest and the highest of f a .. f i; 0 at the lowest. *)
Definition stoch_pos (f : Z -> R) (a i : Z) : R :=
  if Reqb (f i) (trough f a i) then 0 else (f i - trough f a i) / (peak f a i - trough f a i).
(** High-pass [h], smoothed [f], position [s] in the last [n] bars, result [r]. *)
Definition mesastoch_at (m n : Z) (x h f s r : Z -> R) (i : Z) : Prop :=
  if (i <? 2)%Z then h i = 0 /\ f i = 0 /\ s i = 0 /\ r i = 0
  else
  h i = (1 - stoch_alpha m / 2) * (1 - stoch_alpha m / 2) * (x i - 2 * x (i - 1)%Z + x (i - 2)%Z)
        + 2 * (1 - stoch_alpha m) * h (i - 1)%Z - (1 - stoch_alpha m) * (1 - stoch_alpha m) * h (i - 2)%Z /\
  f i = stoch_smooth h f i /\
  if (i <? n + 2)%Z then s i = 0 /\ r i = 0 else s i = stoch_pos f (i - n + 1)%Z i /\ r i = stoch_smooth s r i.

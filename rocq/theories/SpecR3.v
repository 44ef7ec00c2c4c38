(** Spec: the formulas of the remaining moving averages, in exact real arithmetic. *)
From Verif Require Export SpecR2.
Open Scope Z_scope.

(** kama: the net change over the path of the last [p] bars; 1 when nothing moved. *)
Definition path (p : Z) (x : list R) (i : Z) : R := zsum (i - p + 1) (i + 1) (fun j => Rabs (zr x j - zr x (j - 1))).
Definition efficiency (p : Z) (x : list R) (i : Z) : R :=
  if Reqb (path p x i) 0 then 1%R else (Rabs (zr x i - zr x (i - p)) / path p x i)%R.
(** The share of the distance to the new price taken by bar i: between the weights of a 30-bar and a
    2-bar exponential average, squared. *)
Definition kama_share (p : Z) (x : list R) (i : Z) : R :=
  let s := (2 / 31 + efficiency p x i * (2 / 3 - 2 / 31))%R in (s * s)%R.
Definition kama_at (p : Z) (x : list R) (i : Z) : R :=
  trec (fun j v => v + kama_share p x j * (zr x j - v))%R p (i + 1) (zr x (p - 1)).

(** vidya: the share is alpha times the ratio of the short to the long standard deviation. *)
Definition vidya_share (s g : Z) (alpha : R) (x : list R) (i : Z) : R :=
  if Reqb (last_sd s (zr x) i) 0 then 0%R else (alpha * (last_sd s (zr x) i / last_sd g (zr x) i))%R.
Definition vidya_at (s g : Z) (alpha : R) (x : list R) (i : Z) : R :=
  trec (fun j v => v + vidya_share s g alpha x j * (zr x j - v))%R (g - 1) (i + 1) (zr x (g - 2)).

(** trima: weights rising from 1 to the middle of the window and falling back to 1. *)
Definition triw (p j : Z) : R := IZR (Z.min (j + 1) (p - j)).
Definition trima_at (p : Z) (x : list R) (i : Z) : R :=
  (zsum 0 p (fun j => triw p j * zr x (i - p + 1 + j)) / zsum 0 p (triw p))%R.

(** The linearly weighted mean of the last [p] values of [f]; the newest weighs p. *)
Definition wma_of (p : Z) (f : Z -> R) (i : Z) : R :=
  (zsum (i - p + 1) (i + 1) (fun j => IZR (j - i + p) * f j) / (IZR (p * (p + 1)) / 2))%R.
(** hma: twice the weighted mean of half the period less that of the whole, averaged once more. *)
Definition hma_at (p : Z) (x : list R) (i : Z) : R :=
  wma_of (Z.sqrt p) (fun j => 2 * wma_of (p / 2) (zr x) j - wma_of p (zr x) j)%R i.

(** zlema: the exponential average of the price extrapolated by [lag] bars. *)
Definition zlema_at (p : Z) (x : list R) (i : Z) : R :=
  let lag := (p - 1) / 2 in
  trec (fun j v => v + 2 / (IZR p + 1) * (2 * zr x j - zr x (j - lag) - v))%R lag (i + 1) (zr x (lag - 1)).

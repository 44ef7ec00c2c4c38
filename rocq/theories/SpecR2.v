(** Spec: the formulas of the batch indicators, in exact real arithmetic, as functions of the whole
    series.  Vocabulary as in SpecR.v. *)
From Verif Require Export SpecR.
Open Scope Z_scope.

(** ** Directional movement *)
(** The upward movement of bar [i] if it is positive and at least as large as the downward one. *)
Definition dm_up (h l : list R) (i : Z) : R :=
  let up := (zr h i - zr h (i - 1))%R in let down := (zr l (i - 1) - zr l i)%R in
  if Rltb 0 up && Rleb down up then up else 0%R.
Definition dm_down (h l : list R) (i : Z) : R :=
  let up := (zr h i - zr h (i - 1))%R in let down := (zr l (i - 1) - zr l i)%R in
  if Rltb 0 down && Rleb up down then down else 0%R.
(** Wilder's running sum at bar [i >= p-1]: the sum of f 1, .., f (p-1) at bar p-1; every later bar
    drops the p-th part and adds the new value. *)
Definition wsum (p : Z) (f : Z -> R) (i : Z) : R :=
  trec (fun j s => s * ((IZR p - 1) / IZR p) + f j)%R p (i + 1) (zsum 1 p f).
(** The index: 100 times the difference over the sum. *)
Definition dx_of (u d : R) : R := if Reqb (u + d) 0 then 0%R else (Rabs (u - d) / (u + d) * 100)%R.
Definition dx_at (p : Z) (h l : list R) (i : Z) : R := dx_of (wsum p (dm_up h l) i) (wsum p (dm_down h l) i).
(** Wilder's mean of the index: at bar 2p-2 the plain mean of the p values so far, then
    m * (p-1)/p + new / p. *)
Definition adx_at (p : Z) (h l : list R) (i : Z) : R :=
  trec (fun j m => m * ((IZR p - 1) / IZR p) + dx_at p h l j / IZR p)%R (2 * p - 1) (i + 1)
       (zsum (p - 1) (2 * p - 1) (dx_at p h l) / IZR p)%R.
(** The true range of bar [i]. *)
Definition range_at (h l c : list R) (i : Z) : R :=
  Rmax (zr h i - zr l i) (Rmax (Rabs (zr h i - zr c (i - 1))) (Rabs (zr l i - zr c (i - 1)))).

(** ** Exponential averages of a function of the bar *)
(** Exponential average of [f] with period [p], started at bar [s] with the value [f s]. *)
Definition efrom (p : Z) (f : Z -> R) (s i : Z) : R :=
  trec (fun j v => (f j - v) * (2 / (IZR p + 1)) + v)%R (s + 1) (i + 1) (f s).
(** The average of the average, and the average of that one; each starts p-1 bars later. *)
Definition ema1 (p : Z) (x : list R) (i : Z) : R := efrom p (zr x) 0 i.
Definition ema2 (p : Z) (x : list R) (i : Z) : R := efrom p (ema1 p x) (p - 1) i.
Definition ema3 (p : Z) (x : list R) (i : Z) : R := efrom p (ema2 p x) (2 * p - 2) i.

(** Chaikin's accumulation: the share of the volume given by the place of the close in the range. *)
Definition chaikin (h l c v : list R) (i : Z) : R :=
  if Reqb (zr h i - zr l i) 0 then 0%R else ((2 * zr c i - zr l i - zr h i) / (zr h i - zr l i) * zr v i)%R.
Definition ad_line (h l c v : list R) (i : Z) : R := zsum 0 (i + 1) (chaikin h l c v).

(** ** Windows *)
(** The mean of the last [p] values of [f] at bar [i]. *)
Definition last_mean (p : Z) (f : Z -> R) (i : Z) : R := (zsum (i - p + 1) (i + 1) f / IZR p)%R.
Definition median_price (h l : list R) (i : Z) : R := ((zr h i + zr l i) / 2)%R.
(** cci: distance of the typical price from its mean, in units of 0.015 mean deviations. *)
Definition cci_at (p : Z) (h l c : list R) (i : Z) : R :=
  let m := last_mean p (typ h l c) i in
  let d := last_mean p (fun j => Rabs (typ h l c j - m)) i in
  if Reqb d 0 then 0%R else ((typ h l c i - m) / (15 / 1000 * d))%R.
(** mfi: typical price times volume of the bars that rose and of those that fell. *)
Definition flow_up (h l c v : list R) (i : Z) : R :=
  if Rltb (typ h l c (i - 1)) (typ h l c i) then (typ h l c i * zr v i)%R else 0%R.
Definition flow_down (h l c v : list R) (i : Z) : R :=
  if Rltb (typ h l c i) (typ h l c (i - 1)) then (typ h l c i * zr v i)%R else 0%R.
Definition mfi_at (p : Z) (h l c v : list R) (i : Z) : R :=
  let u := zsum (i - p + 1) (i + 1) (flow_up h l c v) in
  let d := zsum (i - p + 1) (i + 1) (flow_down h l c v) in
  if Reqb u 0 then 0%R else (100 * (u / (u + d)))%R.
(** volatility: the relative change of a bar (0 after a zero price). *)
Definition change_at (x : list R) (i : Z) : R := if Reqb (zr x (i - 1)) 0 then 0%R else (zr x i / zr x (i - 1) - 1)%R.
(** The standard deviation of the last [p] values of [f]. *)
Definition last_sd (p : Z) (f : Z -> R) (i : Z) : R :=
  sqrt (last_mean p (fun j => (f j - last_mean p f i) * (f j - last_mean p f i))%R i).

(** mass: the average range over its own average. *)
Definition rng (h l : list R) (i : Z) : R := (zr h i - zr l i)%R.
Definition mass_ratio (h l : list R) (i : Z) : R :=
  (efrom 9 (rng h l) 0 i / efrom 9 (efrom 9 (rng h l) 0) 8 i)%R.
(** kvo: the trend is 1 after a rise of high+low+close, 0 after a fall, -1 before the first of
    them; [kvo_since] is the bar before the last change of the trend (1 before the first). *)
Definition kvo_hlc (h l c : list R) (i : Z) : R := (zr h i + zr l i + zr c i)%R.
Definition kvo_dir (h l c : list R) (i : Z) (t : Z) : Z :=
  if Rltb (kvo_hlc h l c (i - 1)) (kvo_hlc h l c i) then 1
  else if Rltb (kvo_hlc h l c i) (kvo_hlc h l c (i - 1)) then 0 else t.
Definition kvo_trend (h l c : list R) (i : Z) : Z := trec (kvo_dir h l c) 1 (i + 1) (-1).
Definition kvo_since (h l c : list R) (i : Z) : Z :=
  trec (fun j s => if kvo_trend h l c j =? kvo_trend h l c (j - 1) then s else j - 1) 1 (i + 1) 1.
(** The volume force: the range of the bar against the ranges of the trend so far. *)
Definition kvo_force (h l c v : list R) (i : Z) : R :=
  let cm := zsum (kvo_since h l c i) (i + 1) (rng h l) in
  if Reqb (rng h l i) 0 then 0%R
  else (zr v i * Rabs (2 * (rng h l i / cm) - 1) * 100 * (if kvo_trend h l c i =? 0 then -1 else 1))%R.
(** di: a movement in percent of the range, 0 without movement. *)
Definition pct (u r : R) : R := if Reqb u 0 then 0%R else (100 * u / r)%R.
(** The close lies between the low and the high of every bar. *)
Definition proper_bars (size : Z) (h l c : list R) : Prop := forall i, 0 <= i < size -> (zr l i <= zr c i <= zr h i)%R.
(** cmf: the accumulation of the last p bars over their volume, 0 without volume. *)
Definition cmf_at (p : Z) (h l c v : list R) (i : Z) : R :=
  let s := zsum (i - p + 1) (i + 1) (zr v) in
  if Reqb s 0 then 0%R else (zsum (i - p + 1) (i + 1) (chaikin h l c v) / s)%R.

(** Spec: the parabolic stop and the oscillators over window extremes, in exact real arithmetic. *)
From Verif Require Export SpecR3.
Open Scope Z_scope.

(** The highest and the lowest of f s .. f i. *)
Definition peak (f : Z -> R) (s i : Z) : R := trec (fun j m => Rmax m (f j)) (s + 1) (i + 1) (f s).
Definition trough (f : Z -> R) (s i : Z) : R := trec (fun j m => Rmin m (f j)) (s + 1) (i + 1) (f s).
(** How many of the bars s+1 .. i set a new high (low) since bar s. *)
Definition new_highs (f : Z -> R) (s i : Z) : Z := trec (fun j n => if Rltb (peak f s (j - 1)) (f j) then n + 1 else n) (s + 1) (i + 1) 0.
Definition new_lows (f : Z -> R) (s i : Z) : Z := trec (fun j n => if Rltb (f j) (trough f s (j - 1)) then n + 1 else n) (s + 1) (i + 1) 0.

(** psar: the stop belongs to a trend (up or not) that began at bar [since].  The acceleration counts
    the new extremes of the trend; the stop moves by that part of its distance to the extreme and is
    held outside the two bars before; a bar that crosses it ends the trend, and the new stop is the
    extreme the old trend reached. *)
Record trend := Trend { up : bool; since : Z; stop : R }.
Definition accel_of (step top : R) (n : Z) : R := Rmin top (step * IZR (n + 1)).
Definition hold_below (l : list R) (i : Z) (s : R) : R := Rmin (if i <? 2 then s else Rmin s (zr l (i - 2))) (zr l (i - 1)).
Definition hold_above (h : list R) (i : Z) (s : R) : R := Rmax (if i <? 2 then s else Rmax s (zr h (i - 2))) (zr h (i - 1)).
Definition psar_next (step top : R) (h l : list R) (i : Z) (t : trend) : trend :=
  let b := since t in
  if up t then
    let s := hold_below l i (stop t + accel_of step top (new_highs (zr h) b (i - 1)) * (peak (zr h) b (i - 1) - stop t)) in
    if Rltb (zr l i) s then Trend false i (peak (zr h) b i) else Trend true b s
  else
    let s := hold_above h i (stop t + accel_of step top (new_lows (zr l) b (i - 1)) * (trough (zr l) b (i - 1) - stop t)) in
    if Rltb s (zr h i) then Trend true i (trough (zr l) b i) else Trend false b s.
Definition psar_first (h l : list R) : trend :=
  if Rleb (zr h 0 + zr l 0) (zr h 1 + zr l 1) then Trend true 0 (zr l 0) else Trend false 0 (zr h 0).
Definition psar_at (step top : R) (h l : list R) (i : Z) : trend := trec (psar_next step top h l) 1 (i + 1) (psar_first h l).

(** ultosc: buying pressure over true range, summed over three lengths. *)
Definition true_low (l c : list R) (i : Z) : R := Rmin (zr l i) (zr c (i - 1)).
Definition true_high (h c : list R) (i : Z) : R := Rmax (zr h i) (zr c (i - 1)).
Definition pressure (l c : list R) (i : Z) : R := (zr c i - true_low l c i)%R.
Definition full_range (h l c : list R) (i : Z) : R := (true_high h c i - true_low l c i)%R.
Definition lastsum (p : Z) (f : Z -> R) (i : Z) : R := zsum (i - p + 1) (i + 1) f.
Definition share (a b : R) : R := if Reqb a 0 then 0%R else (a / b)%R.
Definition pressure_share (p : Z) (h l c : list R) (i : Z) : R := share (lastsum p (pressure l c) i) (lastsum p (full_range h l c) i).
Definition ultosc_at (s m g : Z) (h l c : list R) (i : Z) : R :=
  ((4 * pressure_share s h l c i + 2 * pressure_share m h l c i + pressure_share g h l c i) * 100 / 7)%R.

(** stochrsi: the place of the relative strength index in the range of its last p values. *)
Definition gain (x : list R) (i : Z) : R := Rmax 0 (zr x i - zr x (i - 1)).
Definition loss (x : list R) (i : Z) : R := Rmax 0 (zr x (i - 1) - zr x i).
(** Wilder's average of f 1 .. f i, started with the mean of the first p. *)
Definition wilder_from (p : Z) (f : Z -> R) (i : Z) : R :=
  trec (fun j v => v + (f j - v) / IZR p)%R (p + 1) (i + 1) (zsum 1 (p + 1) f / IZR p)%R.
Definition rsi_at (p : Z) (x : list R) (i : Z) : R :=
  let u := wilder_from p (gain x) i in let d := wilder_from p (loss x) i in
  if Reqb u 0 then 0%R else (100 * (u / (u + d)))%R.
Definition stochrsi_at (p : Z) (x : list R) (i : Z) : R :=
  let lo := trough (rsi_at p x) (i - p + 1) i in let hi := peak (rsi_at p x) (i - p + 1) i in
  if Reqb (hi - lo) 0 then 0%R else ((rsi_at p x i - lo) / (hi - lo))%R.

(** vhf: the height of the last p values over the path that led there. *)
Definition vhf_at (p : Z) (x : list R) (i : Z) : R := share (peak (zr x) (i - p + 1) i - trough (zr x) (i - p + 1) i) (path p x i).

(** fisher: the place of the median price in its range, smoothed, cut at 0.999 and transformed. *)
Definition fisher_place (p : Z) (h l : list R) (i : Z) : R :=
  let m := median_price h l in let r := (peak m (i - p + 1) i - trough m (i - p + 1) i)%R in
  ((m i - trough m (i - p + 1) i) / (if Reqb r 0 then 1 / 1000 else r) - 1 / 2)%R.
Definition cut (v : R) : R := if Rltb (99 / 100) v then (999 / 1000)%R else if Rltb v (- (99 / 100)) then (- (999 / 1000))%R else v.
Definition fisher_val (p : Z) (h l : list R) (i : Z) : R := trec (fun j v => cut (66 / 100 * fisher_place p h l j + 67 / 100 * v))%R (p - 1) (i + 1) 0%R.
Definition fisher_at (p : Z) (h l : list R) (i : Z) : R :=
  trec (fun j f => (ln ((1 + fisher_val p h l j) / (1 - fisher_val p h l j)) + f) / 2)%R (p - 1) (i + 1) 0%R.

(** kc: an exponential average of any real period, started at the first bar, and the true range whose
    first bar has no close before it. *)
Definition ema_run (p : R) (f : Z -> R) (i : Z) : R := trec (fun j v => v + 2 / (p + 1) * (f j - v))%R 1 (i + 1) (f 0).
Definition bar_range (h l c : list R) (i : Z) : R :=
  if i =? 0 then (zr h 0 - zr l 0)%R else (Rmax (zr h i) (zr c (i - 1)) - Rmin (zr l i) (zr c (i - 1)))%R.

(** msw: the phase of the cycle of length p in the last p prices, with the seven digit pi of the code. *)
Definition pi7 : R := (31415926 / 10000000)%R.
Definition cycle_re (p : Z) (x : list R) (i : Z) : R := zsum 0 p (fun j => cos (2 * pi7 * IZR j / IZR p) * zr x (i - j))%R.
Definition cycle_im (p : Z) (x : list R) (i : Z) : R := zsum 0 p (fun j => sin (2 * pi7 * IZR j / IZR p) * zr x (i - j))%R.
Definition cycle_angle (re im : R) : R :=
  ((if Rltb (1 / 1000) (Rabs re) then atan (im / re) else if Rltb im 0 then - pi7 else pi7) + (if Rltb re 0 then pi7 else 0) + pi7 / 2)%R.
(** Brought back into one turn. *)
Definition one_turn (a : R) : R :=
  let b := if Rltb a 0 then (a + 2 * pi7)%R else a in if Rltb (2 * pi7) b then (b - 2 * pi7)%R else b.
Definition msw_phase (p : Z) (x : list R) (i : Z) : R := one_turn (cycle_angle (cycle_re p x i) (cycle_im p x i)).

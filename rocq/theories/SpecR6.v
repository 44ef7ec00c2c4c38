(** What hwma, ahma, ehma, edcf, rvi, frama, hd and mama compute, as one formula or one equation per bar. *)
From Verif Require Export SpecR5 RSum.
From Coq Require Import Reals List ZArith Bool.
Import ListNotations.
Open Scope Z_scope.

(** ** Henderson's weights in thousandths, newest bar first: hwma.cc:20-30 *)
Definition henderson (p : Z) : list Z :=
  if p =? 7 then [421; 353; 244; 120; 12; -58; -92]
  else if p =? 8 then [279; 292; 254; 174; 80; 2; -38; -43]
  else if p =? 9 then [148; 216; 241; 216; 149; 68; 3; -25; -16]
  else if p =? 10 then [46; 131; 201; 230; 208; 145; 66; 4; -22; -9]
  else if p =? 11 then [-18; 50; 136; 205; 235; 210; 145; 67; 3; -22; -11]
  else if p =? 12 then [-34; -6; 61; 144; 212; 238; 213; 147; 66; 1; -25; -17]
  else [-19; -28; 0; 66; 147; 214; 240; 214; 147; 66; 0; -28; -19].
Definition hwma_at (p : Z) (x : Z -> R) (i : Z) : R := zsum 0 p (fun j => IZR (nth (Z.to_nat j) (henderson p) 0%Z) / 1000 * x (i - j)%Z)%R.

(** ** Ahrens: the first [p] bars are the prices, then a [p]-th of the way from the average of its last
    value and its value [p] bars ago *)
Definition ahma_at (p : Z) (x f : Z -> R) (i : Z) : Prop :=
  f i = if (i <? p)%Z then x i else (f (i - 1)%Z + (x i - (f (i - 1)%Z + f (i - p)%Z) / 2) / IZR p)%R.

(** ** Exponential Hull average *)
Definition ehma_at (p : Z) (x : Z -> R) (i : Z) : R :=
  ema_run (sqrt (IZR p)) (fun j => 2 * ema_run (IZR p / 2) x j - ema_run (IZR p) x j)%R i.

(** ** Ehlers distance coefficient filter: each of the last [p] prices weighs its squared distances to the
    [p - 1] prices before it *)
Definition edcf_weight (p : Z) (x : Z -> R) (i k : Z) : R := zsum 1 p (fun l => (x (i - k)%Z - x (i - k - l)%Z) * (x (i - k)%Z - x (i - k - l)%Z))%R.
Definition edcf_at (p : Z) (x : Z -> R) (i : Z) : R :=
  let total := zsum 0 p (edcf_weight p x i) in
  if Reqb total 0 then 0%R else (zsum 0 p (fun k => edcf_weight p x i k * x (i - k)%Z) / total)%R.

(** ** rvi: the price is compared with the end of the least-squares line of its window; the squared
    distance goes into the average of its side, the other average stays as it is *)
Definition above_line (p : Z) (x : list R) (i : Z) : R := (zr x i - (lr_icept (i - p + 1) p x + lr_slope (i - p + 1) p x * IZR p))%R.
Definition side_avg (side : bool) (e p : Z) (x : list R) (i : Z) : R :=
  trec (fun j v => if eqb (Rltb 0 (above_line p x j)) side
                   then (v + 2 / (IZR e + 1) * (above_line p x j * above_line p x j / IZR p - v))%R else v) (p - 1) (i + 1) 0%R.
Definition rvi_at (e p : Z) (x : list R) (i : Z) : R :=
  let g := side_avg true e p x i in let l := side_avg false e p x i in
  if Reqb g 0 then 50%R else (100 * (g / (g + l)))%R.

(** ** frama: fractal dimension of the window from its two halves *)
Definition spread (h l : Z -> R) (s i : Z) : R := (peak h s i - trough l s i)%R.
Definition frama_dimension (p : Z) (h l : Z -> R) (i : Z) : R :=
  let n1 := (spread h l (i - p / 2 + 1) i / IZR (p / 2))%R in
  let n2 := (spread h l (i - p + 1) (i - p / 2) / IZR (p / 2))%R in
  let n3 := (spread h l (i - p + 1) i / IZR p)%R in
  if Rltb 0 n1 && Rltb 0 n2 && Rltb 0 n3 then ((ln (n1 + n2) - ln n3) / ln 2)%R else 0%R.
Definition frama_alpha (p : Z) (avg : R) (h l : Z -> R) (i : Z) : R :=
  Rmin 1 (Rmax (1 / 100) (exp (ln (2 / (1 + avg)) * (frama_dimension p h l i - 1)))).
Definition frama_at (p : Z) (avg : R) (h l f : Z -> R) (i : Z) : Prop :=
  let mid := ((h i + l i) / 2)%R in
  f i = if (i <? p)%Z then mid else (frama_alpha p avg h l i * mid + (1 - frama_alpha p avg h l i) * f (i - 1)%Z)%R.

(** ** Ehlers' homodyne discriminator: ten sequences, all 0 before the first bar it handles *)
Record cycle := Cycle { c_smooth : Z -> R; c_detrend : Z -> R; c_I1 : Z -> R; c_Q1 : Z -> R; c_I2 : Z -> R; c_Q2 : Z -> R;
  c_Re : Z -> R; c_Im : Z -> R; c_period : Z -> R; c_avg : Z -> R }.
(** Hilbert transformer, scaled by the last period. *)
Definition hilbert (last : R) (f : Z -> R) (i : Z) : R :=
  ((962 / 10000 * f i + 5769 / 10000 * f (i - 2)%Z - 5769 / 10000 * f (i - 4)%Z - 962 / 10000 * f (i - 6)%Z) * (75 / 1000 * last + 54 / 100))%R.
(** At most half as long again as the last period, at least 67 hundredths of it, and between 6 and 50. *)
Definition within (raw last : R) : R := Rmin (Rmax (Rmax (Rmin raw (15 / 10 * last)) (67 / 100 * last)) 6) 50.
Definition cycle_at (circle : R) (first : Z) (x : Z -> R) (c : cycle) (i : Z) : Prop :=
  if (i <? first)%Z then c_smooth c i = 0%R /\ c_detrend c i = 0%R /\ c_I1 c i = 0%R /\ c_Q1 c i = 0%R /\ c_I2 c i = 0%R /\ c_Q2 c i = 0%R /\
    c_Re c i = 0%R /\ c_Im c i = 0%R /\ c_period c i = 0%R /\ c_avg c i = 0%R
  else let last := c_period c (i - 1)%Z in
  (c_smooth c i = (4 * x i + 3 * x (i - 1)%Z + 2 * x (i - 2)%Z + x (i - 3)%Z) / 10)%R /\
  c_detrend c i = hilbert last (c_smooth c) i /\
  c_Q1 c i = hilbert last (c_detrend c) i /\
  c_I1 c i = c_detrend c (i - 3)%Z /\
  (c_I2 c i = 2 / 10 * (c_I1 c i - hilbert last (c_Q1 c) i) + 8 / 10 * c_I2 c (i - 1)%Z)%R /\
  (c_Q2 c i = 2 / 10 * (c_Q1 c i + hilbert last (c_I1 c) i) + 8 / 10 * c_Q2 c (i - 1)%Z)%R /\
  (c_Re c i = 2 / 10 * (c_I2 c i * c_I2 c (i - 1)%Z + c_Q2 c i * c_Q2 c (i - 1)%Z) + 8 / 10 * c_Re c (i - 1)%Z)%R /\
  (c_Im c i = 2 / 10 * (c_I2 c i * c_Q2 c (i - 1)%Z - c_Q2 c i * c_I2 c (i - 1)%Z) + 8 / 10 * c_Im c (i - 1)%Z)%R /\
  (let raw := if Reqb (c_Im c i) 0 || Reqb (c_Re c i) 0 then c_period c (i - 2)%Z else (circle / atan (c_Im c i / c_Re c i))%R in
   c_period c i = 2 / 10 * within raw last + 8 / 10 * last)%R /\
  (c_avg c i = 33 / 100 * c_period c i + 67 / 100 * c_avg c (i - 1)%Z)%R.

(** mama: the step size from the change of phase, and the two averages, all 0 before bar 6 *)
Definition mama_alpha (fast slow : R) (phase : Z -> R) (i : Z) : R := Rmax slow (fast / Rmax 1 (phase (i - 1)%Z - phase i)).
Definition mama_at (fast slow : R) (x : Z -> R) (c : cycle) (phase m f : Z -> R) (i : Z) : Prop :=
  if (i <? 6)%Z then phase i = 0%R /\ m i = 0%R /\ f i = 0%R
  else let a := mama_alpha fast slow phase i in
  phase i = (if Reqb (c_I1 c i) 0 then 0 else atan (c_Q1 c i / c_I1 c i))%R /\
  (m i = a * x i + (1 - a) * m (i - 1)%Z)%R /\
  (f i = a / 2 * m i + (1 - a / 2) * f (i - 1)%Z)%R.

(** arsi: relative strength over a fraction of the measured period *)
Definition arsi_at (cycpart : R) (x : Z -> R) (c : cycle) (i : Z) : R :=
  let n := Z.min (Int_part (cycpart * c_avg c i)) i in
  let up := zsum 0 n (fun k => Rmax 0 (x (i - k)%Z - x (i - k - 1)%Z))%R in
  let down := zsum 0 n (fun k => Rmax 0 (x (i - k - 1)%Z - x (i - k)%Z))%R in
  if Reqb (up + down) 0 then 0%R else (100 * up / (up + down))%R.

(** Spec: the formulas of the indicators proved in exact real arithmetic, as functions of the
    whole series.  [zr x i] is bar [i] of [x], [zsum a b f] the sum of [f a .. f (b-1)],
    [tab a b f] the list [f a; ..; f (b-1)], [emaR p x i] the exponential average with weight
    2/(p+1) of the newest value, started at the first value. *)
From Verif Require Export Fun_basic Fun_lr Fun_osc.
From Coq Require Import Reals.
Open Scope Z_scope.
Notation emaR p x := (@ema_at RA (2 / (IZR p + 1))%R x).
Notation linw := (fun j => IZR (j + 1)).

(** er: the net change over the path travelled *)
Definition er_at (p : Z) (x : list R) (k : Z) : R :=
  (Rabs (zr x (k + p) - zr x k) / zsum (k + 1) (k + p + 1) (fun j => Rabs (zr x j - zr x (j - 1))))%R.

(** ema, of a whole series *)
Definition ema_list (p : Z) (x : list R) : list R := tab 0 (zlen x) (emaR p x).

(** t3: three times the generalised double average *)
Definition gd_at (p : Z) (v : R) (x : list R) (i : Z) : R := (emaR p x i * (1 + v) - emaR p (ema_list p x) i * v)%R.
Definition gd_list (p : Z) (v : R) (x : list R) : list R := tab 0 (zlen x) (gd_at p v x).

(** fi: the average of volume times price change *)
Definition force (c v : list R) (j : Z) : R := (zr v (j + 1) * (zr c (j + 1) - zr c j))%R.

(** Weighted means of the last [p] prices at bar [i]; [w j] weighs the price [j] bars ago. *)
Definition lagavg (w : Z -> R) (p : Z) (x : list R) (i : Z) : R :=
  (zsum 0 p (fun j => w j * zr x (i - j)) / zsum 0 p w)%R.

(** idwma: inverse powers of the distance *)
Definition idw (e : R) (j : Z) : R := (1 / @fpow RA (IZR (j + 1)) e)%R.

(** pwma: powers of the position in the window *)
Definition pw (p : Z) (e : R) (j : Z) : R := @fpow RA (IZR (p - j)) e.

(** swma: a sine *)
Definition sinew (j : Z) : R := sin (IZR (j + 1) * PI / 6).

(** pvt: the first volume plus the volumes weighted by relative price change; a bar with volume 0,
    or whose previous bar has volume 0, would reset it to 0 *)
Definition pvt_at (c v : list R) (k : Z) : R :=
  (zr v 0 + zsum 1 (k + 2) (fun j => zr v j * (zr c j - zr c (j - 1)) / zr c (j - 1)))%R.

(** evwma: the newest price enters with the share of its volume in the window's *)
Definition ev_at (p : Z) (g : R) (c v : list R) (k : Z) : R :=
  trec (fun i f => let s := (zr v i / (g * zsum (i - p + 1) (i + 1) (zr v)))%R in (f * (1 - s) + s * zr c i)%R) p (k + p) (zr c (p - 1)).

(** vi: movements up and down over the true range *)
Definition vi_up (h l : list R) (i : Z) : R := Rabs (zr h i - zr l (i - 1)).
Definition vi_down (h l : list R) (i : Z) : R := Rabs (zr l i - zr h (i - 1)).
Definition vi_range (h l c : list R) (i : Z) : R :=
  Rmax (zr h i - zr l i) (Rmax (Rabs (zr h i - zr c (i - 1))) (Rabs (zr l i - zr c (i - 1)))).
Definition vi_at (f g : Z -> R) (p k : Z) : R := (zsum (k + 1) (k + p + 1) f / zsum (k + 1) (k + p + 1) g)%R.

(** tsi: the momentum over its absolute value, both averaged twice *)
Definition tsi_at (y z : Z) (x : list R) (k : Z) : R :=
  (100 * (emaR z (ema_list y (tab 0 (zlen x - 1) (fun i => zr x (i + 1) - zr x i))) k /
          emaR z (ema_list y (tab 0 (zlen x - 1) (fun i => Rabs (zr x (i + 1) - zr x i)))) k))%R.

(** rmi: average rise over average movement, against the price n bars ago *)
Definition rise (n : Z) (x : list R) (i : Z) : R := Rmax 0 (zr x (i + n) - zr x i).
Definition fall (n : Z) (x : list R) (i : Z) : R := Rmax 0 (zr x i - zr x (i + n)).
Definition rmi_at (p n : Z) (x : list R) (k : Z) : R :=
  let g := emaR p (tab 0 (zlen x - n) (rise n x)) k in
  let l := emaR p (tab 0 (zlen x - n) (fall n x)) k in (g / (g + l) * 100)%R.

(** vwap: mean of the typical prices, weighted by volume *)
Definition typ (h l c : list R) (i : Z) : R := ((zr h i + zr l i + zr c i) / 3)%R.
Definition vwap_at (p : Z) (h l c v : list R) (k : Z) : R :=
  (zsum k (k + p) (fun i => typ h l c i * zr v i) / zsum k (k + p) (zr v))%R.

(** wma, of a whole series: weights 1, 2, .., p *)
Definition wma_list (p : Z) (x : list R) : list R := tab 0 (zlen x - p + 1) (fun k => wavg linw k p x).

(** lma: twice the weighted mean minus the mean *)
Definition lma_at (p : Z) (x : list R) (k : Z) : R := (2 * wavg linw k p x - mean (window k p x))%R.

(** shmma: the mean plus six times the sum weighted by the distance from the middle *)
Definition midw (p j : Z) : R := (IZR (2 * j - p + 1) / 2)%R.
Definition shmma_at (p : Z) (x : list R) (k : Z) : R :=
  (mean (window k p x) + 6 * zsum 0 p (fun j => midw p j * zr x (k + j)) / (IZR (p + 1) * IZR p))%R.

(** copp: the weighted mean of the averages of two rates of change, in percent; a bar with a zero
    price at either distance counts as 0 *)
Definition copp_raw (s l : Z) (x : list R) (i : Z) : R :=
  if Reqb (zr x (i - s)) 0 || Reqb (zr x (i - l)) 0 then 0%R
  else (((zr x i / zr x (i - s) - 1) + (zr x i / zr x (i - l) - 1)) / 2 * 100)%R.
Definition copp_list (s l : Z) (x : list R) : list R := tab 0 (zlen x - l) (fun k => copp_raw s l x (k + l)).

(** pfe: the exponential mean of the signed ratio of the straight distance to the path length, in percent *)
Definition pfe_path (x : list R) (j : Z) : R := sqrt ((zr x j - zr x (j - 1)) * (zr x j - zr x (j - 1)) + 1).
Definition pfe_raw (p : Z) (x : list R) (k : Z) : R :=
  let d := (zr x (k + p)%Z - zr x k)%R in
  ((if Rltb 0 d then 1 else -1) * 100 * sqrt (d * d + 100) / zsum (k + 1) (k + p + 1) (pfe_path x))%R.
Definition pfe_list (p : Z) (x : list R) : list R := tab 0 (zlen x - p) (pfe_raw p x).

(** pbands and posc: the largest high and the smallest low of the window, projected to the last
    bar along the regression slope of the closes *)
Definition topof (p : Z) (f : Z -> R) : R := trec (fun j m => Rmax m (f j)) 1 p (f 0).
Definition botof (p : Z) (f : Z -> R) : R := trec (fun j m => Rmin m (f j)) 1 p (f 0).
Definition upband (p : Z) (h c : list R) (k : Z) : R := topof p (fun j => zr h (k + p - 1 - j) + IZR j * lr_slope k p c)%R.
Definition lowband (p : Z) (l c : list R) (k : Z) : R := botof p (fun j => zr l (k + p - 1 - j) + IZR j * lr_slope k p c)%R.

(** posc: where the close lies between the bands, in percent *)
Definition posc_raw (p : Z) (h l c : list R) (k : Z) : R :=
  ((zr c (k + p - 1) - lowband p l c k) / (upband p h c k - lowband p l c k) * 100)%R.
Definition posc_list (p : Z) (h l c : list R) : list R := tab 0 (zlen c - p + 1) (posc_raw p h l c).

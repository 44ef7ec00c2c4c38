(** What the recursive filters compute: one equation per bar, as printed in the filter literature,
    with values before the first bar counting as 0. *)
From Verif Require Export SpecR4.
From Coq Require Import Reals List ZArith.
Import ListNotations.
Open Scope Z_scope.

(** [f i], or 0 before the first bar. *)
Definition at0 (f : Z -> R) (i : Z) : R := if i <? 0 then 0%R else f i.

(** [f] tends to [v]. *)
Definition tends (f : Z -> R) (v : R) : Prop :=
  forall eps, (0 < eps)%R -> exists N, forall i, N <= i -> (Rabs (f i - v) < eps)%R.

(** The series is the constant [c] from some bar on. *)
Definition levels (x : Z -> R) (c : R) : Prop := exists m, forall i, m <= i -> x i = c.

Local Open Scope R_scope.

(** ** Two-pole super smoother with a 10-bar cut-off, and the roofing filter in front of it *)
Definition smooth_a : R := exp (- (1414 / 1000) * (314159 / 100000) / 10).
Definition smooth_b : R := 2 * smooth_a * cos (1414 / 1000 * (314159 / 100000) / 10).
(** The gain that makes the smoother keep a constant. *)
Definition smooth_gain : R := 1 - smooth_b + smooth_a * smooth_a.
Definition ssmooth_at (x f : Z -> R) (i : Z) : Prop :=
  f i = smooth_gain * ((x i + at0 x (i - 1)) / 2) + smooth_b * at0 f (i - 1) - smooth_a * smooth_a * at0 f (i - 2).

(** High-pass filter with a 48-bar cut-off. *)
Definition roof_w : R := 707 / 1000 * 2 * (314159 / 100000) / 48.
Definition roof_alpha : R := (cos roof_w + sin roof_w - 1) / cos roof_w.
Definition highpass_at (x h : Z -> R) (i : Z) : Prop :=
  h i = (1 - roof_alpha / 2) * (1 - roof_alpha / 2) * (x i - 2 * at0 x (i - 1) + at0 x (i - 2))
        + 2 * (1 - roof_alpha) * at0 h (i - 1) - (1 - roof_alpha) * (1 - roof_alpha) * at0 h (i - 2).

(** ** Laguerre filter: four stages, the output weighs them 1:2:2:1 *)
Definition laguerre0_at (g : R) (x l : Z -> R) (i : Z) : Prop := l i = (1 - g) * x i + g * at0 l (i - 1).
Definition laguerre_at (g : R) (u l : Z -> R) (i : Z) : Prop := l i = - g * u i + at0 u (i - 1) + g * at0 l (i - 1).

(** ** McGinley dynamic *)
Definition mgdyn_at (N : R) (x f : Z -> R) (i : Z) : Prop :=
  f i = if (i =? 0)%Z then x i else f (i - 1)%Z + (x i - f (i - 1)%Z) / (N * (x i / f (i - 1)%Z) ^ 4).

(** ** Regularised exponential moving average *)
Definition rema_at (p lam : R) (x f : Z -> R) (i : Z) : Prop :=
  let alpha := 2 / (1 + p) in
  f i = if (i =? 0)%Z then x i
        else if (i =? 1)%Z then f 0%Z + alpha * (x i - f 0%Z)
        else (f (i - 1)%Z + alpha * (x i - f (i - 1)%Z) + lam * (2 * f (i - 1)%Z - f (i - 2)%Z)) / (1 + lam).

(** ** Table filters.  A table has one six-digit entry for each even period 2, 4, ..., 40. *)
Definition entry (l : list Z) (n : Z) : R := IZR (nth (Z.to_nat (n / 2 - 1)) l 0%Z) / 1000000.

(** Butterworth filters of order 2 and 3: bf2.cc:20-24, bf3.cc:20-26. *)
Definition bf2_B0_tbl : list Z :=
  [285784; 203973; 130825; 88501; 63284; 47322; 36654; 29198; 23793; 19754;
   16658; 14235; 12303; 10739; 9454; 8386; 7490; 6729; 6079; 5518]%Z.
Definition bf2_B1_tbl : list Z :=
  [571568; 407946; 261650; 177002; 126567; 94643; 73308; 58397; 47586; 39507;
   33317; 28470; 24607; 21477; 18908; 16773; 14980; 13459; 12158; 11037]%Z.
Definition bf2_B2_tbl : list Z :=
  [285784; 203973; 130825; 88501; 63284; 47322; 36654; 29198; 23793; 19754;
   16658; 14235; 12303; 10739; 9454; 8386; 7490; 6729; 6079; 5518]%Z.
Definition bf2_A1_tbl : list Z :=
  [-131366; 292597; 704171; 975372; 1158161; 1287652; 1383531; 1457120; 1515266; 1562309;
   1601119; 1633667; 1661342; 1685157; 1705862; 1724025; 1740086; 1754388; 1767204; 1778753]%Z.
Definition bf2_A2_tbl : list Z :=
  [-11770; -108489; -227470; -329377; -411296; -476938; -530147; -573914; -610438; -641324;
   -667753; -690607; -710555; -728112; -743678; -757571; -770045; -781305; -791520; -800827]%Z.
Definition bf3_B0_tbl : list Z :=
  [170149; 100733; 50373; 27610; 16541; 10629; 7213; 5111; 3750; 2831;
   2188; 1726; 1385; 1128; 931; 778; 656; 558; 479; 414]%Z.
Definition bf3_B1_tbl : list Z :=
  [510448; 302200; 151118; 82830; 49622; 31887; 21640; 15334; 11250; 8492;
   6565; 5179; 4156; 3385; 2794; 2333; 1967; 1674; 1437; 1242]%Z.
Definition bf3_B2_tbl : list Z :=
  [510448; 302200; 151118; 82830; 49622; 31887; 21640; 15334; 11250; 8492;
   6565; 5179; 4156; 3385; 2794; 2333; 1967; 1674; 1437; 1242]%Z.
Definition bf3_B3_tbl : list Z :=
  [170149; 100733; 50373; 27610; 16541; 10629; 7213; 5111; 3750; 2831;
   2188; 1726; 1385; 1128; 931; 778; 656; 558; 479; 414]%Z.
Definition bf3_A1_tbl : list Z :=
  [-336246; 398405; 1080990; 1505892; 1783327; 1976163; 2117205; 2224560; 2308883; 2376806;
   2432658; 2479376; 2519020; 2553078; 2582648; 2608560; 2631451; 2651819; 2670059; 2686486]%Z.
Definition bf3_A2_tbl : list Z :=
  [-26816; -247486; -607116; -934652; -1200263; -1412114; -1582459; -1721388; -1836396; -1932941;
   -2015013; -2085571; -2146834; -2200500; -2247883; -2290012; -2327708; -2361631; -2392315; -2420202]%Z.
Definition bf3_A3_tbl : list Z :=
  [1867; 43214; 123145; 207880; 284610; 350920; 407548; 455938; 497514; 533488;
   564848; 592385; 616731; 638395; 657784; 675232; 691011; 705347; 718425; 730403]%Z.

(** Gaussian filters of order 1, 2, 4: gf1.cc:14-15, gf2.cc:15-17, gf4.cc:15-19; order 3: gf3.cc:15-18. *)
Definition gf1_B0_tbl : list Z :=
  [828427; 732051; 618034; 526602; 455887; 400720; 356896; 321416; 292186; 267730;
   246990; 229192; 213760; 200256; 188343; 177759; 168294; 159780; 152082; 145089]%Z.
Definition gf1_A1_tbl : list Z :=
  [171573; 267949; 381966; 473398; 544113; 599280; 643104; 678584; 707814; 732270;
   753010; 770808; 786240; 799744; 811657; 822241; 831706; 840220; 847918; 854911]%Z.
Definition gf2_B0_tbl : list Z :=
  [834615; 722959; 578300; 457577; 365017; 295336; 242632; 202250; 170835; 146017;
   126125; 109966; 96680; 85633; 76357; 68496; 61779; 55996; 50984; 46612]%Z.
Definition gf2_A1_tbl : list Z :=
  [172854; 299460; 479080; 647112; 791668; 913103; 1014847; 1100556; 1173357; 1235757;
   1289719; 1336777; 1378133; 1414738; 1447346; 1476567; 1502894; 1526729; 1548408; 1568205]%Z.
Definition gf2_A2_tbl : list Z :=
  [-7470; -22419; -57379; -104688; -156684; -208439; -257479; -302806; -344192; -381774;
   -415844; -446743; -474813; -500371; -523703; -545063; -564672; -582726; -599392; -614817]%Z.
Definition gf3_B0_tbl : list Z :=
  [836701; 718670; 558792; 422292; 318295; 242068; 186612; 146016; 115940; 93340;
   76111; 62791; 52354; 44075; 37432; 32045; 27635; 23991; 20956; 18409]%Z.
Definition gf3_A1_tbl : list Z :=
  [173094; 312814; 529009; 749259; 951680; 1130321; 1285644; 1420251; 1537154; 1639147;
   1728632; 1807607; 1877714; 1940297; 1996460; 2047111; 2093000; 2134754; 2172895; 2207865]%Z.
Definition gf3_A2_tbl : list Z :=
  [-9987; -32617; -93283; -187130; -301899; -425875; -550960; -672371; -787614; -895601;
   -996056; -1089148; -1175270; -1254918; -1328618; -1396887; -1460217; -1519058; -1573824; -1624889]%Z.
Definition gf3_A3_tbl : list Z :=
  [192; 1134; 5483; 15579; 31923; 53486; 78704; 106104; 134520; 163114;
   191313; 218750; 245202; 270546; 294726; 317731; 339582; 360313; 379973; 398615]%Z.
Definition gf4_B0_tbl : list Z :=
  [837747; 716200; 547128; 400596; 289459; 209659; 153408; 113779; 85632; 65397;
   50648; 39744; 31571; 25363; 20589; 16875; 13953; 11632; 9770; 8263]%Z.
Definition gf4_A1_tbl : list Z :=
  [173178; 320247; 559812; 817734; 1066023; 1293310; 1496649; 1676861; 1836187; 1977213;
   2102418; 2214012; 2313903; 2403709; 2484797; 2558316; 2625237; 2686378; 2742435; 2794000]%Z.
Definition gf4_A2_tbl : list Z :=
  [-11247; -38459; -117521; -250758; -426152; -627244; -839984; -1054449; -1264344; -1466015;
   -1657560; -1838193; -2007804; -2166681; -2315331; -2454368; -2584450; -2706235; -2820356; -2927413]%Z.
Definition gf4_A3_tbl : list Z :=
  [325; 2053; 10965; 34176; 75715; 135204; 209527; 294694; 386929; 483104;
   580814; 678297; 774311; 868012; 958854; 1046508; 1130799; 1211662; 1289107; 1363199]%Z.
Definition gf4_A4_tbl : list Z :=
  [4; 41; 384; 1747; 5045; 10929; 19599; 30885; 44405; 59700;
   76320; 93860; 111980; 130403; 148910; 167331; 185538; 203436; 220956; 238049]%Z.

Definition bf2_at (n : Z) (x f : Z -> R) (i : Z) : Prop :=
  f i = entry bf2_A1_tbl n * at0 f (i - 1) + entry bf2_A2_tbl n * at0 f (i - 2)
        + entry bf2_B0_tbl n * x i + entry bf2_B1_tbl n * at0 x (i - 1) + entry bf2_B2_tbl n * at0 x (i - 2).
Definition bf3_at (n : Z) (x f : Z -> R) (i : Z) : Prop :=
  f i = entry bf3_A1_tbl n * at0 f (i - 1) + entry bf3_A2_tbl n * at0 f (i - 2) + entry bf3_A3_tbl n * at0 f (i - 3)
        + entry bf3_B0_tbl n * x i + entry bf3_B1_tbl n * at0 x (i - 1) + entry bf3_B2_tbl n * at0 x (i - 2) + entry bf3_B3_tbl n * at0 x (i - 3).
(** What a Butterworth filter multiplies a constant by in the long run. *)
Definition bf2_gain (n : Z) : R :=
  (entry bf2_B0_tbl n + entry bf2_B1_tbl n + entry bf2_B2_tbl n) / (1 - entry bf2_A1_tbl n - entry bf2_A2_tbl n).
Definition bf3_gain (n : Z) : R :=
  (entry bf3_B0_tbl n + entry bf3_B1_tbl n + entry bf3_B2_tbl n + entry bf3_B3_tbl n) / (1 - entry bf3_A1_tbl n - entry bf3_A2_tbl n - entry bf3_A3_tbl n).

(** The Gaussian filters are weighted means of the price and earlier outputs. *)
Definition gf1_at (n : Z) (x f : Z -> R) (i : Z) : Prop :=
  f i = (entry gf1_B0_tbl n * x i + entry gf1_A1_tbl n * at0 f (i - 1)) / (entry gf1_B0_tbl n + entry gf1_A1_tbl n).
Definition gf2_at (n : Z) (x f : Z -> R) (i : Z) : Prop :=
  f i = (entry gf2_B0_tbl n * x i + entry gf2_A1_tbl n * at0 f (i - 1) + entry gf2_A2_tbl n * at0 f (i - 2))
        / (entry gf2_B0_tbl n + entry gf2_A1_tbl n + entry gf2_A2_tbl n).
(** gf3 takes all four coefficients from one table (gf3.cc:38-41), so they cancel. *)
Definition gf3_at (x f : Z -> R) (i : Z) : Prop :=
  f i = (x i + at0 f (i - 1) + at0 f (i - 2) + at0 f (i - 3)) / 4.
(** gf4 copies the first five prices. *)
Definition gf4_at (n : Z) (x f : Z -> R) (i : Z) : Prop :=
  f i = if (i <? 5)%Z then x i
        else (entry gf4_B0_tbl n * x i + entry gf4_A1_tbl n * f (i - 1)%Z + entry gf4_A2_tbl n * f (i - 2)%Z
              + entry gf4_A3_tbl n * f (i - 3)%Z + entry gf4_A4_tbl n * f (i - 4)%Z)
             / (entry gf4_B0_tbl n + entry gf4_A1_tbl n + entry gf4_A2_tbl n + entry gf4_A3_tbl n + entry gf4_A4_tbl n).

(** C06 - C12, C16 - C19: what the basic indicators compute.

    Reading guide: [tab 0 n F] is the list [F 0; F 1; ...; F (n-1)]; [window k p x] is the
    list of the p values of x from position k; [zf x i] / [zn 0 x i] is x[i];
    [trec step lo hi s] applies [step i] for i = lo .. hi-1 to s (Spec.v).  [RA] is exact
    real arithmetic; theorems without [RA] hold for every arithmetic, in particular for
    binary64 (F64.v). *)
From Verif Require Import C_basic Fun_range F64Ord F64Laws.

(** Close a real-number example after the theorem has been applied. *)
Ltac exR := cbv -[Rplus Rmult Rminus Rdiv Rinv Ropp IZR Rabs sqrt Rmax Rmin Rltb Rleb Reqb pow];
  repeat match goal with |- context[Reqb ?a ?b] => destruct (Reqb_spec a b); try lra
  | |- context[Rltb ?a ?b] => destruct (Rltb_spec a b); try lra end;
  apply okl; repeat first [reflexivity|apply consl|lra].
Lemma ok_inj {X Y} (m : res (X * Y)) c a c' b : m = Ok (c', b) -> m = Ok (c, a) -> b = a.
Proof. intros -> H. injection H. auto. Qed.
(** [x] in a table. *)
Lemma Forall_tab {B} (P : B -> Prop) lo hi f : (forall i, lo <= i < hi -> P (f i)) -> Forall P (tab lo hi f).
Proof.
  intros H. apply Forall_forall. intros v Hv. unfold tab in Hv. apply in_map_iff in Hv.
  destruct Hv as (j & <- & Hj). apply in_seq in Hj. apply H. lia.
Qed.
Lemma RA_int n : INT_MIN <= n <= INT_MAX -> @to_int RA (IZR n) = Some n.
Proof. apply (@to_int_of_Z RA RA_laws). Qed.

(** ** C06 *)
Definition same {A : Arith} (f : batchfn) (g : T -> T) : Prop :=
  forall size x, zlen x = size -> 0 <= size <= INT_MAX -> f size [x] [] = Ok (OKAY, [map g x]).

Lemma tab_map {A : Arith} (g : T -> T) x : tab 0 (zlen x) (fun i => g (zf x i)) = map g x.
Proof.
  apply (list_eq_zn #0); [rewrite zlen_tab, zlen_map; pose proof (zlen_nonneg x); lia|].
  intros i Hi. rewrite zlen_tab in Hi. rewrite zn_tab by lia. rewrite Z.add_0_l.
  unfold zf, zn. rewrite (nth_indep (map g x) _ (g f0)) by (rewrite map_length; unfold zlen in *; lia).
  rewrite map_nth. reflexivity.
Qed.
Lemma SIMPLE1_same {A : Arith} (g : T -> T) : same (SIMPLE1 (fun x => Ok (g x))) g.
Proof.
  intros size x Hl Hs. rewrite (SIMPLE1_fun _ _ _ (fun i => g (zf x i))) by (intros; auto). 
  subst size. rewrite tab_map. reflexivity.
Qed.

Theorem C06_one_input : forall {A : Arith},
  same ti_abs fabs /\ same ti_acos (libm Lacos) /\ same ti_asin (libm Lasin) /\ same ti_atan (libm Latan) /\
  same ti_ceil (libm Lceil) /\ same ti_cos (libm Lcos) /\ same ti_cosh (libm Lcosh) /\ same ti_exp (libm Lexp) /\
  same ti_floor (libm Lfloor) /\ same ti_ln (libm Llog) /\ same ti_log10 (libm Llog10) /\
  same ti_round (fun x => libm Lfloor (x .+ lit 5 1)) /\ same ti_sin (libm Lsin) /\ same ti_sinh (libm Lsinh) /\
  same ti_sqrt fsqrt /\ same ti_tan (libm Ltan) /\ same ti_tanh (libm Ltanh) /\
  same ti_todeg (fun x => x .* (#180 ./ M_PI)) /\ same ti_torad (fun x => x .* (M_PI ./ #180)).
Proof. intros A. repeat split; apply SIMPLE1_same. Qed.
Print Assumptions C06_one_input.

Theorem C06_two_inputs : forall {A : Arith} size (a b : list T), zlen a = size -> zlen b = size -> 0 <= size <= INT_MAX ->
  ti_add size [a; b] [] = Ok (OKAY, [tab 0 size (fun i => zf a i .+ zf b i)]) /\
  ti_sub size [a; b] [] = Ok (OKAY, [tab 0 size (fun i => zf a i .- zf b i)]) /\
  ti_mul size [a; b] [] = Ok (OKAY, [tab 0 size (fun i => zf a i .* zf b i)]) /\
  ti_div size [a; b] [] = Ok (OKAY, [tab 0 size (fun i => zf a i ./ zf b i)]).
Proof. intros. repeat split; apply SIMPLE2_fun; assumption. Qed.
Print Assumptions C06_two_inputs.

Theorem C06_prices : forall {A : Arith} size (o h l c v : list T),
  zlen o = size -> zlen h = size -> zlen l = size -> zlen c = size -> zlen v = size -> 0 <= size <= INT_MAX ->
  ti_avgprice size [o; h; l; c] [] = Ok (OKAY, [tab 0 size (fun i => (zf o i .+ zf h i .+ zf l i .+ zf c i) .* lit 25 2)]) /\
  ti_medprice size [h; l] [] = Ok (OKAY, [tab 0 size (fun i => (zf h i .+ zf l i) .* lit 5 1)]) /\
  ti_typprice size [h; l; c] [] = Ok (OKAY, [tab 0 size (fun i => (zf h i .+ zf l i .+ zf c i) .* (#1 ./ #3))]) /\
  ti_wcprice size [h; l; c] [] = Ok (OKAY, [tab 0 size (fun i => (zf h i .+ zf l i .+ zf c i .+ zf c i) .* lit 25 2)]) /\
  ti_bop size [o; h; l; c] [] = Ok (OKAY, [tab 0 size (fun i =>
     if (zf h i .- zf l i) .<= #0 then #0 else (zf c i .- zf o i) ./ (zf h i .- zf l i))]) /\
  ti_marketfi size [h; l; v] [] = Ok (OKAY, [tab 0 size (fun i =>
     if zf v i .!= #0 then (zf h i .- zf l i) ./ zf v i else #0)]).
Proof.
  intros. repeat split; [apply avgprice_fun|apply medprice_fun|apply typprice_fun|apply wcprice_fun|apply bop_fun|apply marketfi_fun]; assumption.
Qed.
Print Assumptions C06_prices.

(** Balance of power lies in [-1,1] for bars with open and close inside [low, high]. *)
Theorem C06_bop_range : forall size (o h l c : list R) outs,
  zlen o = size -> zlen h = size -> zlen l = size -> zlen c = size -> 0 <= size <= INT_MAX ->
  (forall i, 0 <= i < size -> (zn 0 l i <= zn 0 o i <= zn 0 h i)%R /\ (zn 0 l i <= zn 0 c i <= zn 0 h i)%R) ->
  @ti_bop RA size [o; h; l; c] [] = Ok (OKAY, outs) -> Forall (Forall (fun v => -1 <= v <= 1)%R) outs.
Proof.
  intros size o h l c outs Ho Hh Hl Hc Hs Hb E.
  apply ok_inj with (1 := @bop_fun RA size o h l c Ho Hh Hl Hc Hs) in E. subst outs.
  apply Forall_cons; [|constructor]. apply Forall_tab. intros i Hi. specialize (Hb i Hi). toR.
  destruct (Rleb_spec (zr h i - zr l i) 0); [lra|].
  split; apply (Rmult_le_reg_r (zr h i - zr l i)); try lra;
    unfold Rdiv; rewrite Rmult_assoc, Rinv_l by lra; lra.
Qed.
Print Assumptions C06_bop_range.

(** trunc converts through [int]: correct when every value truncates to an [int] ... *)
Theorem C06_trunc_partial : forall {A : Arith} size (x : list T) (t : Z -> Z), zlen x = size -> 0 <= size <= INT_MAX ->
  (forall i, 0 <= i < size -> to_int (zf x i) = Some (t i)) ->
  ti_trunc size [x] [] = Ok (OKAY, [tab 0 size (fun i => #(t i))]).
Proof.
  intros A size x t Hl Hs Ht. apply SIMPLE1_fun; [assumption|assumption|].
  intros i Hi. unfold cast. rewrite (Ht i Hi). reflexivity.
Qed.
Print Assumptions C06_trunc_partial.
(** ... and undefined behaviour for 2^31. *)
Theorem C06_trunc_refuted : exists x : list (@T F64c), @ti_trunc F64c 1 [x] [] = Ub BadCast /\ x = [dbl 2147483648 0].
Proof. exists [dbl 2147483648 0]. vm_compute. auto. Qed.
Print Assumptions C06_trunc_refuted.

Example C06_example :
  @ti_add F64c 2 [[dbl 1 0; dbl 3 0]; [dbl 2 0; dbl (-5) 0]] [] = Ok (OKAY, [[dbl 3 0; dbl (-2) 0]]) /\
  @ti_abs F64c 1 [[dbl (-3) 0]] [] = Ok (OKAY, [[dbl 3 0]]) /\
  @ti_trunc F64c 1 [[dbl (-35) 1]] [] = Ok (OKAY, [[dbl (-3) 0]]) /\
  @ti_bop F64c 1 [[dbl 1 0]; [dbl 4 0]; [dbl 0 0]; [dbl 3 0]] [] = Ok (OKAY, [[dbl 5 1]]).
Proof. vm_compute. auto. Qed.

(** ** C07 *)
Theorem C07_sma : forall size (x : list R) (o : R) p,
  zlen x = size -> 0 <= size <= INT_MAX -> @to_int RA o = Some p -> 1 <= p ->
  @ti_sma RA size [x] [o] = Ok (OKAY, [tab 0 (size - p + 1) (fun k => mean (window k p x))]).
Proof. exact sma_fun. Qed.
Print Assumptions C07_sma.
(** Start offset, count and rejection, for every arithmetic. *)
Theorem C07_sma_contract : forall {A : Arith}, IntLaws A ->
  contract 1 1 (int_opts 1 (v_period 1 INT_MAX (-1))) start_p1 ti_sma.
Proof. exact @sma_contract. Qed.
Print Assumptions C07_sma_contract.
Example C07_example : @ti_sma RA 4 [[1; 2; 6; 7]%R] [3%R] = Ok (OKAY, [[3; 5]%R]).
Proof.
  etransitivity; [apply (C07_sma 4 [1; 2; 6; 7]%R 3%R 3); [reflexivity|zl|apply RA_int; zl|zl]|].
  exR.
Qed.

(** ** C08 *)
Theorem C08_sum : forall size (x : list R) (o : R) p,
  zlen x = size -> 0 <= size <= INT_MAX -> @to_int RA o = Some p -> 1 <= p ->
  @ti_sum RA size [x] [o] = Ok (OKAY, [tab 0 (size - p + 1) (fun k => Rsum (window k p x))]).
Proof. exact sum_fun. Qed.
Print Assumptions C08_sum.
Theorem C08_sum_contract : forall {A : Arith}, IntLaws A ->
  contract 1 1 (int_opts 1 (v_period 1 INT_MAX (-1))) start_p1 ti_sum.
Proof. exact @sum_contract. Qed.
Print Assumptions C08_sum_contract.
Example C08_example : @ti_sum RA 4 [[1; 2; 6; 7]%R] [3%R] = Ok (OKAY, [[9; 15]%R]).
Proof.
  etransitivity; [apply (C08_sum 4 [1; 2; 6; 7]%R 3%R 3); [reflexivity|zl|apply RA_int; zl|zl]|].
  exR.
Qed.

(** ** C09.  [wavg w k p x] = (w 0 * x[k] + ... + w (p-1) * x[k+p-1]) / (w 0 + ... + w (p-1)).
    Above period 46340 the int product period*(period+1) overflows. *)
Theorem C09_wma : forall size (x : list R) (o : R) p,
  zlen x = size -> 0 <= size <= INT_MAX -> @to_int RA o = Some p -> 1 <= p <= 46340 ->
  @ti_wma RA size [x] [o] = Ok (OKAY, [tab 0 (size - p + 1) (fun k => wavg (fun j => IZR (j + 1)) k p x)]).
Proof. intros. apply wma_fun; try assumption; unfold INT_MAX in *; nia. Qed.
Print Assumptions C09_wma.
Theorem C09_wma_contract : forall {A : Arith}, IntLaws A ->
  contract 1 1 (int_opts 1 (v_period 1 46340 (-1))) start_p1 ti_wma.
Proof. exact @wma_contract. Qed.
Print Assumptions C09_wma_contract.
Example C09_example : @ti_wma RA 4 [[1; 2; 6; 7]%R] [3%R] = Ok (OKAY, [[23 / 6; 35 / 6]%R]).
Proof.
  etransitivity; [apply (C09_wma 4 [1; 2; 6; 7]%R 3%R 3); [reflexivity|zl|apply RA_int; zl|zl]|].
  exR.
Qed.

(** ** C10 *)
Theorem C10_ema : forall {A : Arith}, IntLaws A -> forall size (x : list T) (o : T) p,
  zlen x = size -> 0 <= size <= INT_MAX -> to_int o = Some p -> 1 <= p ->
  exists out, ti_ema size [x] [o] = Ok (OKAY, [out]) /\ zlen out = size /\
    (0 < size -> zf out 0 = zf x 0) /\
    (forall i, 1 <= i < size -> zf out i = (zf x i .- zf out (i - 1)) .* (#2 ./ (#p .+ #1)) .+ zf out (i - 1)).
Proof.
  intros A L size x o p Hl Hs Ho Hp. eexists. split; [apply ema_fun; eassumption|].
  split; [rewrite zlen_tab; lia|]. split.
  - intros H. rewrite zf_tab by lia. reflexivity.
  - intros i Hi. rewrite !zf_tab by lia. rewrite !Z.add_0_l. rewrite (trec_snoc _ 1 i) by lia.
    rewrite Z.sub_add. reflexivity.
Qed.
Print Assumptions C10_ema.

(** Every output lies between the smallest and the largest input seen so far. *)
Theorem C10_ema_range : forall size (x : list R) (o : R) p out k lo hi,
  zlen x = size -> 0 <= size <= INT_MAX -> @to_int RA o = Some p -> 1 <= p ->
  @ti_ema RA size [x] [o] = Ok (OKAY, [out]) -> 0 <= k < size ->
  (forall j, 0 <= j <= k -> (lo <= zn 0 x j <= hi)%R) -> (lo <= zn 0 out k <= hi)%R.
Proof.
  intros size x o p out k lo hi Hl Hs Ho Hp E Hk Hb.
  apply ok_inj with (1 := @ema_fun RA _ size x o p Hl Hs Ho Hp) in E. injection E as <-.
  rewrite (zn_tab 0%R) by lia. rewrite Z.add_0_l.
  apply (trec_inv (fun v => lo <= v <= hi)%R); [apply Hb; lia|].
  intros i s Hi Hv. apply (ema_step_between (2 / (IZR p + 1)) (zr x i) s lo hi); [apply per_ema; lia|apply Hb; lia|exact Hv].
Qed.
Print Assumptions C10_ema_range.

Theorem C10_wilders : forall size (x : list R) (o : R) p,
  zlen x = size -> 0 <= size <= INT_MAX -> @to_int RA o = Some p -> 1 <= p <= size ->
  exists out, @ti_wilders RA size [x] [o] = Ok (OKAY, [out]) /\ zlen out = size - p + 1 /\
    zn 0%R out 0 = mean (window 0 p x) /\
    (forall k, 1 <= k <= size - p ->
       zn 0%R out k = (zn 0 out (k - 1) + (zn 0 x (k + p - 1) - zn 0 out (k - 1)) / IZR p)%R) /\
    (forall k lo hi, 0 <= k <= size - p ->
       (forall j, 0 <= j <= k + p - 1 -> (lo <= zn 0 x j <= hi)%R) -> (lo <= zn 0 out k <= hi)%R).
Proof.
  intros size x o p Hl Hs Ho Hp. eexists. split; [apply wilders_fun; eauto; lia|].
  split; [rewrite zlen_tab; lia|]. split; [|split].
  - rewrite zn_tab by lia. rewrite trec_nil by lia. reflexivity.
  - intros k Hk. rewrite !zn_tab by lia. rewrite !Z.add_0_l. replace (k + p) with (k - 1 + p + 1) by lia.
    rewrite trec_snoc by lia. unfold ema_step. toR. replace (k - 1 + p + 1 - 1) with (k - 1 + p) by lia. lra.
  - intros k lo hi Hk Hb. rewrite zn_tab by lia. rewrite Z.add_0_l.
    apply (trec_inv (fun v => lo <= v <= hi)%R).
    + apply mean_between; try lia. intros; apply Hb; lia.
    + intros i s Hi Hv. apply ema_step_between; [apply per_wilder; lia|apply Hb; lia|exact Hv].
Qed.
Print Assumptions C10_wilders.
Example C10_example :
  @ti_ema F64c 3 [[dbl 1 0; dbl 3 0; dbl 0 0]] [dbl 3 0] = Ok (OKAY, [[dbl 1 0; dbl 2 0; dbl 1 0]]) /\
  @ti_wilders F64c 3 [[dbl 1 0; dbl 3 0; dbl 0 0]] [dbl 2 0] = Ok (OKAY, [[dbl 2 0; dbl 1 0]]).
Proof. vm_compute. auto. Qed.
Example C10_hyp : @to_int RA 2%R = Some 2 /\ @to_int F64c (dbl 3 0) = Some 3.
Proof. split; [apply RA_int; zl|vm_compute; reflexivity]. Qed.

(** ** C11.  [popvar l] is the mean squared deviation from the mean of l, [meanabsdev l] the
    mean absolute deviation (RSum.v). *)
Theorem C11_var : forall size (x : list R) (o : R) p,
  zlen x = size -> 0 <= size <= INT_MAX -> @to_int RA o = Some p -> 1 <= p ->
  @ti_var RA size [x] [o] = Ok (OKAY, [tab 0 (size - p + 1) (fun k => popvar (window k p x))]) /\
  @ti_stddev RA size [x] [o] = Ok (OKAY, [tab 0 (size - p + 1) (fun k => sqrt (popvar (window k p x)))]) /\
  @ti_stderr RA size [x] [o] = Ok (OKAY, [tab 0 (size - p + 1) (fun k => sqrt (popvar (window k p x)) / sqrt (IZR p))%R]) /\
  @ti_md RA size [x] [o] = Ok (OKAY, [tab 0 (size - p + 1) (fun k => meanabsdev (window k p x))]).
Proof.
  intros. split; [|split; [|split]];
    [apply var_fun|apply stddev_fun|apply stderr_fun|apply md_fun]; assumption.
Qed.
Print Assumptions C11_var.
Theorem C11_var_nonneg : forall l : list R, (0 <= popvar l)%R.
Proof. exact popvar_nonneg. Qed.
Print Assumptions C11_var_nonneg.
Theorem C11_contracts : forall {A : Arith}, IntLaws A ->
  contract 1 1 (int_opts 1 (v_period 1 INT_MAX (-1))) start_p1 ti_var /\
  contract 1 1 (int_opts 1 (v_period 1 INT_MAX (-1))) start_p1 ti_stddev /\
  contract 1 1 (int_opts 1 (v_period 1 INT_MAX (-1))) start_p1 ti_stderr /\
  contract 1 1 (int_opts 1 (v_period 1 INT_MAX (-1))) start_p1 ti_md.
Proof.
  intros A L. split; [|split; [|split]];
    [apply var_contract|apply stddev_contract|apply stderr_contract|apply md_contract].
Qed.
Print Assumptions C11_contracts.
Example C11_example : @ti_var RA 3 [[1; 3; 8]%R] [2%R] = Ok (OKAY, [[1; 25 / 4]%R]) /\
  @ti_md RA 3 [[1; 3; 8]%R] [2%R] = Ok (OKAY, [[1; 5 / 2]%R]).
Proof.
  destruct (C11_var 3 [1; 3; 8]%R 2%R 2 ltac:(reflexivity) ltac:(zl) ltac:(apply RA_int; zl) ltac:(zl)) as (-> & _ & _ & ->).
  split; [exR|]. unfold meanabsdev. 
  cbv -[Rplus Rmult Rminus Rdiv Rinv Ropp IZR Rabs].
  repeat match goal with |- context[Rabs ?a] =>
    first [rewrite (Rabs_right a) by lra | rewrite (Rabs_left a) by lra] end. exR.
Qed.

(** ** C12.  [best_line a b k p x]: the line a + b*t has a strictly smaller squared error at the
    points (1, x[k]), ..., (p, x[k+p-1]) than every other line (RSum.v).
    Above period 46340 the int product period*period overflows. *)
Theorem C12_regression : forall size (x : list R) (o : R) p,
  zlen x = size -> 0 <= size <= INT_MAX -> @to_int RA o = Some p -> 2 <= p <= 46340 ->
  exists a b : Z -> R,
    (forall k, best_line (a k) (b k) k p x) /\
    @ti_linregslope RA size [x] [o] = Ok (OKAY, [tab 0 (size - p + 1) b]) /\
    @ti_linregintercept RA size [x] [o] = Ok (OKAY, [tab 0 (size - p + 1) (fun k => a k + b k * 1)%R]) /\
    @ti_linreg RA size [x] [o] = Ok (OKAY, [tab 0 (size - p + 1) (fun k => a k + b k * IZR p)%R]) /\
    @ti_tsf RA size [x] [o] = Ok (OKAY, [tab 0 (size - p + 1) (fun k => a k + b k * IZR (p + 1))%R]) /\
    @ti_fosc RA size [x] [o] = Ok (OKAY, [tab 0 (size - p) (fun k =>
       let e := (zr x (k + p) - (a k + b k * IZR (p + 1)))%R in
       if Reqb e 0 then 0%R else (100 * e / zr x (k + p))%R)]).
Proof.
  intros size x o p Hl Hs Ho Hp. assert (p * p <= INT_MAX) by (unfold INT_MAX; nia).
  exists (fun k => lr_icept k p x), (fun k => lr_slope k p x).
  split; [intros; apply lr_best; lia|].
  split; [apply linregslope_fun; auto; lia|]. split; [apply (linregintercept_fun size x o p); auto; lia|].
  split; [apply (linreg_fun size x o p); auto; lia|]. split; [apply (tsf_fun size x o p); auto; lia|].
  apply (fosc_fun size x o p); auto; lia.
Qed.
Print Assumptions C12_regression.
Example C12_example : @ti_linregslope RA 3 [[1; 3; 8]%R] [3%R] = Ok (OKAY, [[7 / 2]%R]).
Proof.
  etransitivity; [apply (linregslope_fun 3 [1; 3; 8]%R 3%R 3); [reflexivity|zl|apply RA_int; zl|zl|zl]|]. exR.
Qed.

(** ** C16 *)
Theorem C16_rsi : forall {A : Arith}, IntLaws A -> forall size (x : list T) (o : T) p,
  zlen x = size -> 0 <= size <= INT_MAX -> to_int o = Some p -> 1 <= p ->
  ti_rsi size [x] [o] = Ok (OKAY, [tab 0 (size - p) (fun k =>
    let up i := if zf x i .> zf x (i - 1) then zf x i .- zf x (i - 1) else #0 in
    let down i := if zf x i .< zf x (i - 1) then zf x (i - 1) .- zf x i else #0 in
    (* Wilder smoothing of c at bar k+p: mean of bars 1..p, then steps of 1/p *)
    let wilder c := trec (fun i v => (c i .- v) .* (#1 ./ #p) .+ v) (p + 1) (k + p + 1)
                         (trec (fun i s => s .+ c i) 1 (p + 1) #0 ./ #p) in
    if wilder up .!= #0 then #100 .* (wilder up ./ (wilder up .+ wilder down)) else #0)]).
Proof. intros. apply rsi_fun; assumption. Qed.
Print Assumptions C16_rsi.
Theorem C16_rsi_range : forall size (x : list R) (o : R) p out,
  zlen x = size -> 0 <= size <= INT_MAX -> @to_int RA o = Some p -> 1 <= p ->
  @ti_rsi RA size [x] [o] = Ok (OKAY, [out]) -> Forall (fun v => 0 <= v <= 100)%R out.
Proof.
  intros size x o p out Hl Hs Ho Hp E.
  apply ok_inj with (1 := @rsi_fun RA _ size x o p Hl Hs Ho Hp) in E. injection E as <-.
  apply Forall_tab. intros i Hi. apply rsi_range; apply smoothed_nonneg; try lia; intros; [apply up_nonneg|apply down_nonneg].
Qed.
Print Assumptions C16_rsi_range.
Theorem C16_cmo : forall size (x : list R) (o : R) p,
  zlen x = size -> 0 <= size <= INT_MAX -> @to_int RA o = Some p -> 1 <= p ->
  @ti_cmo RA size [x] [o] = Ok (OKAY, [tab 0 (size - p) (fun k =>
    let up := zsum (k + 1) (k + p + 1) (fun i => Rmax 0 (zr x i - zr x (i - 1)%Z)%R) in
    let down := zsum (k + 1) (k + p + 1) (fun i => Rmax 0 (zr x (i - 1)%Z - zr x i)%R) in
    if Reqb (up + down)%R 0 then 0%R else (100 * (up - down) / (up + down))%R)]).
Proof.
  intros. etransitivity; [apply (cmo_fun size x o p); assumption|]. do 3 f_equal. apply tab_ext. intros k Hk.
  unfold cmo_val. replace (k + 1 + p) with (k + p + 1) by lia.
  rewrite (zsum_ext _ _ (@up_change RA x) (fun i => Rmax 0 (zr x i - zr x (i - 1)%Z)%R)) by (intros; apply up_change_R).
  rewrite (zsum_ext _ _ (@down_change RA x) (fun i => Rmax 0 (zr x (i - 1)%Z - zr x i)%R)) by (intros; apply down_change_R).
  reflexivity.
Qed.
Print Assumptions C16_cmo.
Theorem C16_cmo_range : forall size (x : list R) (o : R) p out,
  zlen x = size -> 0 <= size <= INT_MAX -> @to_int RA o = Some p -> 1 <= p ->
  @ti_cmo RA size [x] [o] = Ok (OKAY, [out]) -> Forall (fun v => -100 <= v <= 100)%R out.
Proof.
  intros size x o p out Hl Hs Ho Hp E.
  apply ok_inj with (1 := cmo_fun size x o p Hl Hs Ho Hp) in E. injection E as <-.
  apply Forall_tab. intros i Hi. apply cmo_range; apply zsum_nonneg; intros; [apply up_nonneg|apply down_nonneg].
Qed.
Print Assumptions C16_cmo_range.
Theorem C16_contracts : forall {A : Arith}, IntLaws A ->
  contract 1 1 (int_opts 1 (v_period 1 INT_MAX 0)) start_p ti_rsi /\
  contract 1 1 (int_opts 1 (v_period 1 INT_MAX 0)) start_p ti_cmo.
Proof. intros A L. split; [apply rsi_contract|apply cmo_contract]. Qed.
Print Assumptions C16_contracts.
Example C16_example :
  @ti_rsi F64c 4 [[dbl 1 0; dbl 4 0; dbl 3 0; dbl 3 0]] [dbl 2 0] = Ok (OKAY, [[dbl 75 0; dbl 75 0]]) /\
  @ti_cmo F64c 4 [[dbl 1 0; dbl 4 0; dbl 3 0; dbl 3 0]] [dbl 2 0] = Ok (OKAY, [[dbl 50 0; dbl (-100) 0]]).
Proof. vm_compute. auto. Qed.

(** ** C17 *)
Theorem C17_cross : forall {A : Arith} size (a b : list T), zlen a = size -> zlen b = size -> 0 <= size <= INT_MAX ->
  ti_crossover size [a; b] [] = Ok (OKAY, [tab 0 (size - 1) (fun k =>
    if (zf a (k + 1) .> zf b (k + 1)) && (zf a k .<= zf b k) then #1 else #0)]) /\
  ti_crossany size [a; b] [] = Ok (OKAY, [tab 0 (size - 1) (fun k =>
    if (zf a (k + 1) .> zf b (k + 1)) && (zf a k .<= zf b k)
       || (zf a (k + 1) .< zf b (k + 1)) && (zf a k .>= zf b k) then #1 else #0)]).
Proof. intros. split; [apply crossover_fun|apply crossany_fun]; assumption. Qed.
Print Assumptions C17_cross.
Example C17_example :
  @ti_crossover F64c 3 [[dbl 1 0; dbl 3 0; dbl 1 0]; [dbl 2 0; dbl 2 0; dbl 2 0]] [] = Ok (OKAY, [[dbl 1 0; dbl 0 0]]) /\
  @ti_crossany F64c 3 [[dbl 1 0; dbl 3 0; dbl 1 0]; [dbl 2 0; dbl 2 0; dbl 2 0]] [] = Ok (OKAY, [[dbl 1 0; dbl 1 0]]).
Proof. vm_compute. auto. Qed.

(** ** C18 *)
Theorem C18_obv : forall size (c v : list R), zlen c = size -> zlen v = size -> 0 <= size <= INT_MAX ->
  @ti_obv RA size [c; v] [] = Ok (OKAY, [tab 0 size (fun k => zsum 1 (k + 1) (fun j =>
    if Rltb (zr c (j - 1)%Z) (zr c j) then zr v j
    else if Rltb (zr c j) (zr c (j - 1)%Z) then - zr v j else 0)%R)]).
Proof.
  intros. etransitivity; [apply (@obv_fun RA size c v); assumption|]. do 3 f_equal. apply tab_ext. intros k Hk.
  apply obv_sum. lia.
Qed.
Print Assumptions C18_obv.
Theorem C18_ad : forall size (h l c v : list R),
  zlen h = size -> zlen l = size -> zlen c = size -> zlen v = size -> 0 <= size <= INT_MAX ->
  @ti_ad RA size [h; l; c; v] [] = Ok (OKAY, [tab 0 size (fun k => zsum 0 (k + 1) (fun j =>
    if Reqb (zr h j) (zr l j) then 0
    else ((zr c j - zr l j) - (zr h j - zr c j)) / (zr h j - zr l j) * zr v j)%R)]).
Proof.
  intros. etransitivity; [apply (@ad_fun RA size h l c v); assumption|]. do 3 f_equal. apply tab_ext. intros k Hk.
  apply ad_sum. lia.
Qed.
Print Assumptions C18_ad.
Theorem C18_wad : forall size (h l c : list R),
  zlen h = size -> zlen l = size -> zlen c = size -> 0 <= size <= INT_MAX ->
  @ti_wad RA size [h; l; c] [] = Ok (OKAY, [tab 0 (size - 1) (fun k => zsum 1 (k + 2) (fun j =>
    if Rltb (zr c (j - 1)%Z) (zr c j) then zr c j - Rmin (zr c (j - 1)%Z) (zr l j)
    else if Rltb (zr c j) (zr c (j - 1)%Z) then zr c j - Rmax (zr c (j - 1)%Z) (zr h j) else 0)%R)]).
Proof.
  intros. etransitivity; [apply (@wad_fun RA size h l c); assumption|]. do 3 f_equal. apply tab_ext. intros k Hk.
  replace (k + 2) with (k + 1 + 1) by lia. apply wad_sum. lia.
Qed.
Print Assumptions C18_wad.
(** nvi and pvi, any arithmetic: 1000 at bar 0, then unchanged or moved by the close's relative change. *)
Theorem C18_nvi_pvi : forall {A : Arith}, IntLaws A -> forall size (c v : list T),
  zlen c = size -> zlen v = size -> 0 < size <= INT_MAX ->
  exists n p, ti_nvi size [c; v] [] = Ok (OKAY, [n]) /\ ti_pvi size [c; v] [] = Ok (OKAY, [p]) /\
   zlen n = size /\ zlen p = size /\ zf n 0 = #1000 /\ zf p 0 = #1000 /\
   forall i, 1 <= i < size ->
     let move w := w .+ ((zf c i .- zf c (i - 1)) ./ zf c (i - 1)) .* w in
     zf n i = (if zf v i .< zf v (i - 1) then move (zf n (i - 1)) else zf n (i - 1)) /\
     zf p i = (if (zf v i .> zf v (i - 1)) && (zf v (i - 1) .> #0) then move (zf p (i - 1)) else zf p (i - 1)).
Proof.
  intros A L size c v Hc Hv Hs. eexists _, _.
  split; [apply nvi_fun; eauto; lia|]. split; [apply pvi_fun; eauto; lia|].
  rewrite !zlen_tab, !zf_tab by lia. rewrite !trec_nil by lia. repeat split; try lia.
  - rewrite !zf_tab by lia. rewrite !Z.add_0_l, (trec_snoc _ 1 i), Z.sub_add by lia. reflexivity.
  - rewrite !zf_tab by lia. rewrite !Z.add_0_l, (trec_snoc _ 1 i), Z.sub_add by lia. reflexivity.
Qed.
Print Assumptions C18_nvi_pvi.
Theorem C18_emv : forall {A : Arith}, IntLaws A -> forall size (h l v : list T),
  zlen h = size -> zlen l = size -> zlen v = size -> 0 <= size <= INT_MAX ->
  ti_emv size [h; l; v] [] = Ok (OKAY, [tab 0 (size - 1) (fun k =>
    let mid i := (zf h i .+ zf l i) .* lit 5 1 in
    let move := mid (k + 1) .- mid k in
    if move .!= #0 then move ./ (zf v (k + 1) ./ #10000 ./ (zf h (k + 1) .- zf l (k + 1))) else #0)]).
Proof. intros. apply emv_fun; assumption. Qed.
Print Assumptions C18_emv.
Example C18_example :
  @ti_obv F64c 3 [[dbl 1 0; dbl 2 0; dbl 1 0]; [dbl 9 0; dbl 5 0; dbl 3 0]] [] = Ok (OKAY, [[dbl 0 0; dbl 5 0; dbl 2 0]]) /\
  @ti_ad F64c 2 [[dbl 4 0; dbl 4 0]; [dbl 0 0; dbl 4 0]; [dbl 3 0; dbl 4 0]; [dbl 10 0; dbl 10 0]] [] = Ok (OKAY, [[dbl 5 0; dbl 5 0]]) /\
  @ti_nvi F64c 2 [[dbl 1 0; dbl 2 0]; [dbl 5 0; dbl 4 0]] [] = Ok (OKAY, [[dbl 1000 0; dbl 2000 0]]) /\
  @ti_pvi F64c 2 [[dbl 1 0; dbl 2 0]; [dbl 5 0; dbl 6 0]] [] = Ok (OKAY, [[dbl 1000 0; dbl 2000 0]]) /\
  @ti_wad F64c 2 [[dbl 4 0; dbl 4 0]; [dbl 0 0; dbl 1 0]; [dbl 2 0; dbl 3 0]] [] = Ok (OKAY, [[dbl 2 0]]) /\
  @ti_emv F64c 2 [[dbl 4 0; dbl 6 0]; [dbl 0 0; dbl 2 0]; [dbl 2 0; dbl 40000 0]] [] = Ok (OKAY, [[dbl 2 0]]).
Proof. vm_compute. repeat split. Qed.

(** ** C19 *)
Theorem C19_lookback : forall {A : Arith}, IntLaws A -> forall size (x : list T) (o : T) p,
  zlen x = size -> 0 <= size <= INT_MAX -> to_int o = Some p -> 1 <= p ->
  ti_lag size [x] [o] = Ok (OKAY, [tab 0 (size - p) (fun k => zf x k)]) /\
  ti_mom size [x] [o] = Ok (OKAY, [tab 0 (size - p) (fun k => zf x (k + p) .- zf x k)]) /\
  ti_roc size [x] [o] = Ok (OKAY, [tab 0 (size - p) (fun k =>
     if zf x k .!= #0 then (zf x (k + p) .- zf x k) ./ zf x k else #0)]) /\
  ti_rocr size [x] [o] = Ok (OKAY, [tab 0 (size - p) (fun k =>
     if zf x k .!= #0 then zf x (k + p) ./ zf x k else #0)]).
Proof.
  intros. split; [|split; [|split]]; [apply lag_fun|apply mom_fun|apply roc_fun|apply rocr_fun]; try assumption; lia.
Qed.
Print Assumptions C19_lookback.
(** lag also accepts period 0 and then copies its input. *)
Theorem C19_lag0 : forall {A : Arith}, IntLaws A -> forall size (x : list T) (o : T),
  zlen x = size -> 0 <= size <= INT_MAX -> to_int o = Some 0 -> ti_lag size [x] [o] = Ok (OKAY, [x]).
Proof.
  intros A L size x o Hl Hs Ho. rewrite (lag_fun size x o 0) by (assumption || lia).
  rewrite Z.sub_0_r. subst size. do 3 f_equal.
  transitivity (map (fun y => y) x); [apply (tab_map (fun y => y))|apply map_id].
Qed.
Print Assumptions C19_lag0.
Example C19_example :
  @ti_mom F64c 3 [[dbl 1 0; dbl 2 0; dbl 5 0]] [dbl 2 0] = Ok (OKAY, [[dbl 4 0]]) /\
  @ti_rocr F64c 3 [[dbl 0 0; dbl 2 0; dbl 5 0]] [dbl 1 0] = Ok (OKAY, [[dbl 0 0; dbl 25 1]]).
Proof. vm_compute. auto. Qed.

(** C55: the QuantConnect (LEAN) indicator classes of bindings/lean/generate-bindings.py. *)
From Coq Require Import Ascii String ZifyBool Lia.
From Verif Require Import M_index IndexData M_python Properties_index C_stream1 C_stream2 Properties_stream M_basic Fun_any Fun_basic RSum M_lean Fun_lean F64 F64Laws.
From Coq Require Import Reals Lra.
Open Scope Z_scope.

(** ** Names *)
(** the reserved words of C# *)
Definition cs_keywords : list string :=
  ["abstract"; "as"; "base"; "bool"; "break"; "byte"; "case"; "catch"; "char"; "checked"; "class"; "const"; "continue"; "decimal";
   "default"; "delegate"; "do"; "double"; "else"; "enum"; "event"; "explicit"; "extern"; "false"; "finally"; "fixed"; "float"; "for";
   "foreach"; "goto"; "if"; "implicit"; "in"; "int"; "interface"; "internal"; "is"; "lock"; "long"; "namespace"; "new"; "null";
   "object"; "operator"; "out"; "override"; "params"; "private"; "protected"; "public"; "readonly"; "ref"; "return"; "sbyte"; "sealed";
   "short"; "sizeof"; "stackalloc"; "static"; "string"; "struct"; "switch"; "this"; "throw"; "true"; "try"; "typeof"; "uint"; "ulong";
   "unchecked"; "unsafe"; "ushort"; "using"; "virtual"; "void"; "volatile"; "while"]%string.
Definition cs_ident (s : string) : bool :=
  match s with EmptyString => false | String c _ => letter c && all_idchar s && negb (existsb (String.eqb s) cs_keywords) end.
(** The class is an identifier, so are its parameters and the members for the outputs; no two parameters and no two members
    have the same name, no parameter hides a field, and the inputs are one value or fields of a TradeBar. *)
Definition class_compiles (d : IndexData.ind) : Prop :=
  let options := map clean (i_options d) in
  let members := map (fun o => upper (clean o)) (i_outputs d) in
  cs_ident (lean_name (i_full d)) = true /\
  Forall (fun s => cs_ident s = true) options /\ NoDup (["windowsize"; "state"; "options"; "start"; "ready"]%string ++ options) /\
  Forall (fun s => cs_ident s = true) members /\ NoDup (lean_name (i_full d) :: members) /\ members <> [] /\
  (i_inputs d = ["series"]%string \/ Forall (fun i => In i ["open"; "high"; "low"; "close"; "volume"]%string) (i_inputs d)).

Definition class_compilesb (d : IndexData.ind) : bool :=
  let options := map clean (i_options d) in
  let members := map (fun o => upper (clean o)) (i_outputs d) in
  cs_ident (lean_name (i_full d)) && forallb cs_ident options && nodup_names (["windowsize"; "state"; "options"; "start"; "ready"]%string ++ options) &&
  forallb cs_ident members && nodup_names (lean_name (i_full d) :: members) && (match members with [] => false | _ => true end) &&
  ((match i_inputs d with [x] => String.eqb x "series" | _ => false end) ||
   forallb (fun i => existsb (String.eqb i) ["open"; "high"; "low"; "close"; "volume"]%string) (i_inputs d)).
Lemma forallb_P {B} (f : B -> bool) l : forallb f l = true -> Forall (fun x => f x = true) l.
Proof. intros H. apply Forall_forall. apply forallb_forall. exact H. Qed.
Lemma class_compilesb_ok d : class_compilesb d = true -> class_compiles d.
Proof.
  unfold class_compilesb, class_compiles. cbv zeta. intros H. apply andb_prop in H. destruct H as [H H7]. repeat (apply andb_prop in H; destruct H as [H ?]).
  split; [exact H|]. split; [apply forallb_P; assumption|]. split; [apply nodup_names_ok; assumption|]. split; [apply forallb_P; assumption|].
  split; [apply nodup_names_ok; assumption|]. split; [intros E; rewrite E in *; discriminate|].
  apply orb_prop in H7. destruct H7 as [H7|H7].
  - left. destruct (i_inputs d) as [|x [|]]; try discriminate. apply String.eqb_eq in H7. subst. reflexivity.
  - right. apply forallb_P in H7. eapply Forall_impl; [|exact H7]. cbv beta. intros i Hi. apply existsb_exists in Hi. destruct Hi as (y & Hy & E). apply String.eqb_eq in E. subst. exact Hy.
Qed.

(** 155 of the 161 indicators have classes, all of different names; the six others take two series. *)
Theorem C55_names :
  zlen (filter has_class indicators) = 155 /\
  map i_name (filter (fun d => negb (has_class d)) indicators) = ["crossany"; "crossover"; "add"; "sub"; "mul"; "div"]%string /\
  NoDup (map (fun d => lean_name (i_full d)) (filter has_class indicators)) /\
  Forall class_compiles (filter has_class indicators).
Proof.
  split; [vm_compute; reflexivity|]. split; [vm_compute; reflexivity|]. split; [apply nodup_names_ok; vm_compute; reflexivity|].
  assert (H : forallb class_compilesb (filter has_class indicators) = true) by (vm_compute; reflexivity).
  apply forallb_P in H. eapply Forall_impl; [|exact H]. exact class_compilesb_ok.
Qed.
Print Assumptions C55_names.

(** Cleaning leaves no space and no percent sign in any name, and a name without them as it is. *)
Theorem C55_clean : forall s,
  (forall c, In c (list_ascii_of_string (clean s)) -> c <> " "%char /\ c <> "%"%char) /\
  ((forall c, In c (list_ascii_of_string s) -> c <> " "%char /\ c <> "%"%char) -> clean s = s).
Proof.
  induction s as [|c s (IH1 & IH2)]; [split; [intros c []|reflexivity]|]. cbn [clean list_ascii_of_string].
  destruct (N_of_ascii c =? 32)%N eqn:E1; [|destruct (N_of_ascii c =? 37)%N eqn:E2].
  - split; [intros d [<-|Hd]; [split; discriminate|apply IH1; exact Hd]|]. intros H. exfalso. apply (proj1 (H c (or_introl eq_refl))). apply N.eqb_eq in E1. rewrite <- (ascii_N_embedding c), E1. reflexivity.
  - split; [exact IH1|]. intros H. exfalso. apply (proj2 (H c (or_introl eq_refl))). apply N.eqb_eq in E2. rewrite <- (ascii_N_embedding c), E2. reflexivity.
  - split.
    + intros d [<-|Hd]; [|apply IH1; exact Hd]. split; intros ->; [apply N.eqb_neq in E1; apply E1; reflexivity|apply N.eqb_neq in E2; apply E2; reflexivity].
    + intros H. f_equal. apply IH2. intros d Hd. apply H. right. exact Hd.
Qed.
Print Assumptions C55_clean.
Example C55_clean_example : clean "Williams %R" = "Williams_R"%string /\ lean_name "Williams %R" = "WilliamsR"%string.
Proof. split; reflexivity. Qed.

(** ** Streaming classes *)
Section S.
Context {A : Arith}.
(** Fed bar by bar, the class publishes from bar [s] (the announced start) on, for every output, what the batch function writes
    for that bar; IsReady turns true with the first such value.  On the [s] bars before it publishes memory nobody wrote. *)
Definition row_lean (r : srow) : Prop := s_ok r = always -> forall size inputs options s, wf (s_nin r) size inputs -> s_opts r options (Accept s) ->
  exists outs st st' vs,
    s_fn r size inputs options = Ok (OKAY, outs) /\ s_start r options = Ok s /\
    s_new r options = Ok (OKAY, Some st) /\ lean_stream (s_run r) (s_nout r) st (tab 0 size (bar_at inputs)) = Ok (st', vs) /\
    vs = tab 0 size (lean_values s outs) /\ lean_ready (s_progress r st') = (s <? size).
Lemma row_lean_intro (r : srow) : (1 <= s_nin r)%nat -> row_all r -> row_lean r.
Proof.
  intros Hn (H1 & H2 & _ & H4 & H5 & _) Ek size inputs options s W O. unfold row_stream, row_progress, row_causal, row_safe in *. rewrite Ek in *.
  destruct (lean_stream_sound _ _ _ _ _ _ _ _ Hn H1 H2 H4 H5 size inputs options s W O) as (outs & st & st' & vs & E1 & _ & _ & E2 & E3 & E4 & E5).
  exists outs, st, st', vs. split; [exact E1|]. split; [exact (proj1 (H5 size inputs options _ W O I))|]. split; [exact E2|]. split; [exact E3|]. split; [exact E4|].
  unfold lean_ready. rewrite E5. lia.
Qed.
End S.
Theorem C55_streaming : forall {A : Arith}, IntLaws A -> Forall row_lean stream_table.
Proof.
  intros. assert (N : Forall (fun r => 1 <= s_nin r)%nat stream_table) by (repeat (constructor; [cbn [s_nin]; lia|]); constructor).
  apply Forall_forall. intros r Hr. apply row_lean_intro; [exact (proj1 (Forall_forall _ _) N r Hr)|exact (proj1 (Forall_forall _ _) stream_table_all r Hr)].
Qed.
Print Assumptions C55_streaming.
Theorem C55_streaming_exact : Forall row_lean stream_table_exact.
Proof.
  assert (N : Forall (fun r => 1 <= s_nin r)%nat stream_table_exact) by (repeat (constructor; [cbn [s_nin]; lia|]); constructor).
  apply Forall_forall. intros r Hr. apply row_lean_intro; [exact (proj1 (Forall_forall _ _) N r Hr)|exact (proj1 (Forall_forall _ _) stream_table_exact_all r Hr)].
Qed.
Print Assumptions C55_streaming_exact.
(** An error code of stream_run makes the class throw. *)
Theorem C55_streaming_throws : forall {A : Arith} St (run : runfn St) nout st bar ret st' o, run st 1 (map (fun x => [x]) bar) = Ok (ret, st', o) -> ret <> OKAY -> lean_step run nout st bar = Ok (st', Throw).
Proof. intros A St run nout st bar ret st' o E H. unfold lean_step. rewrite E. cbn [bind]. destruct ret; [destruct H; reflexivity|reflexivity|reflexivity]. Qed.
Print Assumptions C55_streaming_throws.
(** a stream which is out of memory *)
Example C55_streaming_throws_example : lean_step (A := F64c) (fun (st : unit) _ _ => Ok (OUT_OF_MEMORY, st, [])) 1 tt [dbl 1 0] = Ok (tt, Throw).
Proof. reflexivity. Qed.

(** ** Default classes *)
(** The class never looks at any input but the last. *)
Theorem C55_default_last_input : forall {A : Arith} (start : startfn) (f : batchfn) nin nout windowsize options size (a b : list (list T)) n s,
  wf nin size a -> wf nin size b -> (1 <= nin)%nat -> 1 <= n <= size -> start options = Ok s -> 0 <= s < INT_MAX -> last a [] = last b [] ->
  lean_default start f nout windowsize options a n = lean_default start f nout windowsize options b n.
Proof. intros. rewrite (lean_default_eq start f nout windowsize options nin size a n s), (lean_default_eq start f nout windowsize options nin size b n s) by assumption. rewrite H5. reflexivity. Qed.
Print Assumptions C55_default_last_input.

(** A class of one input whose window still holds the whole series publishes what the batch function writes for the newest bar. *)
Theorem C55_default_one_input : forall {A : Arith} (start : startfn) (f : batchfn) nout windowsize options size (x : list T) s outs,
  wf 1 size [x] -> start options = Ok s -> 0 <= s < INT_MAX -> s < size <= windowsize -> f size [x] options = Ok (OKAY, outs) ->
  lean_default start f nout windowsize options [x] size = Ok (Values (map (fun i => nth_error (nth i outs []) (Z.to_nat (size - s - 1))) (seq 0 nout))).
Proof.
  intros A start f nout ws options size x s outs W Es Hs Hw E. rewrite (lean_default_eq start f nout ws options 1 size [x] size s W) by (assumption || lia). cbv zeta.
  replace (Z.min size (Z.max ws (s + 1))) with size by lia. replace (size <=? s) with false by lia. destruct W as (_ & W2 & _). pose proof (Forall_inv W2) as Lx. cbn [last repeat].
  replace (window (size - size) size x) with x; [rewrite E; reflexivity|]. unfold window. rewrite Z.sub_diag. cbn [Z.to_nat skipn]. symmetry. apply firstn_all2. unfold zlen in Lx. lia.
Qed.
Print Assumptions C55_default_one_input.

Lemma zf_window {A : Arith} k p (x : list T) i : 0 <= k -> 0 <= i < p -> k + p <= zlen x -> zf (window k p x) i = zf x (k + i).
Proof. intros. rewrite (window_tab #0) by lia. rewrite zf_tab by lia. reflexivity. Qed.
Lemma skip_skip {B} a b : forall l : list B, skipn a (skipn b l) = skipn (b + a) l.
Proof. induction b as [|b IH]; intros [|x l]; cbn [skipn Nat.add]; try reflexivity; [apply skipn_nil|apply IH]. Qed.
Lemma window_window {B} a m k p (x : list B) : 0 <= a -> 0 <= k -> 0 <= p -> k + p <= m -> window k p (window a m x) = window (a + k) p x.
Proof.
  intros. unfold window. rewrite skipn_firstn_comm, firstn_firstn, skip_skip. f_equal; [lia|]. f_equal. lia.
Qed.
Lemma ne_tab {B} lo hi (f : Z -> B) k : 0 <= k < hi - lo -> nth_error (tab lo hi f) (Z.to_nat k) = Some (f (lo + k)).
Proof.
  intros. rewrite (nth_error_nth' _ (f lo)) by (pose proof (zlen_tab lo hi f) as Z; unfold zlen in Z; lia). f_equal. exact (zn_tab (f lo) lo hi f k H).
Qed.

(** So the balance of power of any bars is 0, and the median price is the low. *)
Theorem C55_default_bop : forall size (o h l c : list R) windowsize n, wf 4 size [o; h; l; c] -> 1 <= n <= size ->
  @lean_default RA start0 ti_bop 1 windowsize [] [o; h; l; c] n = Ok (Values [Some 0%R]).
Proof.
  intros size o h l c ws n W Hn. rewrite (lean_default_eq (A := RA) start0 ti_bop 1 ws [] 4 size [o; h; l; c] n 0 W) by (try reflexivity; unfold INT_MAX; lia). cbv zeta.
  destruct W as (_ & W2 & W3). assert (Lc : zlen c = size) by (rewrite Forall_forall in W2; apply W2; cbn; tauto).
  set (m := Z.min n (Z.max ws (0 + 1))). assert (Hm : 1 <= m <= n) by lia. replace (m <=? 0) with false by lia. cbn [last repeat].
  assert (Lw : @zlen (@T RA) (window (n - m) m c) = m) by (apply (zlen_window (B := R)); lia). rewrite bop_fun by (exact Lw || lia). cbn [bind seq map nth]. rewrite ne_tab by lia. toR. do 4 f_equal. rewrite Rminus_diag_eq by reflexivity.
  unfold Rleb. destruct (Rle_dec 0 0); [reflexivity|lra].
Qed.
Print Assumptions C55_default_bop.
Theorem C55_default_medprice : forall size (h l : list R) windowsize n, wf 2 size [h; l] -> 1 <= n <= size ->
  @lean_default RA start0 ti_medprice 1 windowsize [] [h; l] n = Ok (Values [Some (@zf RA l (n - 1))]).
Proof.
  intros size h l ws n W Hn. rewrite (lean_default_eq (A := RA) start0 ti_medprice 1 ws [] 2 size [h; l] n 0 W) by (try reflexivity; unfold INT_MAX; lia). cbv zeta.
  destruct W as (_ & W2 & W3). assert (Lc : zlen l = size) by (rewrite Forall_forall in W2; apply W2; cbn; tauto).
  set (m := Z.min n (Z.max ws (0 + 1))). assert (Hm : 1 <= m <= n) by lia. replace (m <=? 0) with false by lia. cbn [last repeat].
  assert (Lw : @zlen (@T RA) (window (n - m) m l) = m) by (apply (zlen_window (B := R)); lia). rewrite medprice_fun by (exact Lw || lia). cbn [bind seq map nth]. rewrite ne_tab by lia.
  rewrite (zf_window (A := RA)) by (change (@zlen R l) with (@zlen (@T RA) l) in Lc; lia). replace (n - m + (0 + (m - 0 - 1))) with (n - 1) by lia. do 4 f_equal. toR. lra.
Qed.
Print Assumptions C55_default_medprice.
(** A class of one input computes the indicator over its window only: the simple average is right at any bar and window size, *)
Theorem C55_default_sma : forall size (x : list R) o p windowsize n, wf 1 size [x] -> 1 <= n <= size -> @to_int RA o = Some p -> 1 <= p -> windowsize <= INT_MAX ->
  @lean_default RA start_p1 ti_sma 1 windowsize [o] [x] n = Ok (if n <? p then NotReady else Values [Some (mean (window (n - p) p x))]).
Proof.
  intros size x o p ws n W Hn Ho Hp Hw. pose proof (to_int_range (A := RA) _ _ Ho) as Hr.
  assert (Es : @start_p1 RA [o] = Ok (p - 1)) by (unfold start_p1; apply wp_eq; wps; contra; reflexivity).
  rewrite (lean_default_eq (A := RA) start_p1 ti_sma 1 ws [o] 1 size [x] n (p - 1) W) by (try assumption; lia). cbv zeta.
  destruct W as (_ & W2 & W3). assert (Lc : zlen x = size) by (rewrite Forall_forall in W2; apply W2; cbn; tauto).
  set (m := Z.min n (Z.max ws (p - 1 + 1))). destruct (n <? p) eqn:E; [replace (m <=? p - 1) with true by lia; reflexivity|]. assert (Hm : p <= m <= n) by lia. replace (m <=? p - 1) with false by lia. cbn [last repeat].
  pose proof (sma_fun m (window (n - m) m x) o p ltac:(apply (zlen_window (B := R)); lia) ltac:(lia) Ho Hp) as ES. cbn [T RA] in *. rewrite ES. cbn [bind seq map nth]. rewrite ne_tab by lia. do 5 f_equal.
  rewrite window_window by lia. f_equal. lia.
Qed.
Print Assumptions C55_default_sma.
(** ... the exponential average is that of the bars in the window, so with the default window it is the price itself. *)
Theorem C55_default_ema : forall {A : Arith}, IntLaws A -> forall size (x : list T) o p windowsize n, wf 1 size [x] -> 1 <= n <= size -> to_int o = Some p -> 1 <= p -> windowsize <= 1 ->
  lean_default start0 ti_ema 1 windowsize [o] [x] n = Ok (Values [Some (zf x (n - 1))]).
Proof.
  intros A L size x o p ws n W Hn Ho Hp Hw.
  rewrite (lean_default_eq start0 ti_ema 1 ws [o] 1 size [x] n 0 W) by (try reflexivity; unfold INT_MAX; lia). cbv zeta.
  destruct W as (_ & W2 & W3). assert (Lc : zlen x = size) by (rewrite Forall_forall in W2; apply W2; cbn; tauto).
  replace (Z.min n (Z.max ws (0 + 1))) with 1 by lia. cbn [Z.leb Z.compare last repeat].
  rewrite (ema_fun 1 (window (n - 1) 1 x) o p) by (first [apply zlen_window; lia|assumption|unfold INT_MAX; lia]). cbn [bind seq map nth]. rewrite ne_tab by lia. do 4 f_equal.
  transitivity (zf (window (n - 1) 1 x) 0); [reflexivity|]. rewrite zf_window by lia. f_equal. lia.
Qed.
Print Assumptions C55_default_ema.
(** Options the indicator rejects make the class throw: a simple average of period below 1. *)
Theorem C55_default_invalid : forall {A : Arith}, IntLaws A -> forall size (x : list T) o p windowsize n, wf 1 size [x] -> 1 <= n <= size -> to_int o = Some p -> INT_MIN < p < 1 ->
  lean_default start_p1 ti_sma 1 windowsize [o] [x] n = Ok Throw.
Proof.
  intros A L size x o p ws n (W1 & W2 & W3) Hn Ho Hp. assert (Lc : zlen x = size) by (rewrite Forall_forall in W2; apply W2; cbn; tauto).
  unfold lean_default, start_p1, cast. rewrite Ho. cbn [bind]. unfold ck. replace ((INT_MIN <=? p - 1) && (p - 1 <=? INT_MAX)) with true by (unfold INT_MIN, INT_MAX in *; lia). cbn [bind].
  replace ((INT_MIN <=? p - 1 + 1) && (p - 1 + 1 <=? INT_MAX)) with true by (unfold INT_MIN, INT_MAX in *; lia). cbn [bind]. cbv zeta.
  destruct (Z.max ws (p - 1 + 1) <? 1) eqn:E; [reflexivity|]. set (m := Z.min n (Z.max ws (p - 1 + 1))). assert (Hm : 1 <= m <= n) by lia. replace (negb (m >? p - 1)) with false by lia.
  cbn [map lean_fills]. rewrite fill_ok; [|unfold zlen; rewrite repeat_length; lia|apply zlen_window; lia]. cbn [bind]. unfold ti_sma, cast. rewrite Ho. cbn [bind].
  unfold check. replace (p <? 1) with true by lia. reflexivity.
Qed.
Print Assumptions C55_default_invalid.
Example C55_default_invalid_example : @lean_default F64c start_p1 ti_sma 1 0 [dbl 0 0] [[dbl 1 0; dbl 2 0]] 2 = Ok Throw /\ @lean_default F64c start_p1 ti_sma 1 5 [dbl 0 0] [[dbl 1 0; dbl 2 0]] 2 = Ok Throw.
Proof. vm_compute. split; reflexivity. Qed.

(** ** Concrete cases and refutations *)
(** Streaming efficiency ratio of period 2 (a row of the table): memory nobody wrote on two bars, then the values of the batch function. *)
Definition er_bars : list (list (@T F64c)) := [[dbl 1 0]; [dbl 3 0]; [dbl 4 0]; [dbl 2 0]].
Example C55_streaming_example :
  (exists r, In r (@stream_table F64c) /\ s_name r = "er"%string /\ s_ok r = always /\ s_opts r [dbl 2 0] (Accept 2)) /\
  @ti_er F64c 4 [[dbl 1 0; dbl 3 0; dbl 4 0; dbl 2 0]] [dbl 2 0] = Ok (OKAY, [[dbl 1 0; @fdiv F64c (dbl 1 0) (dbl 3 0)]]) /\
  match @ti_er_stream_new F64c [dbl 2 0] with
  | Ok (OKAY, Some st) => match lean_stream ti_er_stream_run 1 st er_bars with
    | Ok (st', vs) => vs = [Values [None]; Values [None]; Values [Some (dbl 1 0)]; Values [Some (@fdiv F64c (dbl 1 0) (dbl 3 0))]] /\ lean_ready (progress st') = true
    | _ => False
    end
  | _ => False
  end.
Proof.
  split; [|split; [vm_compute; reflexivity|vm_compute; split; reflexivity]].
  exists (SRow "er"%string 1 1 (int_opts 1 (v_period 1 (INT_MAX - 1) 0)) always _ ti_er_start ti_er ti_er_stream_new ti_er_stream_run progress).
  split; [unfold stream_table; do 15 right; left; reflexivity|]. split; [reflexivity|]. split; [reflexivity|]. cbn [s_opts].
  exists [2]. split; [reflexivity|]. split; [constructor; [vm_compute; reflexivity|constructor]|vm_compute; reflexivity].
Qed.
(** "Every value the streaming class passes to Update was computed by the library" is false: IsReady has to be asked. *)
Theorem C55_streaming_warmup_refuted : exists options bars,
  match @ti_er_stream_new F64c options with
  | Ok (OKAY, Some st) => match lean_stream ti_er_stream_run 1 st bars with Ok (_, vs) => nth_error vs 0 = Some (Values [None]) | _ => False end
  | _ => False
  end.
Proof. exists [dbl 2 0], er_bars. vm_compute. reflexivity. Qed.
Print Assumptions C55_streaming_warmup_refuted.
(** "The default class publishes what the batch function writes for the last bar" is false: the median of 3 and 1 is 2, the class says 1;
    and a bar which closes at its high after opening at its low has balance of power 1, the class says 0. *)
Theorem C55_default_refuted :
  (exists h l : list (@T F64c), @ti_medprice F64c 1 [h; l] [] = Ok (OKAY, [[dbl 2 0]]) /\ @lean_default F64c start0 ti_medprice 1 0 [] [h; l] 1 = Ok (Values [Some (dbl 1 0)])) /\
  (exists o h l c : list (@T F64c), @ti_bop F64c 1 [o; h; l; c] [] = Ok (OKAY, [[dbl 1 0]]) /\ @lean_default F64c start0 ti_bop 1 0 [] [o; h; l; c] 1 = Ok (Values [Some (dbl 0 0)])).
Proof.
  split; [exists [dbl 3 0], [dbl 1 0]|exists [dbl 1 0], [dbl 3 0], [dbl 1 0], [dbl 3 0]]; (split; [vm_compute; reflexivity|vm_compute; reflexivity]).
Qed.
Print Assumptions C55_default_refuted.
(** Three bars through the averages: the simple average of period 2 is right, the exponential one is the last price. *)
Example C55_default_example :
  let x := [dbl 1 0; dbl 3 0; dbl 5 0] in
  @lean_default F64c start_p1 ti_sma 1 0 [dbl 2 0] [x] 1 = Ok NotReady /\
  @lean_default F64c start_p1 ti_sma 1 0 [dbl 2 0] [x] 3 = Ok (Values [Some (dbl 4 0)]) /\
  @ti_ema F64c 3 [x] [dbl 3 0] = Ok (OKAY, [[dbl 1 0; dbl 2 0; dbl 35 1]]) /\
  @lean_default F64c start0 ti_ema 1 0 [dbl 3 0] [x] 3 = Ok (Values [Some (dbl 5 0)]) /\
  @lean_default F64c start0 ti_ema 1 3 [dbl 3 0] [x] 3 = Ok (Values [Some (dbl 35 1)]).
Proof. vm_compute. repeat split. Qed.

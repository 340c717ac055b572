(* Properties of the reports about populations and of the loggers: C142 - C145. *)
From Coq Require Import String Ascii.
From Verif Require Import Prelude FloatLib LoopModel LoopProofs LoopProofs2 BatchModel BatchSpec BatchProofs RepModel RepSpec RepProofs.
Open Scope nat_scope.

Section Reports.
Context {V : Type}.
Variable mean : list fl -> fl.

(* the steps of a run store nothing under the names of the reports *)
Definition respects (keys : list string) (o : op V) : Prop := match o with Step _ d => avoids keys d | Read _ => True end.
Definition report_names (order : list reportable) (e : exclusion) (obj_index : option nat) (n : nat) : list string :=
  "pop_best"%string :: map fst (@mixin_getters V order e obj_index n).
Lemma respects_ok order e obj_index n o : respects (report_names order e obj_index n) o -> op_ok order e obj_index n o.
Proof.
  destruct o as [a d|k]; cbn; auto. intros A kv I R. apply (A (fst kv)); [apply in_map; auto|].
  destruct R as [R|R]; [right; auto | left; auto].
Qed.
Lemma sole_ok obj_index n : single_objective obj_index n = sole obj_index n.
Proof. unfold single_objective, sole. destruct obj_index; [reflexivity |]. destruct n as [| [| n]]; reflexivity. Qed.
Definition single (obj_index : option nat) (n : nat) : bool := match sole obj_index n with Some _ => true | None => false end.
Lemma rows_row (b : batch V) i r : wf b -> nth_error (rows b) i = Some r -> row b i = Ok r.
Proof.
  unfold rows, rows_of, row. intros [L _]. unfold b_len in L. revert i L. generalize (b_ev b) as es. generalize (b_vals b) as vs.
  induction vs as [|v vs IH]; intros [|x es] [|i] L; cbn in *; try discriminate; try congruence.
  apply IH. lia.
Qed.
Lemma access_scores (b : batch V) j : wf b -> j < num_objs b -> access_evals b (Z.of_nat j) = Ok (scores j b).
Proof.
  intros W L. destruct (nth_error (b_desc b) j) as [d|] eqn:E; [|apply nth_error_None in E; unfold num_objs in L; lia].
  destruct (obj_index_ok b j d E) as (_ & _ & _ & ->). f_equal. unfold scores. rewrite <- (rows_ev b W), map_map. reflexivity.
Qed.
Lemma in_scores_nan (b : batch V) j : wf b -> no_nan_col b j -> Forall (fun x => is_nan x = false) (scores j b).
Proof. intros W N. unfold no_nan_col in N. rewrite <- (rows_ev b W) in N. unfold scores. rewrite Forall_map in *. auto. Qed.
Lemma key_registered order e obj_index n j r :
  In r order -> ~ In (name_of r) (excluded e) -> match sole obj_index n with Some k => j = k | None => j < n end ->
  In (report_key (single obj_index n) (decimal j) (name_of r), @Rep V j r) (mixin_getters order e obj_index n).
Proof.
  intros O X M. apply in_regs. exists j, r. split; auto. split; auto. split; auto. unfold single. rewrite sole_ok.
  destruct (sole obj_index n); split; auto.
Qed.

(* C142: after a step, however often and in whatever order the status has been read since, the reports are about the present population: pop_best is
   the (earliest) best solution, pop_best_eval its fitness, mean_eval and median_eval the mean and the lower median of the fitnesses.  With
   several objectives this holds for each. *)
Theorem C142_reports_partial : forall order e obj_index senses s a0 os a d ks b j maximize,
  let n := length senses in let keys := report_names order e obj_index n in
  NoDup order -> In PopBest order -> ~ In "pop_best"%string (excluded e) -> has "pop_best" (getters s) = false ->
  Forall (respects keys) os -> avoids keys d ->
  a_pop a = Some b -> evaluated senses b -> nth_error senses j = Some maximize ->
  match sole obj_index n with Some k => j = k | None => True end ->
  let x := run_ops mean (a0, mixin_init true order e obj_index n s) (os ++ Step a d :: map Read ks) in
  let report r := snd (read mean (report_key (single obj_index n) (decimal j) (name_of r)) (fst x) (snd x)) in
  let reported r := In r order /\ ~ In (name_of r) (excluded e) in
  exists best, earliest_best maximize j (rows b) best /\
    report PopBest = Ok (VSol best n) /\
    (reported PopBestEval -> report PopBestEval = Ok (VNum (score j best))) /\
    (reported MeanEval -> report MeanEval = Ok (VNum (mean (scores j b)))) /\
    (reported MedianEval -> exists v, report MedianEval = Ok (VNum v) /\ lower_median v (scores j b)).
Proof.
  intros order e obj_index senses s a0 os a d ks b j maximize n keys NO OB XB HS OS AV PB (W & DS & LB & NN) SJ M x report reported.
  assert (j < n) as Lj by (apply nth_error_Some; congruence).
  assert (num_objs b = n) as NB by (unfold num_objs, n; rewrite DS; auto).
  assert (match sole obj_index n with Some k => j = k | None => j < n end) as M' by (destruct (sole obj_index n); auto).
  assert (forall r v, reported r -> expected mean j r a v -> report r = Ok v) as R.
  { intros r v [I1 I2] EX. unfold report, x. apply (reports_expected mean order e obj_index n NO s os a d ks _ j r); auto.
    - eapply Forall_impl; [|exact OS]. apply respects_ok.
    - apply (respects_ok order e obj_index n (Step a d)). auto.
    - apply key_registered; auto. }
  destruct (argbest_ok b j maximize W LB) as (i & best & A1 & A2 & A3 & pre & post & A4 & A5 & A6 & A7); [rewrite DS; auto | auto |].
  assert (get_pop_best j a = Ok (VSol best n)) as GB.
  { unfold get_pop_best, with_pop. rewrite PB, A1. cbn [bind]. rewrite (rows_row b i best W A2). cbn [rmap]. rewrite NB. auto. }
  assert (In best (rows b)) as IB by (eapply nth_error_In; eauto).
  exists best. split; [exists pre, post; auto|]. split; [apply R; [split; auto|exact GB]|]. split; [|split].
  - intros RP. apply R; auto. exists (VSol best n). split; auto. cbn [best_eval]. destruct best as [v ev].
    assert (In ev (b_ev b)) as IE by (rewrite <- (rows_ev b W); apply in_map_iff; exists (v, ev); auto).
    destruct W as [W1 W2]. rewrite Forall_forall in W2. specialize (W2 ev IE). unfold eval_width in W2.
    assert (sol_evaluated (v, ev) n = true) as ->.
    { unfold sol_evaluated. cbn [snd]. rewrite negb_true_iff, <- not_true_iff_false, existsb_exists. intros (y & Iy & Q).
      apply In_nth_error in Iy. destruct Iy as [q Eq]. assert (q < n) as Lq.
      { assert (q < length (firstn n ev)) by (apply nth_error_Some; congruence). rewrite firstn_length in H. lia. }
      assert (nth_error ev q = Some y) as Eq'.
      { rewrite <- Eq. rewrite <- (firstn_skipn n ev) at 1. apply nth_error_app1. rewrite firstn_length. lia. }
      specialize (NN q Lq). unfold no_nan_col in NN. rewrite Forall_forall in NN. specialize (NN ev IE). rewrite (nth_error_nth _ _ NaN Eq') in NN. congruence. }
    cbn [snd]. destruct (nth_error ev j) as [y|] eqn:Ey; [|apply nth_error_None in Ey; lia].
    unfold score. cbn [snd]. rewrite (nth_error_nth _ _ NaN Ey). auto.
  - intros RM. apply R; auto. cbn [expected]. unfold get_mean_eval, with_pop. rewrite PB, access_scores; auto. lia.
  - intros RM. exists (median (scores j b)). split.
    + apply R; auto. cbn [expected]. unfold get_median_eval, with_pop. rewrite PB, access_scores; auto. lia.
    + apply median_ok; [|apply in_scores_nan; auto]. unfold scores. intros Q. apply map_eq_nil in Q.
      pose proof (rows_length b W) as L. rewrite Q in L. cbn in L. lia.
Qed.

(* As long as some solution of the population has no fitness for the objective, pop_best is such a solution, however good the others are, and
   pop_best_eval is None. *)
Lemma argext_from_nan m c : forall best bv i, is_nan bv = true -> argext_from m best bv i c = best.
Proof.
  induction c as [|x c IH]; intros best bv i N; cbn [argext_from]; auto. destruct bv; try discriminate.
  assert (beats m x NaN = false) as -> by (destruct x, m; reflexivity). apply IH; auto.
Qed.
Lemma argext_from_finds m c : forall best bv i, existsb is_nan c = true -> is_nan bv = false ->
  exists k, argext_from m best bv i c = i + k /\ nth_error c k = Some NaN.
Proof.
  induction c as [|x c IH]; intros best bv i Ex N; cbn [argext_from existsb] in *; [discriminate|].
  destruct (is_nan x) eqn:X; cbn [orb] in Ex.
  - assert (beats m x bv = true) as -> by (unfold beats; rewrite X, N; reflexivity). rewrite argext_from_nan by auto.
    exists 0. split; [lia|]. destruct x; try discriminate. reflexivity.
  - destruct (beats m x bv).
    + destruct (IH i x (S i) Ex X) as (k & -> & K). exists (S k). split; [lia|auto].
    + destruct (IH best bv (S i) Ex N) as (k & -> & K). exists (S k). split; [lia|auto].
Qed.
Lemma argext_nan m c : existsb is_nan c = true -> exists k, argext m c = Ok k /\ nth_error c k = Some NaN.
Proof.
  destruct c as [|x c]; cbn [existsb argext]; [discriminate|]. destruct (is_nan x) eqn:X; cbn [orb]; intros Ex.
  - rewrite argext_from_nan by auto. exists 0. split; auto. destruct x; try discriminate. reflexivity.
  - destruct (argext_from_finds m c 0 x 1 Ex X) as (k & -> & K). exists (S k). auto.
Qed.
Theorem C142_unevaluated_refuted : forall order e obj_index senses s a0 os a d ks b j,
  let n := length senses in let keys := report_names order e obj_index n in
  NoDup order -> In PopBest order -> ~ In "pop_best"%string (excluded e) -> has "pop_best" (getters s) = false ->
  Forall (respects keys) os -> avoids keys d ->
  a_pop a = Some b -> wf b -> b_desc b = senses -> j < n -> ~ no_nan_col b j ->
  match sole obj_index n with Some k => j = k | None => True end ->
  let x := run_ops mean (a0, mixin_init true order e obj_index n s) (os ++ Step a d :: map Read ks) in
  let report r := snd (read mean (report_key (single obj_index n) (decimal j) (name_of r)) (fst x) (snd x)) in
  exists r, In r (rows b) /\ score j r = NaN /\ report PopBest = Ok (VSol r n) /\
    (In PopBestEval order -> ~ In "pop_best_eval"%string (excluded e) -> report PopBestEval = Ok VNone).
Proof.
  intros order e obj_index senses s a0 os a d ks b j n keys NO OB XB HS OS AV PB W DS Lj NN M x report.
  assert (num_objs b = n) as NB by (unfold num_objs, n; rewrite DS; auto).
  assert (match sole obj_index n with Some k => j = k | None => j < n end) as M' by (destruct (sole obj_index n); auto).
  assert (forall r v, In r order -> ~ In (name_of r) (excluded e) -> expected mean j r a v -> report r = Ok v) as R.
  { intros r v I1 I2 EX. unfold report, x. apply (reports_expected mean order e obj_index n NO s os a d ks _ j r); auto.
    - eapply Forall_impl; [|exact OS]. apply respects_ok.
    - apply (respects_ok order e obj_index n (Step a d)). auto.
    - apply key_registered; auto. }
  assert (existsb is_nan (scores j b) = true) as Ex.
  { destruct (existsb is_nan (scores j b)) eqn:Q; auto. exfalso. apply NN. unfold no_nan_col. rewrite <- (rows_ev b W), Forall_map.
    apply Forall_forall. intros r I. rewrite <- not_true_iff_false in Q |- *. intros C. apply Q. apply existsb_exists. exists (score j r).
    split; [|exact C]. apply in_map. auto. }
  destruct (nth_error (b_desc b) j) as [dir|] eqn:Ed; [|apply nth_error_None in Ed; unfold num_objs in NB; lia].
  destruct (obj_index_ok b j dir Ed) as (E1 & E2 & E3 & _).
  destruct (argext_nan dir _ Ex) as (i & A & N). unfold scores in N. rewrite nth_error_map in N.
  destruct (nth_error (rows b) i) as [r|] eqn:Er; [|discriminate]. cbn [option_map] in N. injection N as N.
  assert (argbest b (Some (Z.of_nat j)) = Ok i) as AB.
  { unfold argbest. rewrite E1. cbn [bind]. rewrite E2. cbn [bind]. rewrite E3. cbn [bind]. rewrite <- (rows_ev b W), map_map. unfold scores in A.
    destruct dir; exact A. }
  assert (get_pop_best j a = Ok (VSol r n)) as GB.
  { unfold get_pop_best, with_pop. rewrite PB, AB. cbn [bind]. rewrite (rows_row b i r W Er). cbn [rmap]. rewrite NB. auto. }
  assert (In r (rows b)) as Ir by (eapply nth_error_In; eauto).
  exists r. split; auto. split; auto. split; [apply R; auto|].
  intros I1 I2. apply R; auto. exists (VSol r n). split; auto. cbn [best_eval]. destruct r as [v ev].
  assert (sol_evaluated (v, ev) n = false) as ->; auto. unfold sol_evaluated. cbn [snd]. apply negb_false_iff. apply existsb_exists. exists NaN. split; auto.
  assert (In ev (b_ev b)) as IE by (rewrite <- (rows_ev b W); apply in_map_iff; exists (v, ev); auto).
  destruct W as [W1 W2]. rewrite Forall_forall in W2. specialize (W2 ev IE). unfold eval_width in W2.
  unfold score in N. cbn [snd] in N. rewrite <- N. assert (nth j ev NaN = nth j (firstn n ev) NaN) as ->.
  { rewrite <- (firstn_skipn n ev) at 1. apply app_nth1. rewrite firstn_length. lia. }
  apply nth_In. rewrite firstn_length. lia.
Qed.

(* C143: with exclude given as a list of names (or None), an algorithm gets the reports which are not excluded, under names that are all different,
   and nothing else is added or changed. *)
Theorem C143_keys_partial : forall order e obj_index n (s : status V) k,
  NoDup order -> (forall r, In r order) ->
  (forall x, e <> ExString x) ->
  NoDup (map fst (@mixin_getters V order e obj_index n)) /\
  let named r := match e with ExNames l => In (name_of r) l | _ => False end in
  let about i r := ~ named r /\ match sole obj_index n with Some j => i = j | None => i < n end /\
                   k = report_key (single obj_index n) (decimal i) (name_of r) in
  (forall i r, about i r -> dget k (getters (mixin_init true order e obj_index n s)) = Some (Rep i r)) /\
  ((forall i r, ~ about i r) -> dget k (getters (mixin_init true order e obj_index n s)) = dget k (getters s)).
Proof.
  intros order e obj_index n s k NO ALL NS. split; [apply regs_nodup; auto|].
  assert (forall r, match e with ExNames l => In (name_of r) l | _ => False end <-> In (name_of r) (excluded e)) as EX.
  { intros r. destruct e as [|x|l]; cbn; try tauto. exfalso. apply (NS x). auto. }
  cbn zeta. split.
  - intros i r (X & M & ->). apply init_get; auto. apply key_registered; auto. rewrite <- EX. auto.
  - intros A. cbn [mixin_init getters]. apply dget_dupdate_out. rewrite in_map_iff. intros ((k', g) & Q & I). cbn in Q. subst k'.
    apply in_regs in I. destruct I as (i & r & -> & I1 & I2 & I3). apply (A i r). split; [rewrite EX; auto|].
    unfold single. rewrite sole_ok in I3. destruct (sole obj_index n); intuition.
Qed.
(* A string given as exclude excludes nothing: not even the report of that name. *)
Lemma characters_short x s : In x (characters s) -> String.length x = 1.
Proof. induction s as [|c s IH]; cbn; [tauto|]. intros [<-|I]; auto. Qed.
Theorem C143_string_refuted : forall order name obj_index n (s : status V), NoDup order ->
  mixin_init true order (ExString name) obj_index n s = mixin_init true order ExNone obj_index n s /\
  (forall r i, In r order -> match sole obj_index n with Some j => i = j | None => i < n end ->
    dget (report_key (single obj_index n) (decimal i) (name_of r)) (getters (mixin_init true order (ExString name) obj_index n s)) = Some (Rep i r)).
Proof.
  intros order name obj_index n s NO.
  assert (forall r, ~ In (name_of r) (characters name)) as X.
  { intros r I. apply characters_short in I. destruct r; discriminate. }
  split.
  - unfold mixin_init, mixin_getters. replace (to_register order (ExString name)) with (to_register order ExNone); auto.
    unfold to_register. apply filter_ext. intros r. f_equal. cbn [excluded existsb]. symmetry. rewrite <- not_true_iff_false, existsb_exists.
    intros (y & I & Q). apply String.eqb_eq in Q. subst y. apply (X r I).
  - intros r i I M. apply init_get; auto. apply key_registered; auto.
Qed.
(* so the distribution-based searches do not use their own mean_eval unless they are distributed: before the first step, reading mean_eval raises an
   AttributeError, whereas in distributed mode it is None *)
Theorem C143_gaussian_refuted : forall order j n (others : dict (getter V)) (a : alg V), NoDup order -> In MeanEval order -> ~ In "mean_eval"%string (map fst others) ->
  a_pop a = None ->
  snd (read mean "mean_eval" a (gaussian_init mean false order j n others)) = Err AttributeError /\
  snd (read mean "mean_eval" a (gaussian_init mean true order j n others)) = Ok (match a_mean a with None => VNone | Some v => VNum v end).
Proof.
  intros order j n others a NO I NI P. split.
  - unfold gaussian_init. cbn [negb]. set (s := mkStatus _ _). unfold read. assert (computed (mixin_init true order (ExString "mean_eval") (Some j) n s) = []) as -> by reflexivity.
    cbn [dget find option_map].
    destruct (C143_string_refuted order "mean_eval" (Some j) n s NO) as [_ G].
    rewrite (G MeanEval j I eq_refl : dget "mean_eval"%string _ = _). cbn [call_plain store snd]. unfold get_mean_eval, with_pop. rewrite P. reflexivity.
  - unfold gaussian_init, mixin_init. cbn [negb]. unfold read. cbn [computed getters dget find option_map]. rewrite dget_dupdate_out; auto.
    change (dget "mean_eval"%string [("mean_eval"%string, Own (own_mean_eval mean j))]) with (Some (@Own V (own_mean_eval mean j))).
    cbn [call_plain]. unfold own_mean_eval. rewrite P. reflexivity.
Qed.
End Reports.
Print Assumptions C142_reports_partial.
Print Assumptions C142_unevaluated_refuted.
Print Assumptions C143_keys_partial.
Print Assumptions C143_string_refuted.
Print Assumptions C143_gaussian_refuted.

(* ---------------------------------------------------------------- PicklingLogger *)
Section Pickle.
Context {X P : Type}.
Variable to_cpu : X -> X.
Variable to_policy : option (X -> P).
Notation pickled := (@pickled X P to_cpu to_policy).
Notation save := (@save X P to_cpu to_policy).
Notation saves := (@saves X P to_cpu to_policy).

Lemma picked_get (st : dict X) k : forall items d,
  dget k (fold_left (fun d k => match dget k st with None => d | Some x => dset k (@Item X P (to_cpu x)) d end) items d) =
  if in_dec string_dec k items then match dget k st with Some x => Some (Item (to_cpu x)) | None => dget k d end else dget k d.
Proof.
  induction items as [|k' items IH]; intros d; cbn [fold_left]; [destruct (in_dec _ _ _) as [[]|]; auto|]. rewrite IH. clear IH.
  destruct (in_dec string_dec k items) as [I|N], (in_dec string_dec k (k' :: items)) as [I'|N']; cbn in *.
  - destruct (dget k st) as [x|] eqn:D; auto. destruct (dget k' st) eqn:D'; auto. apply dget_dset_other. congruence.
  - tauto.
  - destruct I' as [->|]; [|tauto]. destruct (dget k st); auto. apply dget_dset.
  - destruct (dget k' st); auto. apply dget_dset_other. tauto.
Qed.
(* which item of the status the policy is made from *)
Definition source (p : pickling) (st : dict X) : option string :=
  match p_policy p with Some k => Some k | None => find (fun k => has k st) ["center"; "pop_best"]%string end.

(* C144: saving writes one file; reading the last file gives what was saved: the requested items of the status (those which exist), the observation
   statistics, and the policy made from the requested item, from the center, or from the best solution of the population. *)
Theorem C144_contents : forall p fname m s s' f, save p fname m s = Ok (s', f) ->
  last_generation s' = Some (m_gen m) /\ last_file s' = Some f /\
  (forall g, g <> f -> dget g (files s') = dget g (files s)) /\
  exists d, unpickle_last s' = Ok d /\
    (forall k, ~ In k own_names -> dget k d = if in_dec string_dec k (p_items p) then option_map (fun x => Item (to_cpu x)) (dget k (m_status m)) else None) /\
    (forall n, m_stats m = Some n -> dget "obs_stats"%string d = Some (ObsStats n)) /\
    (forall mk, to_policy = Some mk -> exists k x, source p (m_status m) = Some k /\ dget k (m_status m) = Some x /\ dget "policy"%string d = Some (Policy (mk x))).
Proof.
  intros p fname m s s' f SV. unfold save in SV. destruct (pickled p m) as [d|] eqn:PK; [|discriminate]. cbn [bind] in SV. injection SV as <- Ef.
  cbn [last_generation last_file files]. rewrite Ef. split; auto. split; auto. split; [intros g Ng; apply dget_dset_other; auto|].
  exists d. split; [unfold unpickle_last; cbn [last_file files]; rewrite dget_dset; auto|].
  unfold RepModel.pickled in PK. set (d0 := picked to_cpu p (m_status m)) in *.
  set (d1 := match m_stats m with None => d0 | Some n => dset "obs_stats"%string (ObsStats n) d0 end) in *.
  assert (forall k, ~ In k own_names -> dget k d1 = dget k d0) as D1.
  { intros k K. subst d1. destruct (m_stats m); auto. apply dget_dset_other. intros <-. apply K. cbn; auto. }
  assert (forall k, ~ In k own_names -> dget k d0 = if in_dec string_dec k (p_items p) then option_map (fun x => Item (to_cpu x)) (dget k (m_status m)) else None) as D0.
  { intros k K. subst d0. unfold picked. rewrite picked_get. destruct (in_dec _ _ _); auto. }
  destruct to_policy as [mk|].
  - destruct (policy_key p (m_status m)) as [k|] eqn:PKEY; [|discriminate]. cbn [bind] in PK. destruct (dget k (m_status m)) as [x|] eqn:G; [|discriminate].
    set (d2 := dset "policy"%string (Policy (mk x)) d1) in *.
    assert (forall q, ~ In q ["beginning_time"; "now"; "elapsed"]%string -> dget q d = dget q d2) as D2.
    { intros q N. injection PK as <-. destruct (m_started m); auto. cbn in N. rewrite !dget_dset_other by (intros <-; tauto). auto. }
    split; [|split].
    + intros q N. rewrite D2 by (cbn in *; tauto). unfold d2. rewrite dget_dset_other by (intros <-; apply N; cbn; auto). rewrite D1; auto.
    + intros n Hn. rewrite D2 by (cbn; intuition discriminate). unfold d2. rewrite dget_dset_other by discriminate. unfold d1. rewrite Hn. apply dget_dset.
    + intros mk' [= <-]. exists k, x. split; [|split; auto].
      * unfold source, policy_key in *. destruct (p_policy p); [congruence|]. cbn [find]. destruct (has "center" _); [congruence|].
        destruct (has "pop_best" _); [congruence|discriminate].
      * rewrite D2 by (cbn; intuition discriminate). unfold d2. apply dget_dset.
  - injection PK as <-. split; [|split].
    + intros q N. rewrite D1; auto.
    + intros n Hn. unfold d1. rewrite Hn. apply dget_dset.
    + discriminate.
Qed.
(* saving raises an error exactly if a policy is to be made and the status has no item to make it from *)
Theorem C144_errors : forall p fname m s,
  is_ok (save p fname m s) = true <->
  (to_policy <> None -> exists k x, source p (m_status m) = Some k /\ dget k (m_status m) = Some x).
Proof.
  intros p fname m s. assert (is_ok (save p fname m s) = is_ok (pickled p m)) as -> by (unfold save; destruct (pickled p m); reflexivity).
  unfold RepModel.pickled. destruct to_policy as [mk|]; [|split; [intros _ C; congruence|reflexivity]].
  unfold policy_key, source. destruct (p_policy p) as [k|]; cbn [bind].
  - destruct (dget k (m_status m)) as [x|] eqn:G; cbn [is_ok]; split; eauto; try discriminate.
    intros A. destruct A as (k' & x & [= <-] & B); [discriminate|]. congruence.
  - cbn [find]. unfold has at 1 3. destruct (dget "center" (m_status m)) as [x|] eqn:G; cbn [bind].
    + rewrite G. split; auto. intros _ _. eauto.
    + unfold has. destruct (dget "pop_best" (m_status m)) as [x|] eqn:G2; cbn [bind].
      * rewrite G2. split; auto. intros _ _. eauto.
      * cbn [is_ok]. split; [discriminate|]. intros A. destruct A as (k' & x & Q & _); discriminate.
Qed.
(* every generation gets its own file: files of earlier generations are not overwritten *)
Lemma path_inj p g g' : within_dir p (auto_name p g) = within_dir p (auto_name p g') -> g = g'.
Proof.
  assert (forall a b : string, starts_slash (auto_name p g) = starts_slash (auto_name p g')) as S.
  { intros _ _. unfold auto_name. destruct (p_prefix p); reflexivity. }
  intros Q. assert (auto_name p g = auto_name p g') as N.
  { unfold within_dir in Q. destruct (p_dir p) as [d|]; auto. unfold join_path in Q. rewrite (S "" "")%string in Q. destruct (starts_slash (auto_name p g')); auto.
    destruct (ends_slash d); [apply app_inj_l in Q; auto|]. apply app_inj_l in Q. injection Q as Q. auto. }
  unfold auto_name in N. apply app_inj_l in N. apply app_inj_l in N. apply app_inj_r in N. eapply zfill_inj; eauto.
Qed.
Lemma saves_other p f : forall ms s s', saves p ms s = Ok s' -> (forall m, In m ms -> within_dir p (auto_name p (m_gen m)) <> f) ->
  dget f (files s') = dget f (files s).
Proof.
  induction ms as [|m ms IH]; intros s s' SV N; cbn [RepModel.saves] in SV; [congruence|].
  destruct (save p None m s) as [[s1 f1]|] eqn:E1; [|discriminate]. cbn [bind fst] in SV. rewrite (IH s1 s' SV) by (intros; apply N; right; auto).
  unfold save in E1. destruct (pickled p m); [|discriminate]. injection E1 as <- <-. cbn [files]. apply dget_dset_other. apply N. left; auto.
Qed.
Theorem C144_files : forall p ms s s', saves p ms s = Ok s' -> NoDup (map (@m_gen X) ms) ->
  NoDup (map (fun m => within_dir p (auto_name p (@m_gen X m))) ms) /\
  forall m, In m ms -> exists d, pickled p m = Ok d /\ dget (within_dir p (auto_name p (m_gen m))) (files s') = Some d.
Proof.
  intros p ms. induction ms as [|m ms IH]; intros s s' SV ND; [split; [constructor|intros m []]|].
  cbn [RepModel.saves] in SV. destruct (save p None m s) as [[s1 f1]|] eqn:E1; [|discriminate]. cbn [bind fst] in SV.
  cbn [map] in *. inversion ND as [|? ? N1 N2]; subst. destruct (IH s1 s' SV N2) as [A B].
  assert (forall m', In m' ms -> within_dir p (auto_name p (m_gen m')) <> within_dir p (auto_name p (m_gen m))) as D.
  { intros m' I Q. apply path_inj in Q. apply N1. rewrite <- Q. apply in_map. auto. }
  split.
  - constructor; auto. rewrite in_map_iff. intros (m' & Q & I). apply (D m' I). auto.
  - intros m' [<-|I]; auto. unfold save in E1. destruct (pickled p m) as [d|]; [|discriminate]. injection E1 as <- <-.
    exists d. split; auto. rewrite (saves_other p _ ms _ s' SV D). cbn [files]. apply dget_dset.
Qed.
(* files with relative names lie within the configured directory *)
Lemma ends_slash_spec d : ends_slash d = true -> d = ""%string \/ exists d', d = (d' ++ "/")%string.
Proof.
  induction d as [|c d IH]; auto. intros Q. right. cbn [ends_slash] in Q. destruct d as [|c' d].
  - apply Ascii.eqb_eq in Q. subst. exists ""%string. auto.
  - destruct (IH Q) as [C|(d' & E)]; [discriminate|]. exists (String c d'). cbn. rewrite <- E. auto.
Qed.
Theorem C144_directory_partial : forall p fname m s s' f dir, save p fname m s = Ok (s', f) -> p_dir p = Some dir ->
  let name := match fname with Some g => g | None => auto_name p (m_gen m) end in
  (forall rest, name <> String "/" rest) -> inside dir name f.
Proof.
  intros p fname m s s' f dir SV D name R. unfold save in SV. destruct (pickled p m) as [d|]; [|discriminate]. injection SV as _ <-.
  unfold within_dir. rewrite D. fold name. unfold join_path, inside.
  assert (starts_slash name = false) as ->.
  { destruct name as [|c rest]; auto. cbn. destruct (Ascii.eqb_spec c "/") as [->|]; auto. exfalso. eapply R; eauto. }
  destruct (ends_slash dir) eqn:E; auto. right. split; auto. apply ends_slash_spec. auto.
Qed.
(* an absolute name is used as it is: the directory is ignored *)
Theorem C144_directory_refuted : forall p rest m s s' f, save p (Some (String "/" rest)) m s = Ok (s', f) -> f = String "/" rest.
Proof.
  intros p rest m s s' f SV. unfold save in SV. destruct (pickled p m) as [d|]; [|discriminate]. injection SV as _ <-.
  unfold within_dir. destruct (p_dir p); reflexivity.
Qed.
End Pickle.
Print Assumptions C144_contents.
Print Assumptions C144_errors.
Print Assumptions C144_files.
Print Assumptions C144_directory_partial.
Print Assumptions C144_directory_refuted.

(* ---------------------------------------------------------------- loggers of scalars *)
Section Scalars.
Context {X : Type}.
Variable is_sequence is_solution : X -> bool.

(* C145: the standard output gets every item of the status once, with its value; the leading keys come first, in the given order; all labels have the
   same width, and each is the key after blanks. *)
Lemma spaces_app n s : exists b, spaces n s = (b ++ s)%string /\ Forall (fun c => c = " "%char) (chars b) /\ String.length (spaces n s) = n + String.length s.
Proof.
  induction n as [|n (b & E1 & E2 & E3)]; cbn [spaces].
  - exists ""%string. repeat split; constructor.
  - exists (String " " b). rewrite E1. cbn. repeat split; auto. rewrite <- E1, E3. auto.
Qed.
Lemma max_ge l : forall a, a <= fold_left Nat.max l a /\ (forall x, In x l -> x <= fold_left Nat.max l a).
Proof.
  induction l as [|y l IH]; intros a; cbn [fold_left]; [split; auto; intros x []|]. destruct (IH (Nat.max a y)) as [A B].
  split; [lia|]. intros x [<-|I]; auto. lia.
Qed.
Lemma partition_perm {A} (f : A -> bool) l : Permutation (filter f l ++ filter (fun x => negb (f x)) l) l.
Proof.
  induction l as [|x l IH]; cbn; auto. destruct (f x); cbn; [constructor; auto|]. rewrite <- Permutation_middle. constructor. auto.
Qed.
Lemma dget_In (st : dict X) : NoDup (map fst st) -> forall k v, dget k st = Some v <-> In (k, v) st.
Proof.
  intros ND k v. induction st as [|[k' v'] st IH]; [cbn; split; [discriminate|tauto]|]. cbn [map fst] in ND. inversion ND as [|? ? N1 N2]; subst.
  rewrite dget_cons. cbn [fst snd]. destruct (String.eqb_spec k' k) as [Q|N].
  - subst k'. split; [intros [= <-]; left; auto|]. intros [Q|I]; [congruence|]. exfalso. apply N1. apply in_map_iff. exists (k, v). auto.
  - rewrite (IH N2). cbn. split; auto. intros [Q|]; auto. congruence.
Qed.
Theorem C145_stdout : forall leading (st : dict X), st <> [] -> NoDup (map fst st) -> NoDup leading ->
  exists items w ls, Permutation items st /\
    (exists rest, map fst items = filter (fun k => has k st) leading ++ rest /\ forall k, In k rest -> ~ In k leading) /\
    stdout_lines leading st = Ok ls /\ map snd ls = map snd items /\
    Forall2 (fun l kv => String.length (fst l) = w /\ exists blanks, fst l = (blanks ++ fst kv)%string /\ Forall (fun c => c = " "%char) (chars blanks)) ls items.
Proof.
  intros leading st NE ND NL. unfold stdout_lines. set (w := fold_left Nat.max _ 0).
  set (first := flat_map _ leading). set (rest := filter _ st).
  exists (first ++ rest), w. eexists.
  assert (map fst first = filter (fun k => has k st) leading) as F1.
  { subst first. clear. induction leading as [|k l IH]; cbn; auto. rewrite map_app, IH. unfold has. destruct (dget k st); reflexivity. }
  assert (Permutation (first ++ rest) st) as PM.
  { eapply Permutation_trans; [|apply (partition_perm (fun kv => existsb (String.eqb (fst kv)) leading) st)]. apply Permutation_app_tail. apply NoDup_Permutation.
    - apply (NoDup_map_inv fst). rewrite F1. apply NoDup_filter. auto.
    - apply NoDup_filter. apply (NoDup_map_inv fst). auto.
    - intros [k v]. subst first. rewrite in_flat_map, filter_In, existsb_exists. split.
      + intros (k' & I & J). destruct (dget k' st) as [v'|] eqn:D; [|destruct J]. destruct J as [[= <- <-]|[]].
        split; [apply dget_In; auto|]. exists k'. split; auto. apply String.eqb_refl.
      + intros (I & k' & I' & Q). apply String.eqb_eq in Q. cbn in Q. subst k'. exists k. split; auto. apply (dget_In st ND) in I. rewrite I. left; auto. }
  split; auto. split; [|split; [destruct st; [congruence|reflexivity]|split]].
  - exists (map fst rest). rewrite map_app, F1. split; auto. intros k I C. apply in_map_iff in I. destruct I as ((k', v) & Q & I). cbn in Q. subst k'.
    subst rest. apply filter_In in I. destruct I as [_ I]. rewrite negb_true_iff, <- not_true_iff_false, existsb_exists in I. apply I. exists k. split; auto.
    apply String.eqb_refl.
  - rewrite map_map. reflexivity.
  - assert (forall kv, In kv (first ++ rest) -> String.length (fst kv) <= w) as LE.
    { intros kv I. apply (max_ge (map (fun kv => String.length (fst kv)) st) 0). apply in_map_iff. exists kv. split; auto.
      eapply Permutation_in; eauto. }
    revert LE. generalize (first ++ rest) as l. induction l as [|kv l IH]; intros LE; cbn [map]; constructor; auto.
    + cbn [fst]. unfold rjust. destruct (spaces_app (w - String.length (fst kv)) (fst kv)) as (b & E1 & E2 & E3). split.
      * rewrite E3. specialize (LE kv (or_introl eq_refl)). lia.
      * exists b. split; auto.
    + apply IH. intros; apply LE. right; auto.
Qed.
(* groups: the metrics keep their values and order, under different names *)
Lemma group_inj g a b : group_key g a = group_key g b -> a = b.
Proof. destruct g as [g|]; cbn; auto. intros Q. apply app_inj_l in Q. injection Q as Q. auto. Qed.
Lemma dset_new {W} k (v : W) d : ~ In k (map fst d) -> dset k v d = d ++ [(k, v)].
Proof. induction d as [|[k' v'] d IH]; cbn; intros N; auto. destruct (String.eqb_spec k' k) as [Q|_]; [tauto|]. rewrite IH; auto. Qed.
Theorem C145_groups : forall group (st : dict X), NoDup (map fst st) ->
  NoDup (map fst (grouped group st)) /\ grouped group st = map (fun kv => (group_key group (fst kv), snd kv)) st.
Proof.
  intros group st ND. assert (grouped group st = map (fun kv => (group_key group (fst kv), snd kv)) st) as E.
  { unfold grouped. assert (forall d, (forall k, In k (map fst st) -> ~ In (group_key group k) (map fst d)) ->
      fold_left (fun d kv => dset (group_key group (fst kv)) (snd kv) d) st d = d ++ map (fun kv => (group_key group (fst kv), snd kv)) st) as G.
    { revert ND. induction st as [|[k v] st IH]; intros ND d D; cbn [fold_left map]; [rewrite app_nil_r; auto|]. cbn [map fst] in *.
      inversion ND as [|? ? N1 N2]; subst. cbn [fst snd]. rewrite (dset_new _ v d) by (apply D; left; auto). rewrite IH; auto.
      - rewrite <- app_assoc. reflexivity.
      - intros k' I. rewrite map_app, in_app_iff. intros [C|[C|[]]]; [apply (D k'); auto; right; auto|]. cbn in C. apply group_inj in C. congruence. }
    rewrite G; auto. }
  split; auto. rewrite E, map_map. cbn [fst]. rewrite <- map_map. apply nodup_map_inj; auto. intros x y _ _. apply group_inj.
Qed.
(* mlflow: the logged statuses are those of every interval-th call, without sequences and solutions, and the step given along is the number of the
   call.  For a logger attached before the first generation this is the number of the generation. *)
Lemma mlflow_ok interval af : (0 < interval)%Z -> forall sts c, exists l, mlflow_calls is_sequence is_solution interval af c sts = Ok l /\
  forall s d, In (s, d) l <-> exists i st, nth_error sts i = Some st /\ s = (c + Z.of_nat i + 1)%Z /\
    ((c + Z.of_nat i + (if af then 0 else 1)) mod interval = 0)%Z /\ d = scalar_filter is_sequence is_solution st.
Proof.
  intros I. induction sts as [|st sts IH]; intros c; cbn [mlflow_calls].
  - exists []. split; auto. intros s d. split; [intros []|]. intros (i & st & Q & _). destruct i; discriminate.
  - unfold logger_call. assert ((interval =? 0)%Z = false) as -> by (apply Z.eqb_neq; lia).
    set (n := if af then c else (c + 1)%Z).
    assert ((if af then (c, (c + 1)%Z) else ((c + 1)%Z, (c + 1)%Z)) = (n, (c + 1)%Z)) as -> by (destruct af; auto). cbn [bind].
    destruct (IH (c + 1)%Z) as (l & -> & L). cbn [rmap]. eexists. split; [reflexivity|]. intros s d.
    assert (forall T, In (s, d) (if (n mod interval =? 0)%Z then T :: l else l) <-> (T = (s, d) /\ (n mod interval = 0)%Z) \/ In (s, d) l) as ->.
    { intros T. destruct (Z.eqb_spec (n mod interval) 0); cbn; intuition. }
    rewrite L. split.
    + intros [[Q N]|(i & st' & A & B & C & D)].
      * injection Q as <- <-. exists 0, st. split; auto. split; [lia|]. split; auto. replace (c + Z.of_nat 0 + (if af then 0 else 1))%Z with n by (unfold n; destruct af; lia). auto.
      * exists (S i), st'. split; auto. split; [lia|]. split; auto. rewrite <- C. f_equal. destruct af; lia.
    + intros (i & st' & A & B & C & D). destruct i as [|i].
      * left. injection A as <-. split; [rewrite B, D; f_equal; lia|]. rewrite <- C. f_equal. unfold n. destruct af; lia.
      * right. exists i, st'. split; auto. split; [lia|]. split; auto. rewrite <- C. f_equal. destruct af; lia.
Qed.
Theorem C145_mlflow_partial : forall interval af sts, (0 < interval)%Z ->
  exists l, mlflow_calls is_sequence is_solution interval af 0 sts = Ok l /\
    forall step d, In (step, d) l <-> exists g st, nth_error sts (g - 1) = Some st /\ 1 <= g /\ step = Z.of_nat g /\
      ((Z.of_nat g - (if af then 1 else 0)) mod interval = 0)%Z /\
      (forall k v, In (k, v) d <-> In (k, v) st /\ is_sequence v = false /\ is_solution v = false) /\ d = scalar_filter is_sequence is_solution st.
Proof.
  intros interval af sts I. destruct (mlflow_ok interval af I sts 0) as (l & E & L). exists l. split; auto. intros s d. rewrite L.
  assert (forall st k v, In (k, v) (scalar_filter is_sequence is_solution st) <-> In (k, v) st /\ is_sequence v = false /\ is_solution v = false) as SF.
  { intros st k v. unfold scalar_filter. rewrite filter_In, andb_true_iff, !negb_true_iff. reflexivity. }
  split.
  - intros (i & st & A & B & C & D). exists (S i), st. replace (S i - 1) with i by lia. split; auto. split; [lia|]. split; [lia|]. split; [|split; auto].
    + rewrite <- C. f_equal. destruct af; lia.
    + intros k v. rewrite D. apply SF.
  - intros (g & st & A & B & C & D & _ & F). exists (g - 1), st. split; auto. split; [lia|]. split; auto. rewrite <- D. f_equal. destruct af; lia.
Qed.
(* a logger attached later gives numbers which are too small *)
Theorem C145_mlflow_refuted : forall interval af sts (generation : dict X -> Z) before, (0 < interval)%Z -> (0 < before)%Z ->
  (forall i st, nth_error sts i = Some st -> generation st = (before + Z.of_nat i + 1)%Z) ->
  exists l, mlflow_calls is_sequence is_solution interval af 0 sts = Ok l /\
    forall step d, In (step, d) l -> exists st, In st sts /\ d = scalar_filter is_sequence is_solution st /\ step = (generation st - before)%Z /\ step <> generation st.
Proof.
  intros interval af sts generation before I B G. destruct (mlflow_ok interval af I sts 0) as (l & E & L). exists l. split; auto. intros s d K.
  apply L in K. destruct K as (i & st & A & S & _ & D). exists st. split; [eapply nth_error_In; eauto|]. split; auto. rewrite (G i st A). lia.
Qed.
End Scalars.
Print Assumptions C145_stdout.
Print Assumptions C145_groups.
Print Assumptions C145_mlflow_partial.
Print Assumptions C145_mlflow_refuted.

(* ---------------------------------------------------------------- examples *)
Definition ex_batch : batch nat := mkBatch [10; 20; 30] [[Fin 4; Fin 1]; [Fin 2; Fin 9]; [Fin 3; Fin 9]]%Z [false; true] 0.
Definition ex_order : list reportable := [MeanEval; PopBestEval; PopBest; MedianEval].
Definition ex_mean (l : list fl) : fl := Fin 5.
Example C142_example :
  let s0 := mixin_init true ex_order ExNone None 2 (mkStatus [] []) in
  let a := mkAlg (Some ex_batch) None in
  let x := run_ops ex_mean (mkAlg None None, s0) [Step a [("iter", VOther 1)]; Read "obj1_pop_best_eval"]%string in
  evaluated [false; true] ex_batch /\ avoids (@report_names nat ex_order ExNone None 2) [("iter"%string, @VOther nat 1)] /\
  map (fun k => snd (read ex_mean k (fst x) (snd x))) ["obj0_pop_best"; "obj0_pop_best_eval"; "obj1_pop_best"; "obj1_pop_best_eval"; "obj0_median_eval"; "iter"; "pop_best"]%string
  = [Ok (VSol (20, [Fin 2; Fin 9]%Z) 2); Ok (VNum (Fin 2)); Ok (VSol (20, [Fin 2; Fin 9]%Z) 2); Ok (VNum (Fin 9)); Ok (VNum (Fin 3)); Ok (VOther 1); Err KeyError].
Proof.
  cbn zeta. split; [|split].
  - split; [split; [reflexivity|repeat constructor]|]. split; auto. split; [discriminate|]. intros [|[|j]] L; [repeat constructor|repeat constructor|cbn in L; lia].
  - intros k [<-|[]] C. cbn in C. intuition discriminate.
  - vm_compute. reflexivity.
Qed.
Example C142_unevaluated_example :
  let b := mkBatch [10; 20] [[Fin 4]; [NaN]]%Z [false] 0 in
  let s0 := mixin_init true ex_order ExNone None 1 (mkStatus [] []) in
  let x := run_ops ex_mean (mkAlg None None, s0) [Step (mkAlg (Some b) None) []] in
  ~ no_nan_col b 0 /\
  map (fun k => snd (read ex_mean k (fst x) (snd x))) ["pop_best"; "pop_best_eval"]%string = [Ok (VSol (20, [NaN]) 1); Ok VNone].
Proof.
  cbn zeta. split; [|vm_compute; reflexivity]. intros C. inversion C as [|? ? _ C2]; subst. inversion C2 as [|? ? C3 _]; subst. discriminate.
Qed.
Example C143_example :
  map fst (@mixin_getters nat ex_order (ExNames ["mean_eval"; "median_eval"]%string) None 1) = ["pop_best_eval"; "pop_best"]%string /\
  map fst (@mixin_getters nat ex_order (ExString "mean_eval") (Some 1) 2) = ["mean_eval"; "pop_best_eval"; "pop_best"; "median_eval"]%string.
Proof. vm_compute. auto. Qed.
Example C144_example :
  let p := mkPickling (Some "out"%string) "run" 4 ["center"; "best"]%string None in
  let m g := mkMoment [("center", g + 100); ("mean_eval", 7)]%string g (Some 3) true in
  match saves (fun x : nat => x) (Some (fun x => x)) p [m 9; m 10] (mkStore None None []) with
  | Ok s => map fst (files s) = ["out/run_generation0009.pickle"; "out/run_generation0010.pickle"]%string /\
      unpickle_last s = Ok [("center", Item 110); ("obs_stats", ObsStats 3); ("policy", Policy 110); ("beginning_time", Time); ("now", Time); ("elapsed", Time)]%string
  | Err _ => False
  end.
Proof. vm_compute. auto. Qed.
Example C144_absolute_example :
  let p := mkPickling (Some "out"%string) "run" 4 [] None in
  rmap snd (save (X := nat) (P := nat) (fun x => x) None p (Some "/tmp/x"%string) (mkMoment [] 3 None true) (mkStore None None [])) = Ok "/tmp/x"%string.
Proof. reflexivity. Qed.
Example C145_example :
  stdout_lines ["iter"; "absent"]%string [("mean_eval", 3); ("iter", 12)]%string = Ok [("     iter", 12); ("mean_eval", 3)]%string /\
  mlflow_calls (fun _ => false) (Nat.eqb 99) 2 false 0 [[("a", 1)]; [("a", 2); ("pop_best", 99)]; [("a", 3)]; [("a", 4)]]%string
  = Ok [(2%Z, [("a", 2)]); (4%Z, [("a", 4)])]%string.
Proof. vm_compute. auto. Qed.

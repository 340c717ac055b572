(* Properties of PyCMAES. *)
From Coq Require Import QArith String.
From Verif Require Import Prelude FloatLib BatchModel BatchSpec BatchProofs BatchProofs2 WorkModel WorkSpec EvalModel EvalSpec EvalProofs EvalProps PyModel PySpec.
Close Scope Q_scope.
Open Scope nat_scope.
Open Scope string_scope.

(* the arguments as a table *)
Definition table (a : args) : list (string * option val) :=
  [("popsize", option_map VInt (popsize a)); ("CMA_cmean", option_map VNum (center_learning_rate a));
   ("CMA_on", option_map VNum (cov_learning_rate a)); ("CMA_rankmu", option_map VNum (rankmu_learning_rate a));
   ("CMA_rankone", option_map VNum (rankone_learning_rate a)); ("minstd", option_map array_or_float (stdev_min a));
   ("maxstd", option_map array_or_float (stdev_max a)); ("CMA_diagonal", if separable a then Some (VBool true) else None)].
Fixpoint store_list (t : list (string * option val)) (d : dict) : result dict :=
  match t with [] => Ok d | (k, v) :: r => bind (store_opt k v d) (store_list r) end.
Lemma store_all_list a d : store_all a d = store_list (table a) d.
Proof.
  unfold store_all, table. cbn [store_list].
  destruct (store_opt "popsize" _ d); cbn [bind]; auto.
  repeat match goal with |- bind (store_opt ?k ?v ?d) _ = bind (store_opt ?k ?v ?d) _ => destruct (store_opt k v d); cbn [bind]; auto end.
  destruct (separable a); cbn [store_opt]; auto. destruct (has "CMA_diagonal" _); reflexivity.
Qed.
Lemma table_wants a k v : In (k, Some v) (table a) <-> wants a k v.
Proof.
  unfold table. destruct a as [ps c1 c2 c3 c4 s1 s2 sep]. cbn [popsize center_learning_rate cov_learning_rate rankmu_learning_rate rankone_learning_rate stdev_min stdev_max separable].
  split.
  - intros H. cbn [In] in H.
    repeat (destruct H as [H|H]); try tauto; apply (f_equal (fun p => (fst p, snd p))) in H; cbn [fst snd] in H;
      assert (K := f_equal fst H); assert (K2 := f_equal snd H); cbn [fst snd] in K, K2; subst k; clear H.
    + destruct ps; [|discriminate]. injection K2 as <-. now apply w_popsize.
    + destruct c1; [|discriminate]. injection K2 as <-. now apply w_cmean.
    + destruct c2; [|discriminate]. injection K2 as <-. now apply w_on.
    + destruct c3; [|discriminate]. injection K2 as <-. now apply w_rankmu.
    + destruct c4; [|discriminate]. injection K2 as <-. now apply w_rankone.
    + destruct s1 as [[q|l]|]; [| |discriminate]; injection K2 as <-; [now apply w_minstd|now apply w_minstds].
    + destruct s2 as [[q|l]|]; [| |discriminate]; injection K2 as <-; [now apply w_maxstd|now apply w_maxstds].
    + destruct sep; [|discriminate]. injection K2 as <-. now apply w_diagonal.
  - intros [z E|q E|q E|q E|q E|q E|l E|q E|l E|E]; cbn in E; subst; cbn [In option_map array_or_float]; tauto.
Qed.
Lemma table_keys a : NoDup (map fst (table a)) /\ ~ In "maxiter" (map fst (table a)) /\ ~ In "bounds" (map fst (table a)) /\ ~ In "seed" (map fst (table a)).
Proof.
  unfold table. cbn [map fst]. split; [|repeat split; cbn [In]; intuition discriminate].
  repeat (constructor; [cbn [In]; intuition discriminate|]). constructor.
Qed.
Lemma lookup_put k v d k' : lookup k' (put k v d) = if String.eqb k' k then Some v else lookup k' d.
Proof. reflexivity. Qed.

Lemma store_list_ok t : NoDup (map fst t) -> forall d, (forall k v, In (k, Some v) t -> has k d = false) ->
  exists d', store_list t d = Ok d' /\ (forall k v, In (k, Some v) t -> lookup k d' = Some v) /\
    (forall k, (forall v, ~ In (k, Some v) t) -> lookup k d' = lookup k d).
Proof.
  intros N. induction t as [|[k v] t IH]; intros d H; cbn [store_list].
  - exists d. split; auto. split; [intros k v []|auto].
  - cbn [map fst] in N. inversion N as [|? ? N1 N2]; subst.
    destruct v as [v|]; cbn [store_opt].
    + rewrite (H k v) by (left; reflexivity). cbn [bind]. destruct (IH N2 (put k v d)) as (d' & E & A & B).
      { intros k' v' I. unfold has. rewrite lookup_put. destruct (String.eqb_spec k' k) as [->|Ne].
        - exfalso. apply N1. apply in_map_iff. exists (k, Some v'). auto.
        - apply (H k' v'). right; auto. }
      exists d'. split; auto. split.
      * intros k' v' [Q|I]; [|auto]. assert (k = k') by (apply (f_equal fst) in Q; exact Q). assert (Some v = Some v') by (apply (f_equal snd) in Q; exact Q).
        subst k'. rewrite B; [rewrite lookup_put, String.eqb_refl; auto|]. intros w I. apply N1. apply in_map_iff. exists (k, Some w). auto.
      * intros k' K. rewrite B; [|intros w I; apply (K w); right; auto]. rewrite lookup_put. destruct (String.eqb_spec k' k) as [->|Ne]; auto.
        exfalso. apply (K v). left. reflexivity.
    + cbn [bind]. destruct (IH N2 d) as (d' & E & A & B).
      { intros k' v' I. apply (H k' v'). right; auto. }
      exists d'. split; auto. split.
      * intros k' v' [Q|I]; auto. exfalso. assert (None = Some v') by (apply (f_equal snd) in Q; exact Q). discriminate.
      * intros k' K. apply B. intros w I. apply (K w). right; auto.
Qed.
Lemma store_list_err t : forall d k v, In (k, Some v) t -> has k d = true -> store_list t d = Err ValueError.
Proof.
  induction t as [|[k v] t IH]; intros d k' v' I H; [destruct I|]. cbn [store_list]. destruct I as [Q|I].
  - assert (k = k') by (apply (f_equal fst) in Q; exact Q). assert (v = Some v') by (apply (f_equal snd) in Q; exact Q).
    subst. cbn [store_opt]. rewrite H. reflexivity.
  - destruct v as [v|]; cbn [store_opt].
    + destruct (has k d) eqn:E; [reflexivity|]. cbn [bind]. apply (IH (put k v d) k' v' I).
      unfold has in *. rewrite lookup_put. destruct (String.eqb_spec k' k); auto.
    + cbn [bind]. apply (IH d k' v' I H).
Qed.
Lemma lookup_initial c k : lookup k (initial_options c) =
  if String.eqb k "maxiter" then match lookup k c with Some v => Some v | None => Some VInfinity end else lookup k c.
Proof.
  unfold initial_options, has. destruct (String.eqb_spec k "maxiter") as [->|N].
  - destruct (lookup "maxiter" c) eqn:E; [exact E|reflexivity].
  - destruct (lookup "maxiter" c); auto. rewrite lookup_put. destruct (String.eqb_spec k "maxiter"); [congruence|reflexivity].
Qed.
Lemma lookup_bounds n lb ub d k : k <> "bounds" -> lookup k (register_bounds n lb ub d) = lookup k d.
Proof.
  intros N. unfold register_bounds. destruct (process_bounds n lb), (process_bounds n ub); auto; rewrite lookup_put;
    destruct (String.eqb_spec k "bounds"); congruence.
Qed.
Lemma lookup_seed raw d k : k <> "seed" -> lookup k (add_seed raw d) = lookup k d.
Proof. intros N. unfold add_seed. destruct (has "seed" d); auto. rewrite lookup_put. destruct (String.eqb_spec k "seed"); congruence. Qed.

Lemma wants_dec a k : (exists w, wants a k w) \/ (forall w, ~ wants a k w).
Proof.
  assert (G : forall t : list (string * option val), (exists w, In (k, Some w) t) \/ (forall w, ~ In (k, Some w) t)).
  { induction t as [|[k' [v|]] t IH]; [right; intros w []| |].
    - destruct (string_dec k' k) as [->|N]; [left; exists v; left; reflexivity|]. destruct IH as [(w & I)|I].
      + left. exists w. right. exact I.
      + right. intros w [Q|J]; [|apply (I w J)]. apply (f_equal fst) in Q. cbn [fst] in Q. congruence.
    - destruct IH as [(w & I)|I]; [left; exists w; right; exact I|]. right. intros w [Q|J]; [|apply (I w J)].
      apply (f_equal snd) in Q. discriminate Q. }
  destruct (G (table a)) as [(w & I)|I]; [left; exists w; apply table_wants; exact I|].
  right. intros w W. apply (I w). apply table_wants. exact W.
Qed.

(* C170: the options for pycma *)
Theorem C170_options_partial : forall a cma n lb ub raw,
  (forall k v, wants a k v -> lookup k cma = None) ->
  exists d, options a cma n lb ub raw = Ok d /\
    (forall k v, wants a k v -> lookup k d = Some v) /\
    (forall k v, lookup k cma = Some v -> k <> "bounds" -> lookup k d = Some v) /\
    (forall k v, lookup k d = Some v -> wants a k v \/ lookup k cma = Some v \/ k = "maxiter" \/ k = "bounds" \/ k = "seed") /\
    (lookup "maxiter" cma = None -> lookup "maxiter" d = Some VInfinity) /\
    (lookup "seed" cma = None -> exists z, lookup "seed" d = Some (VInt z) /\ (100 <= z < 2 ^ 32)%Z).
Proof.
  intros a cma n lb ub raw H. unfold options. rewrite store_all_list. destruct (table_keys a) as (Nd & Nm & Nb & Ns).
  assert (Nk : forall k v, wants a k v -> k <> "maxiter" /\ k <> "bounds" /\ k <> "seed").
  { intros k v W. apply table_wants in W. apply (in_map fst) in W. cbn [fst] in W. repeat split; intros ->; auto. }
  destruct (store_list_ok (table a) Nd (initial_options cma)) as (d & E & A & B).
  { intros k v I. apply table_wants in I. destruct (Nk k v I) as (K & _). unfold has. rewrite lookup_initial.
    destruct (String.eqb_spec k "maxiter"); [congruence|]. rewrite (H k v I). reflexivity. }
  rewrite E. cbn [rmap]. exists (add_seed raw (register_bounds n lb ub d)). split; [reflexivity|].
  assert (NW : forall k, (forall v, ~ wants a k v) -> lookup k d = lookup k (initial_options cma)).
  { intros k K. apply B. intros v I. apply (K v). apply table_wants. exact I. }
  assert (Sd : lookup "seed" d = lookup "seed" cma).
  { rewrite NW, lookup_initial; [reflexivity|]. intros v W. destruct (Nk _ _ W) as (_ & _ & K). congruence. }
  split; [|split; [|split; [|split]]].
  - intros k v W. destruct (Nk k v W) as (_ & K2 & K3). rewrite lookup_seed, lookup_bounds by auto. apply A. apply table_wants. exact W.
  - intros k v L K. assert (Q : lookup k d = Some v).
    { rewrite NW; [|intros w W; rewrite (H k w W) in L; discriminate]. rewrite lookup_initial, L. destruct (String.eqb k "maxiter"); reflexivity. }
    destruct (string_dec k "seed") as [->|Ns'].
    + unfold add_seed, has. rewrite !lookup_bounds by discriminate. rewrite Q. rewrite lookup_bounds by discriminate. exact Q.
    + rewrite lookup_seed, lookup_bounds by auto. exact Q.
  - intros k v L. destruct (string_dec k "seed") as [->|N1]; [tauto|]. destruct (string_dec k "bounds") as [->|N2]; [tauto|].
    destruct (string_dec k "maxiter") as [->|N3]; [tauto|]. rewrite lookup_seed, lookup_bounds in L by auto.
    destruct (in_dec string_dec k (map fst (table a))) as [I|I].
    + assert (Dec : (exists w, wants a k w) \/ (forall w, ~ wants a k w)) by (apply wants_dec).
      destruct Dec as [(w & W)|W].
      * left. pose proof (A k w (proj2 (table_wants a k w) W)) as Q. assert (w = v) by congruence. subst. exact W.
      * rewrite NW, lookup_initial in L by auto. destruct (String.eqb_spec k "maxiter"); [congruence|]. tauto.
    + rewrite NW, lookup_initial in L.
      * destruct (String.eqb_spec k "maxiter"); [congruence|]. tauto.
      * intros w W. apply I. apply (in_map fst) with (x := (k, Some w)). apply table_wants. exact W.
  - intros L. rewrite lookup_seed, lookup_bounds by discriminate. rewrite NW, lookup_initial.
    + rewrite L. reflexivity.
    + intros v W. destruct (Nk _ _ W) as (K & _). congruence.
  - intros L. unfold add_seed, has. rewrite lookup_bounds by discriminate. rewrite Sd, L. eexists. rewrite lookup_put, String.eqb_refl. split; [reflexivity|].
    assert (0 <= raw mod (2 ^ 32 - 100) < 2 ^ 32 - 100)%Z by (apply Z.mod_pos_bound; reflexivity). lia.
Qed.
Print Assumptions C170_options_partial.

(* an option given twice is refused *)
Theorem C170_redundant : forall a cma n lb ub raw k v w,
  wants a k v -> lookup k cma = Some w -> options a cma n lb ub raw = Err ValueError.
Proof.
  intros a cma n lb ub raw k v w W L. unfold options. rewrite store_all_list. rewrite (store_list_err (table a) _ k v); [reflexivity|apply table_wants; exact W|].
  unfold has. rewrite lookup_initial, L. destruct (String.eqb k "maxiter"); reflexivity.
Qed.
Print Assumptions C170_redundant.

Lemma options_ok a cma n lb ub raw d : options a cma n lb ub raw = Ok d ->
  exists d0, d = add_seed raw (register_bounds n lb ub d0) /\ lookup "bounds" d0 = lookup "bounds" cma.
Proof.
  unfold options. intros E. rewrite store_all_list in E. destruct (table_keys a) as (Nd & Nm & Nb & Ns).
  assert (H : forall k v, In (k, Some v) (table a) -> has k (initial_options cma) = false).
  { intros k v I. destruct (has k (initial_options cma)) eqn:Q; auto. rewrite (store_list_err (table a) _ k v I Q) in E. discriminate. }
  destruct (store_list_ok (table a) Nd _ H) as (d0 & E0 & A & B). rewrite E0 in E. injection E as <-. exists d0. split; [reflexivity|].
  rewrite B, lookup_initial; [reflexivity|]. intros v I. apply Nb. apply (in_map fst) in I. exact I.
Qed.
Lemma process_expresses n x l inf : proper_bound n x -> process_bounds n x = Some l -> expresses n inf x l.
Proof.
  intros P H. destruct x as [[q|v]|]; cbn in H; try discriminate; injection H as <-; split; cbn in *.
  - apply repeat_length.
  - apply Forall_forall. intros b I. apply repeat_spec in I. exact I.
  - rewrite map_length. exact P.
  - reflexivity.
Qed.
Lemma repeat_expresses n inf : expresses n inf None (repeat inf n).
Proof. split; [apply repeat_length|]. cbn. apply Forall_forall. intros b I. apply repeat_spec in I. exact I. Qed.
Lemma process_none n x : process_bounds n x = None -> x = None.
Proof. destruct x as [[q|v]|]; cbn; congruence. Qed.

(* the bounds of the problem are the bounds of the search *)
Theorem C170_bounds : forall a cma n lb ub raw d,
  proper_bound n lb -> proper_bound n ub -> options a cma n lb ub raw = Ok d ->
  (lb <> None \/ ub <> None ->
     exists l u, lookup "bounds" d = Some (VBounds l u) /\ expresses n BNInf lb l /\ expresses n BPInf ub u) /\
  (lb = None -> ub = None -> lookup "bounds" d = lookup "bounds" cma).
Proof.
  intros a cma n lb ub raw d Pl Pu E. destruct (options_ok a cma n lb ub raw d E) as (d0 & -> & Q).
  rewrite lookup_seed by discriminate. split.
  - intros H. unfold register_bounds. destruct (process_bounds n lb) as [l|] eqn:El, (process_bounds n ub) as [u|] eqn:Eu;
      try (apply process_none in El); try (apply process_none in Eu); rewrite ?lookup_put; cbn [String.eqb].
    + exists l, u. split; [reflexivity|]. split; now apply process_expresses.
    + exists l, (repeat BPInf n). split; [reflexivity|]. subst ub. split; [now apply process_expresses|apply repeat_expresses].
    + exists (repeat BNInf n), u. split; [reflexivity|]. subst lb. split; [apply repeat_expresses|now apply process_expresses].
    + subst. destruct H; congruence.
  - intros -> ->. cbn. exact Q.
Qed.
Print Assumptions C170_bounds.

(* an option given twice is not refused if it is "bounds": the value in cma_options is dropped silently *)
Theorem C170_bounds_refuted : forall a cma n lb ub raw d v,
  lb <> None \/ ub <> None -> lookup "bounds" cma = None -> options a cma n lb ub raw = Ok d ->
  exists d', options a (put "bounds" v cma) n lb ub raw = Ok d' /\ lookup "bounds" d' = lookup "bounds" d.
Proof.
  intros a cma n lb ub raw d v H N E.
  assert (H0 : forall k w, wants a k w -> lookup k (put "bounds" v cma) = None).
  { intros k w W. rewrite lookup_put. destruct (String.eqb_spec k "bounds") as [->|Ne].
    - exfalso. apply table_wants in W. apply (in_map fst) in W. apply (proj1 (proj2 (proj2 (table_keys a)))). exact W.
    - destruct (lookup k cma) eqn:L; auto. rewrite (C170_redundant a cma n lb ub raw k w v0 W L) in E. discriminate. }
  destruct (C170_options_partial a (put "bounds" v cma) n lb ub raw H0) as (d' & E' & _). exists d'. split; [exact E'|].
  destruct (options_ok _ _ _ _ _ _ _ E) as (d0 & -> & Q). destruct (options_ok _ _ _ _ _ _ _ E') as (d1 & -> & Q').
  rewrite !lookup_seed by discriminate. unfold register_bounds.
  destruct (process_bounds n lb) as [l|] eqn:El, (process_bounds n ub) as [u|] eqn:Eu; rewrite ?lookup_put; try reflexivity.
  apply process_none in El. apply process_none in Eu. destruct H; congruence.
Qed.
Print Assumptions C170_bounds_refuted.

Lemma fneg_lt x y : lt_fl (fneg x) (fneg y) <-> lt_fl y x.
Proof.
  split; intros H; destruct x, y; cbn [fneg] in *; inversion H; subst; constructor; auto; lia.
Qed.
Lemma recorded_objectives nobj ndata (w : verdict) j : acceptable nobj ndata w -> j < nobj ->
  nth j (recorded nobj ndata w) NaN = nth j (fst w) NaN.
Proof.
  intros Ha L. unfold recorded, acceptable in *. destruct (snd w) as [e|].
  - destruct Ha as [Q _]. apply app_nth1. lia.
  - destruct (Nat.eqb_spec (length (fst w)) nobj) as [Q|Q]; [apply app_nth1; lia|reflexivity].
Qed.

(* pycma minimizes what it is told: a solution gets the smaller number exactly when it is the better one *)
Theorem C170_told : forall (A V : Type) (cast : A -> V) (fit : fitness V) (h : V -> verdict) g senses ndata old j d asked,
  length old = length asked -> Forall (fun r => length r = length senses + ndata) old ->
  computes (length senses) ndata fit h -> (forall v, acceptable (length senses) ndata (h v)) -> sensible g (length asked) ->
  nth_error senses j = Some d ->
  (forall a, In a asked -> is_nan (nth j (fst (h (cast a))) NaN) = false) ->
  exists b told, step cast fit g senses ndata old (Z.of_nat j) asked = Ok (b, (asked, told)) /\
    b_vals b = map cast asked /\ length told = length asked /\
    forall i k ai ak ti tk, nth_error asked i = Some ai -> nth_error asked k = Some ak ->
      nth_error told i = Some ti -> nth_error told k = Some tk ->
      (lt_fl ti tk <-> better d (nth j (fst (h (cast ai))) NaN) (nth j (fst (h (cast ak))) NaN)).
Proof.
  intros A V cast fit h g senses ndata old j d asked Lo Fo C Ac Sg Hj Nn. unfold step.
  set (b0 := mkBatch (map cast asked) old senses ndata).
  assert (W0 : wf b0).
  { split; cbn [b0 b_ev b_len b_vals]; unfold b_len, eval_width, num_objs; cbn [b0 b_vals b_desc b_ndata]; [rewrite map_length; exact Lo|exact Fo]. }
  destruct (C159_evaluations V fit h g b0 W0 C Ac) as (b & E & Ev & Ed & En & Ee).
  { unfold b_len, b0. cbn [b_vals]. rewrite map_length. exact Sg. }
  rewrite E. cbn [bind].
  assert (Lj : j < length senses) by (apply nth_error_Some; congruence).
  assert (Wb : wf b).
  { split; [rewrite Ee, map_length; unfold b_len; rewrite Ev; reflexivity|]. rewrite Ee. apply Forall_forall. intros r Hr.
    apply in_map_iff in Hr. destruct Hr as (v & <- & _). unfold eval_width, num_objs. rewrite Ed, En. apply recorded_length. apply Ac. }
  change (b_vals b0) with (map cast asked) in *. change (num_objs b0) with (length senses) in *. change (b_ndata b0) with ndata in *.
  assert (Sc : forall a, nth j (recorded (length senses) ndata (h (cast a))) NaN = nth j (fst (h (cast a))) NaN).
  { intros a. apply recorded_objectives; auto. }
  destruct (utility_order b j d Wb) as (us & Eu & Lu & Ou).
  { rewrite Ed. exact Hj. }
  { unfold no_nan_col. rewrite Ee, map_map. apply Forall_forall. intros r Hr. apply in_map_iff in Hr. destruct Hr as (a & <- & Ia).
    rewrite Sc. apply Nn, Ia. }
  rewrite Eu. cbn [bind]. exists b, (map fneg us). split; [reflexivity|]. split; [exact Ev|]. split.
  { rewrite map_length, Lu. unfold b_len. rewrite Ev. apply map_length. }
  intros i k ai ak ti tk Hi Hk Hti Htk.
  rewrite nth_error_map in Hti, Htk. destruct (nth_error us i) as [ui|] eqn:Ui; [|discriminate]. destruct (nth_error us k) as [uk|] eqn:Uk; [|discriminate].
  injection Hti as <-. injection Htk as <-. rewrite fneg_lt.
  assert (R : forall i a, nth_error asked i = Some a -> nth_error (rows b) i = Some (cast a, recorded (length senses) ndata (h (cast a)))).
  { intros n a Ha. unfold rows, rows_of. rewrite Ee, Ev, map_map. clear - Ha. revert n Ha. induction asked as [|x l IH]; intros [|n] Ha; try discriminate.
    - injection Ha as ->. reflexivity.
    - cbn. apply IH. exact Ha. }
  rewrite (Ou k i _ _ uk ui (R k ak Hk) (R i ai Hi) Uk Ui). unfold score. cbn [snd]. rewrite !Sc. reflexivity.
Qed.
Print Assumptions C170_told.

(* not-a-number is never told *)
Theorem C170_nan : forall (A V : Type) (cast : A -> V) (fit : fitness V) (h : V -> verdict) g senses ndata old j asked a,
  length old = length asked -> Forall (fun r => length r = length senses + ndata) old ->
  computes (length senses) ndata fit h -> (forall v, acceptable (length senses) ndata (h v)) -> sensible g (length asked) ->
  j < length senses -> In a asked -> is_nan (nth j (fst (h (cast a))) NaN) = true ->
  step cast fit g senses ndata old (Z.of_nat j) asked = Err ValueError.
Proof.
  intros A V cast fit h g senses ndata old j asked a Lo Fo C Ac Sg Lj Ia Na. unfold step.
  set (b0 := mkBatch (map cast asked) old senses ndata).
  assert (W0 : wf b0).
  { split; cbn [b0 b_ev b_len b_vals]; unfold b_len, eval_width, num_objs; cbn [b0 b_vals b_desc b_ndata]; [rewrite map_length; exact Lo|exact Fo]. }
  destruct (C159_evaluations V fit h g b0 W0 C Ac) as (b & E & Ev & Ed & En & Ee).
  { unfold b_len, b0. cbn [b_vals]. rewrite map_length. exact Sg. }
  rewrite E. cbn [bind]. destruct (nth_error senses j) as [d|] eqn:Hj; [|apply nth_error_None in Hj; lia].
  assert (Hd : nth_error (b_desc b) j = Some d) by (rewrite Ed; exact Hj).
  destruct (obj_index_ok b j d Hd) as (E1 & E2 & E3 & _). cbn [optionally_get_obj_index] in E1.
  unfold utility. rewrite E1. cbn [bind]. rewrite E3. cbn [bind andb].
  replace (existsb is_nan (map (fun r => nth j r NaN) (b_ev b))) with true; [reflexivity|]. symmetry. apply existsb_exists.
  exists (nth j (fst (h (cast a))) NaN). split; [|exact Na]. rewrite Ee, map_map.
  change (b_vals b0) with (map cast asked). rewrite map_map. apply in_map_iff. exists a. split; [|exact Ia].
  apply recorded_objectives; auto.
Qed.
Print Assumptions C170_nan.

Definition ex_args : args := mkArgs (Some 20%Z) None (Some (1 # 2)%Q) None None (Some (Scal (1 # 10)%Q)) None true.
Definition ex_cma : dict := [("verbose", VInt (-9)); ("seed", VInt 7)].
Example C170_options_example :
  wants ex_args "CMA_diagonal" (VBool true) /\ wants ex_args "minstd" (VNum (1 # 10)%Q) /\ (forall k v, wants ex_args k v -> lookup k ex_cma = None) /\
  proper_bound 2 (Some (Vect [1%Q; 2%Q])) /\
  rmap (fun d => map (fun k => lookup k d) ["popsize"; "CMA_on"; "CMA_cmean"; "minstd"; "CMA_diagonal"; "seed"; "verbose"; "maxiter"; "bounds"])
    (options ex_args ex_cma 2 (Some (Vect [1%Q; 2%Q])) None 5) =
  Ok [Some (VInt 20); Some (VNum (1 # 2)%Q); None; Some (VNum (1 # 10)%Q); Some (VBool true); Some (VInt 7); Some (VInt (-9)); Some VInfinity;
      Some (VBounds [BFin 1%Q; BFin 2%Q] [BPInf; BPInf])] /\
  options ex_args [("minstd", VOther 3)] 2 None None 5 = Err ValueError /\
  rmap (lookup "bounds") (options ex_args (put "bounds" (VOther 1) ex_cma) 2 None (Some (Scal 3%Q)) 5) = Ok (Some (VBounds [BNInf; BNInf] [BFin 3%Q; BFin 3%Q])).
Proof.
  split; [apply w_diagonal; reflexivity|]. split; [apply w_minstd; reflexivity|]. split; [|repeat split].
  intros k v [ | | | | | | | | | ]; intros; reflexivity.
Qed.
Example C170_told_example :
  computes 2 1 ex_scalar ex_h /\ (forall v, acceptable 2 1 (ex_h v)) /\ sensible ex_g 3 /\
  (forall j, j < 2 -> forall a, In a [5; 3; 4] -> is_nan (nth j (fst (ex_h (S a))) NaN) = false) /\
  rmap snd (step S ex_scalar ex_g [true; false] 1 (repeat [NaN; NaN; NaN] 3) 0 [5; 3; 4]) = Ok ([5; 3; 4], [Fin (-12); Fin (-8); Fin (-10)]) /\
  step S (Scalar (fun v => Ok (S1 [NaN; Fin 3], None))) ex_g [true; false] 1 (repeat [NaN; NaN; NaN] 3) 0 [5; 3; 4] = Err ValueError.
Proof.
  destruct C159_example as (_ & C & _ & Ac & Sg & _). split; [exact C|]. split; [exact Ac|]. split; [exact Sg|]. split; [|split; reflexivity].
  intros [|[|j]] L a _; [reflexivity|reflexivity|lia].
Qed.

(* Properties of read-only tensors: C136-C139. *)
From Coq Require Import String.
From Verif Require Import Prelude RoModel RoSpec RoProofs.

Lemma get_some st v h : nth_error (vars st) v = Some h -> get st v = Ok h.
Proof. unfold get. intros ->. reflexivity. Qed.
Lemma read_written st h new :
  sound_handle (heap st) h -> length new = length (h_cells h) ->
  forall vs, read (State (write (heap st) h new) vs) h = new.
Proof.
  intros (ND & s & Es & F) L vs. unfold read, write. rewrite Es. cbn [heap].
  rewrite upd_same by (apply nth_error_Some; congruence). apply write_cells_read; auto.
Qed.
Lemma read_app m h ext vs vs' : h_store h < length m -> read (State (m ++ ext) vs) h = read (State m vs') h.
Proof. intros H. unfold read. cbn [heap]. rewrite nth_error_app1; auto. Qed.

(* C136: a storage whose variables are all read-only keeps its contents, and new variables on it are read-only as well, in every program
   that does not use one of the ways round the protection listed in RoSpec.allowed. *)
Theorem C136_protected_partial : forall s st p,
  guarded s st -> Forall honest p -> allowed_run st p ->
  nth_error (heap (run st p)) s = nth_error (heap st) s /\ guarded s (run st p).
Proof. intros. apply run_safe; auto. Qed.
Print Assumptions C136_protected_partial.
(* methods that work in place raise an error, and so does a function whose output is a read-only tensor *)
Theorem C136_raises : forall st v c,
  reads_only st v ->
  (in_place_name (f_name c) -> (exists e, step st (Method v c) = Err e) /\ (exists e, step st (Augmented v c) = Err e)) /\
  (f_out c = Out v -> exists e, step st (Function c) = Err e).
Proof.
  intros st v c (h & Eh & K). apply is_ro_kind in K. split.
  - intros N. apply in_place_blocked in N. cbn [step]. rewrite (get_some _ _ _ Eh). cbn [bind].
    destruct (get_all st (f_args c)) as [args | e]; cbn [bind]; [|eauto].
    assert (forall c' outs, f_name c' = f_name c -> exists e, call_method st h c' args outs = Err e) as X.
    { intros c' outs En. unfold call_method. rewrite K, En. cbn [negb]. destruct (blocked (f_name c)); [eauto|].
      destruct N as [N | N]; [discriminate|]. rewrite N. eauto. }
    split.
    + destruct (get_all st (outs_of (f_out c))) as [outs | e]; cbn [bind]; [|eauto]. destruct (X c outs eq_refl) as [e ->]. cbn [rmap]. eauto.
    + destruct (X (Call (f_name c) true (f_args c) NoOut (f_new c) [View false 0 (h_cells h)]) [] eq_refl) as [e ->]. cbn [bind]. eauto.
  - intros Eo. cbn [step]. destruct (get_all st (f_args c)) as [args | e]; cbn [bind]; [|eauto].
    rewrite Eo. unfold get_all. cbn [outs_of map sequence]. rewrite (get_some _ _ _ Eh). cbn [bind].
    unfold call_torch. rewrite Eo, K. destruct (negb _); cbn [bind rmap]; eauto.
Qed.
Print Assumptions C136_raises.
(* a torch function (rather than a method) that works in place modifies any read-only tensor *)
Theorem C136_function_refuted : forall st v h name new,
  nth_error (vars st) v = Some h -> h_kind h = ReadOnly -> sound_handle (heap st) h -> length new = length (h_cells h) ->
  exists st', step st (Function (Call name true [v] NoOut [new] [View false 0 (h_cells h)])) = Ok st' /\ read st' h = new.
Proof.
  intros st v h name new Eh K Snd L. cbn [step f_args f_out outs_of]. unfold get_all. cbn [map sequence]. rewrite (get_some _ _ _ Eh).
  cbn [bind]. unfold call_torch. cbn [f_inplace f_new f_res f_out forallb firstn app existsb]. unfold is_tensor. rewrite K.
  cbn [negb andb bind allocate nth_error write_all rmap fst snd]. eexists. split; [reflexivity|]. unfold bound_to_new. cbn [fst snd].
  apply read_written; auto.
Qed.
Print Assumptions C136_function_refuted.
(* and so does any function given it in a tuple of outputs *)
Theorem C136_tuple_refuted : forall st v h name new,
  nth_error (vars st) v = Some h -> h_kind h = ReadOnly -> sound_handle (heap st) h -> length new = length (h_cells h) ->
  exists st', step st (Function (Call name false [] (OutTuple [v]) [new] [])) = Ok st' /\ read st' h = new.
Proof.
  intros st v h name new Eh K Snd L. cbn [step f_args f_out outs_of]. unfold get_all. cbn [map sequence]. rewrite (get_some _ _ _ Eh).
  cbn [bind]. unfold call_torch. cbn [f_inplace f_new f_res f_out forallb firstn app existsb]. unfold is_tensor. rewrite K.
  cbn [negb andb bind allocate nth_error write_all rmap fst snd]. eexists. split; [reflexivity|]. unfold bound_to_new. cbn [fst snd].
  apply read_written; auto.
Qed.
Print Assumptions C136_tuple_refuted.
(* the numpy array of a read-only tensor is protected itself, but a tensor made from it is not *)
Definition numpy_call (h : handle) : call := Call "numpy" false [] NoOut [] [View true 0 (h_cells h)].
Theorem C136_numpy_refuted : forall st v h name new,
  nth_error (vars st) v = Some h -> h_kind h = ReadOnly -> sound_handle (heap st) h -> length new = length (h_cells h) ->
  let n := length (vars st) in
  exists st1 st3, step st (Method v (numpy_call h)) = Ok st1 /\ step st1 (NumpyWrite n new) = Err ValueError /\
    bind (step st1 (FromNumpy n)) (fun st2 => step st2 (Method (n + 1) (Call name true [] NoOut [new] []))) = Ok st3 /\ read st3 h = new.
Proof.
  intros st v h name new Eh K Snd L n. pose proof (proj2 (is_ro_kind h) K) as R.
  set (a := Handle NpRead (h_store h) (h_cells h)). set (t := Handle Plain (h_store h) (h_cells h)).
  assert (step st (Method v (numpy_call h)) = Ok (State (heap st) (vars st ++ [a]))) as E1.
  { cbn [step numpy_call f_args f_out outs_of]. rewrite (get_some _ _ _ Eh). cbn [bind get_all map sequence].
    unfold get_all, call_method. cbn [map sequence bind f_name]. rewrite R. cbn [negb]. change (blocked "numpy") with false.
    change (is_disabled "numpy") with false. cbn [String.eqb Ascii.eqb Bool.eqb orb].
    unfold call_torch. cbn [f_inplace f_new f_res f_out forallb app]. unfold is_tensor. rewrite K.
    cbn [negb andb bind allocate nth_error write_all rmap fst snd map]. reflexivity. }
  exists (State (heap st) (vars st ++ [a])), (State (write (heap st) t new) (((vars st ++ [a]) ++ [t]) ++ [])).
  assert (nth_error (vars st ++ [a]) n = Some a) as Ea by (unfold n; rewrite nth_error_app2, Nat.sub_diag; auto).
  assert (nth_error ((vars st ++ [a]) ++ [t]) (n + 1) = Some t) as Et.
  { unfold n. rewrite nth_error_app2 by (rewrite app_length; cbn; lia). rewrite app_length. cbn [length]. rewrite Nat.sub_diag. reflexivity. }
  split; [exact E1|]. split; [|split].
  - cbn [step]. rewrite (get_some (State (heap st) (vars st ++ [a])) n a Ea). reflexivity.
  - cbn [step]. rewrite (get_some (State (heap st) (vars st ++ [a])) n a Ea). cbn [bind is_tensor a h_kind h_store h_cells vars heap]. fold a. fold t.
    rewrite (get_some (State (heap st) ((vars st ++ [a]) ++ [t])) (n + 1) t Et). reflexivity.
  - replace (read _ h) with (read (State (write (heap st) t new) (((vars st ++ [a]) ++ [t]) ++ [])) t) by reflexivity.
    apply read_written; auto.
Qed.
Print Assumptions C136_numpy_refuted.

(* C137: clone() gives a regular tensor with the same values on fresh memory. *)
Theorem C137_clone_partial : forall st v h p,
  nth_error (vars st) v = Some h -> h_kind h = ReadOnly ->
  exists st', step st (CloneRO v p) = Ok st' /\
    (forall c, f_name c = "clone"%string -> f_args c = [] -> f_out c = NoOut -> step st (Method v c) = step st (CloneRO v false)) /\
    exists t, vars st' = vars st ++ [t] /\ h_kind t = (if p then ReadOnly else Plain) /\ read st' t = read st h /\
      h_store t = length (heap st) /\ forall s, s < length (heap st) -> nth_error (heap st') s = nth_error (heap st) s.
Proof.
  intros st v h p Eh K. apply is_ro_kind in K. cbn [step]. rewrite (get_some _ _ _ Eh). cbn [bind]. rewrite K.
  eexists. split; [reflexivity|]. split.
  { intros c En Ea Eo. rewrite Ea, Eo. unfold call_method. cbn [get_all map sequence outs_of bind]. unfold get_all. cbn [map sequence bind].
    rewrite K, En. reflexivity. }
  unfold bound_to_new, clone_ro. cbn [fst snd vars heap]. eexists. split; [reflexivity|]. cbn [h_kind h_store]. split; [reflexivity|].
  split; [|split; [reflexivity|]].
  - unfold read at 1. cbn [heap h_store h_cells]. rewrite nth_error_app2, Nat.sub_diag by lia. cbn [nth_error].
    generalize (read st h) as l. intros l. apply nth_error_ext. intros i.
    rewrite nth_error_map. destruct (Nat.lt_ge_cases i (length l)) as [Hi | Hi].
    + rewrite (nth_error_nth' (seq 0 (length l)) 0) by (rewrite seq_length; auto). rewrite seq_nth by auto. cbn [option_map plus].
      symmetry. apply nth_error_nth'. auto.
    + rewrite (proj2 (nth_error_None _ _)) by (rewrite seq_length; auto). rewrite (proj2 (nth_error_None l i)); auto.
  - intros s Hs. apply nth_error_app1. auto.
Qed.
Print Assumptions C137_clone_partial.
(* what slicing and reshaping return is a read-only view, or a regular tensor on fresh memory *)
Theorem C137_slices : forall st v h c st' i t,
  nth_error (vars st) v = Some h -> h_kind h = ReadOnly -> honest_call c ->
  f_name c = "__getitem__"%string \/ f_name c = "reshape"%string ->
  h_store h < length (heap st) ->
  step st (Method v c) = Ok st' -> nth_error (vars st') i = Some t -> length (vars st) <= i ->
  (h_kind t = ReadOnly /\ h_store t = h_store h) \/ (h_kind t <> ReadOnly /\ length (heap st) <= h_store t).
Proof.
  intros st v h c st' i t Eh K (HI & HA & HG) Hn Hl E Et Hi. apply is_ro_kind in K. cbn [step] in E.
  rewrite (get_some _ _ _ Eh) in E. cbn [bind] in E.
  destruct (get_all st (f_args c)) as [args|]; [|discriminate]. cbn [bind] in E.
  destruct (get_all st (outs_of (f_out c))) as [outs|]; [|discriminate]. cbn [bind] in E.
  destruct (call_method st h c args outs) as [[m' hs]|] eqn:EC; [|discriminate]. cbn [rmap] in E. injection E as <-.
  unfold bound_to_new in Et. cbn [vars fst snd] in Et. rewrite nth_error_app2 in Et by auto. apply nth_error_In in Et.
  unfold call_method in EC. rewrite K in EC. cbn [negb] in EC. destruct (blocked (f_name c)); [discriminate|].
  destruct (is_disabled (f_name c)); [discriminate|].
  assert ((String.eqb (f_name c) "clone") = false) as Ec by (destruct Hn as [-> | ->]; reflexivity). rewrite Ec in EC.
  assert ((String.eqb (f_name c) "__getitem__" || String.eqb (f_name c) "reshape") = true) as Eg by (destruct Hn as [-> | ->]; reflexivity).
  rewrite Eg in EC. destruct (call_torch (heap st) (h :: args) c outs) as [[m1 hs1]|] eqn:ET; [|discriminate]. cbn [rmap fst snd] in EC.
  injection EC as <- <-. apply in_map_iff in Et. destruct Et as (t0 & <- & I0).
  destruct (call_torch_inv _ _ _ _ _ ET) as (_ & _ & A). destruct (allocate_ok _ _ _ _ _ _ A) as (_ & _ & F).
  assert (existsb is_ro ((h :: args) ++ outs) = true) as RO by (cbn [app existsb]; rewrite K; reflexivity).
  rewrite write_all_length in F. unfold mutable_if_independent.
  destruct (F _ I0) as [(Hf & a & _)|(a & k & cells & h0 & I1 & E1 & E2 & E3 & E4)].
  - right. destruct (Nat.eqb_spec (h_store h) (h_store t0)); [lia|]. cbn [h_kind h_store]. split; auto.
    destruct (is_ro t0) eqn:R; [discriminate|]. intros X. apply is_ro_kind in X. congruence.
  - assert (k = 0) as -> by (eapply HG; eauto). cbn in E1. injection E1 as <-. rewrite E2, Nat.eqb_refl. left. split; auto.
    destruct a.
    + destruct (HA _ _ I1) as [_ [X | X]]; rewrite X in Hn; destruct Hn; discriminate.
    + rewrite E4. unfold result_kind. rewrite RO. reflexivity.
Qed.
Print Assumptions C137_slices.
(* deepcopy and copy do not give a regular tensor *)
Theorem C137_deepcopy_refuted : forall st v h c,
  nth_error (vars st) v = Some h -> h_kind h = ReadOnly ->
  f_name c = "__deepcopy__"%string \/ f_name c = "__copy__"%string -> f_args c = [] -> f_out c = NoOut ->
  exists st' t, step st (Method v c) = Ok st' /\ vars st' = vars st ++ [t] /\ h_kind t = ReadOnly /\ h_store t = length (heap st).
Proof.
  intros st v h c Eh K Hn Ea Eo. apply is_ro_kind in K. cbn [step]. rewrite (get_some _ _ _ Eh), Ea, Eo.
  unfold get_all. cbn [bind map sequence outs_of]. unfold call_method. rewrite K.
  destruct Hn as [-> | ->]; cbn [negb]; eexists; eexists; repeat split.
Qed.
Print Assumptions C137_deepcopy_refuted.

(* C138: made from a Python sequence or with a conversion, a read-only tensor keeps its values for good. *)
Theorem C138_copy_partial : forall st p,
  (forall v h, nth_error (vars st) v = Some h -> h_store h < length (heap st)) ->
  Forall honest p ->
  (forall data st1, step st (MakeROData data) = Ok st1 -> allowed_run st1 p ->
     read (run st1 p) (Handle ReadOnly (length (heap st)) (seq 0 (length data))) = data) /\
  (forall v h st1, nth_error (vars st) v = Some h -> step st (MakeRO v true) = Ok st1 -> allowed_run st1 p ->
     exists t, vars st1 = vars st ++ [t] /\ h_kind t = ReadOnly /\ read st1 t = read st h /\ read (run st1 p) t = read st h).
Proof.
  intros st p W HN.
  assert (forall data : list Z, map (fun c => nth c data 0%Z) (seq 0 (length data)) = data) as RS.
  { intros l. apply nth_error_ext. intros i. rewrite nth_error_map. destruct (Nat.lt_ge_cases i (length l)) as [Hi | Hi].
    + rewrite (nth_error_nth' (seq 0 (length l)) 0) by (rewrite seq_length; auto). rewrite seq_nth by auto. cbn [option_map plus].
      symmetry. apply nth_error_nth'. auto.
    + rewrite (proj2 (nth_error_None _ _)) by (rewrite seq_length; auto). rewrite (proj2 (nth_error_None l i)); auto. }
  assert (forall data, guarded (length (heap st))
    (State (heap st ++ [data]) (vars st ++ [Handle ReadOnly (length (heap st)) (seq 0 (length data))]))) as G.
  { intros data. split; [cbn [heap]; rewrite app_length; cbn; lia|]. cbn [vars]. intros v h Ev Es.
    destruct (Nat.lt_ge_cases v (length (vars st))) as [Hv | Hv].
    - rewrite nth_error_app1 in Ev by auto. pose proof (W _ _ Ev). lia.
    - rewrite nth_error_app2 in Ev by auto. destruct (v - length (vars st)) as [| [|]]; try discriminate. injection Ev as <-. auto. }
  assert (forall data, let st1 := State (heap st ++ [data]) (vars st ++ [Handle ReadOnly (length (heap st)) (seq 0 (length data))]) in
    allowed_run st1 p -> read (run st1 p) (Handle ReadOnly (length (heap st)) (seq 0 (length data))) = data) as M.
  { intros data st1 A. destruct (run_safe _ p _ (G data) HN A) as [E _]. unfold read. cbn [h_store h_cells]. fold st1 in E. rewrite E.
    unfold st1. cbn [heap]. rewrite nth_error_app2, Nat.sub_diag by lia. apply RS. }
  split.
  - intros data st1 E A. cbn [step] in E. injection E as <-. apply M; auto.
  - intros v h st1 Eh E A. cbn [step] in E. rewrite (get_some _ _ _ Eh) in E. cbn [bind make_ro] in E. unfold make_ro, bound_to_new, clone_ro in E.
    cbn [fst snd] in E. injection E as <-. eexists. split; [reflexivity|]. split; [reflexivity|]. split; [|apply M; auto].
    unfold read at 1. cbn [heap h_store h_cells]. rewrite nth_error_app2, Nat.sub_diag by lia. apply RS.
Qed.
Print Assumptions C138_copy_partial.
(* but without a conversion, what is written to the source afterwards appears in the read-only tensor, for read_only_tensor too *)
Theorem C138_shares_refuted : forall st v h name new,
  nth_error (vars st) v = Some h -> h_kind h = Plain -> sound_handle (heap st) h -> length new = length (h_cells h) ->
  exists st1 st2 t, step st (MakeRO v false) = Ok st1 /\ nth_error (vars st1) (length (vars st)) = Some t /\ h_kind t = ReadOnly /\
    read st1 t = read st h /\ step st1 (Method v (Call name true [] NoOut [new] [])) = Ok st2 /\ read st2 t = new.
Proof.
  intros st v h name new Eh K Snd L. set (t := Handle ReadOnly (h_store h) (h_cells h)).
  assert (nth_error (vars st ++ [t]) v = Some h) as Ev.
  { rewrite nth_error_app1; auto. apply nth_error_Some. congruence. }
  assert (forall st', read st' t = read st' h) as RT by reflexivity.
  exists (State (heap st) (vars st ++ [t])), (State (write (heap st) h new) ((vars st ++ [t]) ++ [])), t.
  split; [|split; [|split; [|split; [|split]]]].
  - cbn [step]. rewrite (get_some _ _ _ Eh). reflexivity.
  - cbn [vars]. rewrite nth_error_app2, Nat.sub_diag; auto.
  - reflexivity.
  - reflexivity.
  - cbn [step]. rewrite (get_some (State (heap st) (vars st ++ [t])) v h Ev). cbn [bind f_args f_out outs_of]. unfold get_all. cbn [map sequence bind].
    unfold call_method. assert (is_ro h = false) as -> by (unfold is_ro; rewrite K; auto). cbn [negb].
    unfold call_torch. cbn [f_inplace f_new f_res f_out forallb app firstn]. unfold is_tensor. rewrite K. reflexivity.
  - rewrite RT. apply read_written; auto.
Qed.
Print Assumptions C138_shares_refuted.

(* C139: an augmented assignment without read-only operand leaves the variable a regular tensor on the same memory. *)
Theorem C139_regular_partial : forall st v h c args,
  nth_error (vars st) v = Some h -> h_kind h = Plain -> sound_handle (heap st) h ->
  get_all st (f_args c) = Ok args -> Forall (fun a => h_kind a = Plain) args ->
  exists st', step st (Augmented v c) = Ok st' /\ nth_error (vars st') v = Some h.
Proof.
  intros st v h c args Eh K Snd EA F. cbn [step]. rewrite (get_some _ _ _ Eh), EA. cbn [bind]. unfold call_method.
  assert (is_ro h = false) as R by (unfold is_ro; rewrite K; auto). rewrite R. cbn [negb]. unfold call_torch. cbn [f_out f_inplace f_new f_res].
  rewrite app_nil_r. assert (forallb is_tensor (h :: args) = true) as ->.
  { apply forallb_forall. intros a [<- | I0]; unfold is_tensor; [rewrite K; auto|]. rewrite Forall_forall in F. rewrite (F _ I0). auto. }
  assert (existsb is_ro (h :: args) = false) as ->.
  { destruct (existsb is_ro (h :: args)) eqn:X; auto. apply existsb_exists in X. destruct X as (a & [<- | I0] & Ra); [congruence|].
    apply is_ro_kind in Ra. rewrite Forall_forall in F. rewrite (F _ I0) in Ra. discriminate. }
  cbn [negb bind allocate nth_error fst snd]. eexists. split; [reflexivity|]. cbn [vars].
  rewrite upd_same by (apply nth_error_Some; congruence). unfold result_kind. rewrite <- K. destruct h; reflexivity.
Qed.
Print Assumptions C139_regular_partial.
(* with a read-only operand, the values are updated but the variable is a read-only tensor from then on *)
Theorem C139_becomes_read_only_refuted : forall st v h w name new,
  nth_error (vars st) v = Some h -> h_kind h = Plain -> sound_handle (heap st) h -> length new = length (h_cells h) ->
  reads_only st w -> forall rest,
  exists st', step st (Augmented v (Call name true [w] NoOut [new] rest)) = Ok st' /\ read st' h = new /\ reads_only st' v /\
    forall c, in_place_name (f_name c) -> exists e, step st' (Method v c) = Err e.
Proof.
  intros st v h w name new Eh K Snd L (g & Eg & Kg) rest. cbn [step f_args f_name f_new]. rewrite (get_some _ _ _ Eh). cbn [bind].
  unfold get_all. cbn [map sequence]. rewrite (get_some _ _ _ Eg). cbn [bind]. unfold call_method.
  assert (is_ro h = false) as R by (unfold is_ro; rewrite K; auto). rewrite R. cbn [negb]. unfold call_torch. cbn [f_out f_inplace f_new f_res].
  rewrite app_nil_r. cbn [forallb existsb firstn app]. unfold is_tensor, is_ro. rewrite K, Kg.
  cbn [negb andb orb bind allocate nth_error fst snd write_all].
  set (st' := State _ _). exists st'. split; [reflexivity|]. split; [apply read_written; auto|].
  assert (reads_only st' v) as RO. { eexists. cbn [vars st']. split; [apply upd_same, nth_error_Some; congruence|reflexivity]. }
  split; auto. intros c N. apply (proj1 (C136_raises st' v c RO) N).
Qed.
Print Assumptions C139_becomes_read_only_refuted.

(* a read-only tensor on storage 0 and a regular one on storage 1 *)
Definition ex_state : state := State [[1; 2; 3]; [4; 5; 6]]%Z [Handle ReadOnly 0 [0; 1; 2]; Handle Plain 1 [0; 1; 2]].
Definition ex_program : list op :=
  [Method 0 (Call "add_" true [1] NoOut [[9; 9; 9]%Z] [View false 0 [0; 1; 2]]);       (* AttributeError *)
   Method 0 (Call "__setitem__" true [] NoOut [[9; 9; 9]%Z] []);                       (* TypeError *)
   Method 0 (Call "__getitem__" false [] NoOut [] [View false 0 [1; 2]]);              (* a view: read-only *)
   Method 2 (Call "zero_" true [] NoOut [[0; 0]%Z] []);                                (* AttributeError *)
   Method 0 (Call "clone" false [] NoOut [] []);
   Method 3 (Call "zero_" true [] NoOut [[0; 0; 0]%Z] []);                             (* the clone becomes zero *)
   Method 0 (Call "numpy" false [] NoOut [] [View true 0 [0; 1; 2]]);
   NumpyWrite 4 [7; 7; 7]%Z;                                                           (* ValueError *)
   Function (Call "add" false [0; 1] (Out 0) [[9; 9; 9]%Z] []);                        (* TypeError *)
   Function (Call "add" false [0; 1] (Out 1) [[5; 7; 9]%Z] [View false 2 [0; 1; 2]])]. (* written to the regular tensor *)
Example C136_example : guarded 0 ex_state /\ Forall honest ex_program /\ allowed_run ex_state ex_program /\
  heap (run ex_state ex_program) = [[1; 2; 3]; [5; 7; 9]; [0; 0; 0]]%Z.
Proof.
  assert (forall base, (forall b, base <> b ++ "_")%string -> in_place_name (base ++ "_")%string) as IP.
  { intros base H. left. exists base. split; auto. intros [b Eb]. apply (H b Eb). }
  assert (forall c, ends_with "_" c = false -> (forall b, c <> b ++ "_")%string) as EN.
  { intros c H b ->. rewrite ends_app in H. discriminate. }
  split; [|split; [|split]].
  - split; [cbn; lia|]. intros [| [| v]] h E; cbn in E; [injection E as <-; auto|injection E as <-; discriminate|destruct v; discriminate].
  - assert (in_place_name "add_") as I1 by (apply (IP "add"%string), EN; reflexivity).
    assert (in_place_name "zero_") as I2 by (apply (IP "zero"%string), EN; reflexivity).
    assert (in_place_name "__setitem__") as I3 by (right; left; reflexivity).
    unfold ex_program. repeat apply Forall_cons; try apply Forall_nil; cbn [honest]; unfold honest_call; cbn [f_name f_inplace f_res]; auto;
      (split; [intros H; first [discriminate H | auto]|split];
       [intros k cells H; cbn [In] in H; try contradiction; destruct H as [X | X]; try contradiction; try discriminate X; injection X as <- <-; auto
       |intros N a k cells H; cbn [In] in H; try contradiction; destruct H as [X | X]; try contradiction; destruct N; congruence]).
  - cbn. unfold no_output_in_tuple. cbn. repeat split; try discriminate; intros; try discriminate; try tauto;
      match goal with H : _ \/ _ |- _ => destruct H; discriminate end.
  - reflexivity.
Qed.
Example C137_example :
  (exists t, vars (run ex_state [Method 0 (Call "__getitem__" false [] NoOut [] [Fresh false [3; 1]%Z])]) = vars ex_state ++ [t] /\ h_kind t = Plain) /\
  (exists t, vars (run ex_state [Method 0 (Call "reshape" false [] NoOut [] [View false 0 [0; 1; 2]])]) = vars ex_state ++ [t] /\ h_kind t = ReadOnly).
Proof. split; eexists; split; reflexivity. Qed.
Example C138_example : heap (run ex_state [MakeRO 1 false; Method 1 (Call "zero_" true [] NoOut [[0; 0; 0]%Z] [])]) = [[1; 2; 3]; [0; 0; 0]]%Z.
Proof. reflexivity. Qed.
Example C139_example :
  vars (run ex_state [Augmented 1 (Call "__iadd__" true [0] NoOut [[5; 7; 9]%Z] [])]) = [Handle ReadOnly 0 [0; 1; 2]; Handle ReadOnly 1 [0; 1; 2]].
Proof. reflexivity. Qed.

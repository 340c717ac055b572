(* Genetic algorithms: properties C37, C59, C91, C92, C93, C94. *)
From Coq Require Import QArith.
From Verif Require Import Prelude FloatLib BatchModel BatchSpec BatchProofs ParetoModel ParetoSpec ParetoProofs2 ParetoProofs3 RankModel OperModel OperSpec
  GaModel GaSpec GaProofs GaProofs2 GaProofs3 GaProofs4.
Close Scope Q_scope.
Open Scope nat_scope.

(* ------------------------------------------------------------------------------------ C37 *)
Theorem C37_size : forall (V : Type) sorter co qs ev cf ops n (s s' : state V),
  argsort_ok sorter -> reordering co -> qargsort_ok qs -> Forall legal ops -> wf (s_pop s) -> evaluates (eval_width (s_pop s)) ev ->
  b_len (s_pop s) = g_popsize cf -> ga_run sorter co qs ev cf ops n s = Ok s' ->
  b_len (s_pop s') = g_popsize cf /\ wf (s_pop s') /\ b_desc (s_pop s') = b_desc (s_pop s) /\ b_ndata (s_pop s') = b_ndata (s_pop s).
Proof.
  intros V so co qs ev cf ops n s s' H1 H2 H3 HL W HE Hlen H.
  destruct (run_size so co qs ev H1 H2 H3 cf ops n s s' HL W HE Hlen H) as ((A & B & C) & L & _). auto.
Qed.
Print Assumptions C37_size.
(* with one objective no generation fails *)
Theorem C37_progress : forall (V : Type) sorter co qs ev cf ops n (s : state V),
  argsort_ok sorter -> reordering co -> qargsort_ok qs -> Forall legal ops -> Forall productive ops -> wf (s_pop s) ->
  evaluates (eval_width (s_pop s)) ev -> num_objs (s_pop s) = 1 -> b_len (s_pop s) = g_popsize cf -> 1 <= g_popsize cf ->
  exists s', ga_run sorter co qs ev cf ops n s = Ok s'.
Proof. intros V so co qs ev cf ops n s H1 H2 H3. apply (run_total so co qs ev H1 H2 H3). Qed.
Print Assumptions C37_progress.
(* for every threshold, the number of solutions reaching it never decreases *)
Theorem C37_elitism_monotone : forall (V : Type) sorter co qs ev f d cf ops m n (s s1 s2 : state V),
  argsort_ok sorter -> reordering co -> qargsort_ok qs -> Forall legal ops -> wf (s_pop s) -> evaluates (eval_width (s_pop s)) ev ->
  deterministic f ev -> nan_free f -> b_desc (s_pop s) = [d] -> b_len (s_pop s) = g_popsize cf -> g_elitist cf = true ->
  s_first s = true ->
  ga_run sorter co qs ev cf ops m s = Ok s1 -> ga_run sorter co qs ev cf ops n s1 = Ok s2 ->
  forall t, how_many d f t (b_vals (s_pop s1)) <= how_many d f t (b_vals (s_pop s2)).
Proof.
  intros V so co qs ev f d cf ops m n s s1 s2 H1 H2 H3 HL W HE HD HN Hd Hlen He HF R1 R2.
  assert (RD : ready f cf s) by (right; left; auto).
  destruct (run_size so co qs ev H1 H2 H3 cf ops m s s1 HL W HE Hlen R1) as (K & L & _).
  destruct (run_elitist so co qs ev H1 H2 H3 d f cf ops m s s1 HL W HE HD HN Hd Hlen He RD R1) as (RD1 & _ & _).
  rewrite <- (kind_width _ _ K) in HE. rewrite <- (proj1 (proj2 K)) in Hd.
  apply (run_elitist so co qs ev H1 H2 H3 d f cf ops n s1 s2 HL (proj1 K) HE HD HN Hd L He RD1 R2).
Qed.
Print Assumptions C37_elitism_monotone.
(* in particular the best fitness never gets worse *)
Theorem C37_best_never_worse : forall (V : Type) sorter co qs ev f d cf ops m n (s s1 s2 : state V) v,
  argsort_ok sorter -> reordering co -> qargsort_ok qs -> Forall legal ops -> wf (s_pop s) -> evaluates (eval_width (s_pop s)) ev ->
  deterministic f ev -> nan_free f -> b_desc (s_pop s) = [d] -> b_len (s_pop s) = g_popsize cf -> g_elitist cf = true ->
  s_first s = true ->
  ga_run sorter co qs ev cf ops m s = Ok s1 -> ga_run sorter co qs ev cf ops n s1 = Ok s2 ->
  In v (b_vals (s_pop s1)) -> exists w, In w (b_vals (s_pop s2)) /\ ~ better d (nth 0 (f v) NaN) (nth 0 (f w) NaN).
Proof.
  intros V so co qs ev f d cf ops m n s s1 s2 v H1 H2 H3 HL W HE HD HN Hd Hlen He HF R1 R2 Hv.
  pose proof (C37_elitism_monotone V so co qs ev f d cf ops m n s s1 s2 H1 H2 H3 HL W HE HD HN Hd Hlen He HF R1 R2 (nth 0 (f v) NaN)) as Q.
  assert (P : 0 < how_many d f (nth 0 (f v) NaN) (b_vals (s_pop s1))).
  { unfold how_many. destruct (filter _ _) eqn:E; [|cbn; lia]. exfalso.
    assert (X : In v []); [|destruct X]. rewrite <- E. apply filter_In. split; auto. apply at_least_spec. apply better_irrefl. }
  unfold how_many in Q, P. destruct (filter _ (b_vals (s_pop s2))) as [|w l] eqn:E; [cbn in Q; lia|].
  assert (X : In w (filter (fun v0 => at_least d (nth 0 (f v) NaN) (nth 0 (f v0) NaN)) (b_vals (s_pop s2)))) by (rewrite E; left; auto).
  apply filter_In in X. destruct X as [X1 X2]. exists w. split; auto. apply at_least_spec. auto.
Qed.
Print Assumptions C37_best_never_worse.

Definition exf (v : Z) : list fl := [Fin v].
Definition exev (k : nat) (vs : list Z) : list (list fl) := map exf vs.
Definition exops : list (operator Z) := [Func (fun k vs => Ok (map (fun v => if Nat.even k then v + 3 else v - 2)%Z vs))].
Definition exs0 : state Z := ga_init (mkBatch [] [] [true] 0) [5; 1; 3]%Z.
Definition exco (l : list (list fl)) : list nat := seq 0 (length l).
Example C37_example : argsort_ok stable_argsort /\ reordering exco /\ qargsort_ok qstable /\ Forall legal exops /\ Forall productive exops /\
  wf (s_pop exs0) /\ evaluates 1 exev /\ deterministic exf exev /\ nan_free exf /\ b_len (s_pop exs0) = 3 /\
  rmap (fun s => b_vals (s_pop s)) (ga_run stable_argsort exco qstable exev (mkConf 3 true true true) exops 2 exs0) = Ok [8; 6; 6]%Z.
Proof.
  split; [exact stable_argsort_ok|]. split; [intros l; apply Permutation_refl|]. split; [exact qstable_ok|].
  split; [repeat constructor|]. split. { constructor; [|constructor]. intros k vs H. eexists. split; [reflexivity|]. destruct vs; [congruence|discriminate]. }
  split; [split; [auto|repeat constructor]|]. split. { intros k vs. unfold exev. rewrite map_length. split; auto. apply Forall_map, Forall_forall. auto. }
  split; [intros k vs; auto|]. split; [intros v; auto|]. split; [auto|]. vm_compute. reflexivity.
Qed.

(* ------------------------------------------------------------------------------------ C59 *)
Theorem C59_registry : forall (Op : Type) (is_cross_over : Op -> bool) operators cs i c,
  nth_error cs i = Some c ->
  nth_error (reg_run is_cross_over (reg_init operators) cs) i = Some (expected is_cross_over operators (firstn i cs) c).
Proof. intros Op ic ops cs i c H. apply (reg_run_ok ic ops cs [] _ (reg_init_inv ic ops) i c H). Qed.
Print Assumptions C59_registry.
Example C59_example : reg_run Nat.even (reg_init []) [Use 3; Use 4; Use 5; Step; Use 6; Step] =
  [AUse (Ok tt); AUse (Ok tt); AUse (Err ValueError); AStep (Ok [4; 3]); AUse (Err RuntimeError); AStep (Ok [4; 3])] /\
  reg_run Nat.even (reg_init []) [Step; Use 4; Step] = [AStep (Err RuntimeError); AUse (Err RuntimeError); AStep (Err RuntimeError)] /\
  reg_run Nat.even (reg_init [7]) [Use 4; Step] = [AUse (Err RuntimeError); AStep (Ok [7])].
Proof. repeat split; reflexivity. Qed.

(* ------------------------------------------------------------------------------------ C91 *)
(* Full claim: after every generation each solution of the population carries the evaluation of its
   own decision values.  It fails for elitist=False, re_evaluate=True, re_evaluate_parents_first=False
   when there are fewer children than parents. *)
Theorem C91_evaluated_partial : forall (V : Type) sorter co qs ev f cf ops n (s s1 s' : state V),
  argsort_ok sorter -> reordering co -> qargsort_ok qs -> Forall legal ops -> wf (s_pop s) -> evaluates (eval_width (s_pop s)) ev ->
  deterministic f ev -> b_len (s_pop s) = g_popsize cf -> s_first s = true ->
  g_elitist cf = true \/ g_reeval cf = false \/ g_first cf = true ->
  ga_run sorter co qs ev cf ops n s = Ok s1 -> ga_step sorter co qs ev cf ops s1 = Ok s' ->
  evaluated f (s_pop s').
Proof.
  intros V so co qs ev f cf ops n s s1 s' H1 H2 H3 HL W HE HD Hlen HF HC R H.
  assert (Q : ready f cf s1).
  { clear H s'. revert s1 R. induction n as [|n IH]; cbn; intros s1 R; [injection R as <-; right; left; auto|].
    destruct (ga_run so co qs ev cf ops n s) as [s0|] eqn:E; [|discriminate]. cbn in R.
    destruct (run_size so co qs ev H1 H2 H3 cf ops n s s0 HL W HE Hlen E) as (K & L & _).
    right; right. assert (HE' : evaluates (eval_width (s_pop s0)) ev) by (rewrite (kind_width _ _ K); auto).
    apply (step_evaluated so co qs ev H1 H2 H3 f cf ops s0 s1 HL (proj1 K) HE' HD (IH s0 eq_refl) HC R). }
  destruct (run_size so co qs ev H1 H2 H3 cf ops n s s1 HL W HE Hlen R) as (K & L & _).
  assert (HE' : evaluates (eval_width (s_pop s1)) ev) by (rewrite (kind_width _ _ K); auto).
  apply (step_evaluated so co qs ev H1 H2 H3 f cf ops s1 s' HL (proj1 K) HE' HD Q HC H).
Qed.
Print Assumptions C91_evaluated_partial.

Lemma stale_total : forall (V : Type) sorter co qs ev cf ops (s : state V) ch,
  argsort_ok sorter -> reordering co -> qargsort_ok qs -> wf (s_pop s) -> 
  num_objs (s_pop s) = 1 -> g_elitist cf = false -> g_reeval cf = true -> g_first cf = false -> b_len (s_pop s) = g_popsize cf ->
  use_operators (s_clock s) (s_pop s) ops = Ok ch -> b_len ch < g_popsize cf -> exists s', ga_step sorter co qs ev cf ops s = Ok s'.
Proof.
  intros V so co qs ev cf ops s ch H1 H2 H3 W Ho E1 E2 E3 Hlen EU Hlt. unfold ga_step, extended. rewrite E2, E3, EU. cbn [bind].
  assert (N : b_vals (cat (s_pop s) ch) <> []).
  { intros X. apply (f_equal (@length V)) in X. fold (b_len (cat (s_pop s) ch)) in X. rewrite cat_len in X. cbn in X. lia. }
  destruct (evaluate_total ev (s_clock s + length ops) _ N) as [wh Ew]. rewrite Ew. cbn [bind]. rewrite E1.
  apply evaluate_vals in Ew. assert (Lw : b_len wh = b_len (s_pop s) + b_len ch) by (rewrite <- cat_len; unfold b_len; congruence).
  rewrite tail_len. replace (b_len wh - b_len (s_pop s)) with (b_len ch) by lia.
  destruct (Nat.ltb_spec (b_len ch) (g_popsize cf)); [|lia]. cbn [s_pop].
  destruct (best_of_total so co qs H1 H2 H3 (s_pop s) (g_popsize cf - b_len ch) W (or_introl Ho)) as [b Eb]. rewrite Eb. cbn. eauto.
Qed.
(* the parents which are kept in the first generation have no evaluations at all *)
Theorem C91_stale_parents_refuted : forall (V : Type) sorter co qs ev cf ops (s : state V) ch,
  argsort_ok sorter -> reordering co -> qargsort_ok qs -> Forall legal ops -> wf (s_pop s) -> evaluates (eval_width (s_pop s)) ev ->
  b_len (s_pop s) = g_popsize cf -> num_objs (s_pop s) = 1 -> unevaluated (s_pop s) ->
  g_elitist cf = false -> g_reeval cf = true -> g_first cf = false ->
  use_operators (s_clock s) (s_pop s) ops = Ok ch -> b_len ch < g_popsize cf ->
  exists s', ga_step sorter co qs ev cf ops s = Ok s' /\
    unevaluated (head (s_pop s') (g_popsize cf - b_len ch)) /\ b_len (head (s_pop s') (g_popsize cf - b_len ch)) = g_popsize cf - b_len ch.
Proof.
  intros V so co qs ev cf ops s ch H1 H2 H3 HL W HE Hlen Ho HU E1 E2 E3 EU Hlt.
  destruct (stale_total V so co qs ev cf ops s ch H1 H2 H3 W Ho E1 E2 E3 Hlen EU Hlt) as [s' E]. exists s'. split; [auto|].
  destruct (stale_step so co qs ev cf ops s s' ch HL W HE E1 E2 E3 EU Hlt E) as (chosen & c & EB & -> & _).
  destruct (best_of_inv _ _ _ H1 H2 H3 _ _ _ W EB) as (_ & _ & _ & K & L).
  pose proof (best_of_unevaluated so co qs H1 H2 H3 _ _ _ W HU EB) as U. destruct K as ([WL _] & _).
  split.
  - unfold unevaluated in *. cbn. rewrite firstn_app, Forall_app. split.
    + apply Forall_forall; intros r Hr; apply (proj1 (Forall_forall _ _) U); rewrite <- (firstn_skipn (g_popsize cf - b_len ch) (b_ev chosen)); apply in_or_app; auto.
    + replace (g_popsize cf - b_len ch - length (b_ev chosen)) with 0 by lia. constructor.
  - rewrite head_len, cat_len. lia.
Qed.
Print Assumptions C91_stale_parents_refuted.
(* with several objectives the first generation even fails, whatever the problem and the children *)
Theorem C91_multi_objective_refuted : forall (V : Type) sorter co qs ev cf ops (s : state V) ch,
  argsort_ok sorter -> reordering co -> qargsort_ok qs -> wf (s_pop s) -> b_len (s_pop s) = g_popsize cf -> 2 <= num_objs (s_pop s) -> unevaluated (s_pop s) ->
  g_elitist cf = false -> g_reeval cf = true -> g_first cf = false ->
  use_operators (s_clock s) (s_pop s) ops = Ok ch -> b_len ch < g_popsize cf ->
  ga_step sorter co qs ev cf ops s = Err ValueError.
Proof.
  intros V so co qs ev cf ops s ch H1 H2 H3 W Hlen Ho HU E1 E2 E3 EU Hlt. unfold ga_step, extended. rewrite E2, E3, EU. cbn [bind].
  assert (N0 : b_vals (s_pop s) <> []) by (intros X; unfold b_len in Hlen; rewrite X in Hlen; cbn in Hlen; lia).
  assert (N : b_vals (cat (s_pop s) ch) <> []) by (cbn; destruct (b_vals (s_pop s)); [congruence|discriminate]).
  destruct (evaluate_total ev (s_clock s + length ops) _ N) as [wh Ew]. rewrite Ew. cbn [bind]. rewrite E1.
  apply evaluate_vals in Ew. assert (Lw : b_len wh = b_len (s_pop s) + b_len ch) by (rewrite <- cat_len; unfold b_len; congruence).
  rewrite tail_len. replace (b_len wh - b_len (s_pop s)) with (b_len ch) by lia.
  destruct (Nat.ltb_spec (b_len ch) (g_popsize cf)); [|lia]. cbn [s_pop].
  rewrite (multi_unevaluated so co qs ev (s_pop s) _ W HU Ho N0). auto.
Qed.
Print Assumptions C91_multi_objective_refuted.
(* two children of three parents *)
Definition exops2 : list (operator Z) := [Func (fun k vs => Ok (map (Z.add 10) (firstn 2 vs)))].
Example C91_example : Forall legal exops2 /\ unevaluated (s_pop exs0) /\ use_operators 0 (s_pop exs0) exops2 = Ok (mkBatch [15; 11]%Z [[NaN]; [NaN]] [true] 0) /\
  rmap (fun s => (b_vals (s_pop s), b_ev (s_pop s))) (ga_step stable_argsort exco qstable exev (mkConf 3 false true false) exops2 exs0) =
    Ok ([5; 15; 11]%Z, [[NaN]; [Fin 15]; [Fin 11]]) /\
  rmap (fun s => (b_vals (s_pop s), b_ev (s_pop s))) (ga_step stable_argsort exco qstable exev (mkConf 3 false true true) exops2 exs0) =
    Ok ([5; 15; 11]%Z, [[Fin 5]; [Fin 15]; [Fin 11]]) /\
  ga_step stable_argsort exco qstable (fun _ vs => map (fun v => [Fin v; Fin 0]) vs) (mkConf 3 false true false) exops2 (ga_init (mkBatch [] [] [true; false] 0) [5; 1; 3]%Z) = Err ValueError.
Proof. split; [repeat constructor|]. split; [repeat constructor|]. repeat split; vm_compute; reflexivity. Qed.

(* ------------------------------------------------------------------------------------ C92 *)
(* Full claim: without elitism the children take the places of the worst solutions of the population.
   It needs the parents to be evaluated before the children are made. *)
Theorem C92_replacement_partial : forall (V : Type) sorter co qs ev f d cf ops n (s0 s s' : state V),
  argsort_ok sorter -> reordering co -> qargsort_ok qs -> Forall legal ops -> wf (s_pop s0) -> evaluates (eval_width (s_pop s0)) ev ->
  deterministic f ev -> nan_free f -> b_desc (s_pop s0) = [d] -> b_len (s_pop s0) = g_popsize cf -> s_first s0 = true ->
  g_elitist cf = false -> g_reeval cf = false \/ g_first cf = true ->
  ga_run sorter co qs ev cf ops n s0 = Ok s -> ga_step sorter co qs ev cf ops s = Ok s' ->
  exists parents ch, b_vals parents = b_vals (s_pop s) /\ evaluated f parents /\ use_operators (s_clock s + 1) parents ops = Ok ch /\
    (b_len ch < g_popsize cf -> exists kept replaced, b_vals (s_pop s') = kept ++ b_vals ch /\
       Permutation (kept ++ replaced) (b_vals (s_pop s)) /\ length replaced = b_len ch /\
       forall x y, In x kept -> In y replaced -> ~ better d (nth 0 (f y) NaN) (nth 0 (f x) NaN)) /\
    (g_popsize cf <= b_len ch -> exists dropped, Permutation (b_vals (s_pop s') ++ dropped) (b_vals ch) /\
       length (b_vals (s_pop s')) = g_popsize cf /\
       forall x y, In x (b_vals (s_pop s')) -> In y dropped -> ~ better d (nth 0 (f y) NaN) (nth 0 (f x) NaN)).
Proof.
  intros V so co qs ev f d cf ops n s0 s s' H1 H2 H3 HL W HE HD HN Hd Hlen HF E1 HC R H.
  destruct (run_size so co qs ev H1 H2 H3 cf ops n s0 s HL W HE Hlen R) as (K & L & _).
  assert (HE' : evaluates (eval_width (s_pop s)) ev) by (rewrite (kind_width _ _ K); auto).
  assert (HR : ready f cf s).
  { destruct n as [|n]; cbn in R; [injection R as <-; right; left; auto|]. 
    right; right. destruct (ga_run so co qs ev cf ops n s0) as [s1|] eqn:E; [|discriminate]. cbn [bind] in R.
    apply (C91_evaluated_partial V so co qs ev f cf ops n s0 s1 s); auto. }
  assert (Hd' : b_desc (s_pop s) = [d]) by (destruct K as (_ & K & _); congruence).
  apply (step_replaces so co qs ev H1 H2 H3 d f cf ops s s' HL (proj1 K) HE' HD HN Hd' HR L E1 HC H).
Qed.
Print Assumptions C92_replacement_partial.
(* otherwise, for every sorting procedure there is a problem for which every replaced solution is
   strictly better than every kept one *)
Theorem C92_worst_are_kept_refuted : forall (V : Type) (dec : forall x y : V, {x = y} + {x <> y}) sorter co qs cf ops (s : state V) ch d,
  argsort_ok sorter -> reordering co -> qargsort_ok qs -> Forall legal ops -> wf (s_pop s) -> NoDup (b_vals (s_pop s)) ->
  b_len (s_pop s) = g_popsize cf -> b_desc (s_pop s) = [d] -> unevaluated (s_pop s) ->
  g_elitist cf = false -> g_reeval cf = true -> g_first cf = false ->
  use_operators (s_clock s) (s_pop s) ops = Ok ch -> 0 < b_len ch < g_popsize cf ->
  exists f, nan_free f /\ forall ev, deterministic f ev ->
  exists s' kept replaced, ga_step sorter co qs ev cf ops s = Ok s' /\ b_vals (s_pop s') = kept ++ b_vals ch /\
    Permutation (kept ++ replaced) (b_vals (s_pop s)) /\ kept <> [] /\ replaced <> [] /\
    forall x y, In x kept -> In y replaced -> better d (nth 0 (f y) NaN) (nth 0 (f x) NaN).
Proof.
  intros V dec so co qs cf ops s ch d H1 H2 H3 HL W ND Hlen Hd HU E1 E2 E3 EU Hlt.
  assert (Ho : num_objs (s_pop s) = 1) by (unfold num_objs; rewrite Hd; auto).
  destruct (best_of_total so co qs H1 H2 H3 (s_pop s) (g_popsize cf - b_len ch) W (or_introl Ho)) as [chosen EB].
  set (f := fun v => Fin (if in_dec dec v (b_vals chosen) then (if d then 0 else 1)%Z else (if d then 1 else 0)%Z) :: repeat NaN (b_ndata (s_pop s))).
  exists f. split; [intros v; reflexivity|]. intros ev HD.
  assert (HE : evaluates (eval_width (s_pop s)) ev).
  { intros k vs. rewrite HD, map_length. split; auto. apply Forall_map, Forall_forall. intros v _. unfold f, eval_width. cbn. rewrite repeat_length. lia. }
  destruct (stale_total V so co qs ev cf ops s ch H1 H2 H3 W Ho E1 E2 E3 Hlen EU (proj2 Hlt)) as [s' E].
  destruct (stale_step so co qs ev cf ops s s' ch HL W HE E1 E2 E3 EU (proj2 Hlt) E) as (chosen' & c & EB' & Es & Vc).
  rewrite EB in EB'. injection EB' as <-.
  destruct (best_of_split so co qs ev H1 (s_pop s) _ chosen W Ho EB) as (rest & HP).
  destruct (best_of_inv _ _ _ H1 H2 H3 _ _ _ W EB) as (_ & _ & _ & K & L). 
  exists s', (b_vals chosen), rest. split; [auto|]. split; [rewrite Es; cbn; congruence|]. split; [auto|].
  pose proof (Permutation_length HP) as LP. rewrite app_length in LP. fold (b_len chosen) (b_len (s_pop s)) in LP.
  split. { intros X. unfold b_len in L at 1. rewrite X in L. cbn in L. lia. }
  split. { intros ->. cbn in LP. lia. }
  intros x y Hx Hy. assert (NY : ~ In y (b_vals chosen)).
  { intros Hy'. apply Permutation_sym in HP. pose proof (Permutation_NoDup HP ND) as N2. clear - N2 Hy Hy'.
    induction (b_vals chosen) as [|a l IH]; [destruct Hy'|]. cbn in N2. inversion N2; subst. destruct Hy' as [-> | Hy']; [apply H1, in_or_app; auto|auto]. }
  unfold f. cbn [nth]. destruct (in_dec dec x (b_vals chosen)); [|contradiction]. destruct (in_dec dec y (b_vals chosen)); [contradiction|].
  destruct d; apply lt_fin; lia.
Qed.
Print Assumptions C92_worst_are_kept_refuted.
Example C92_example : NoDup (b_vals (s_pop exs0)) /\ b_desc (s_pop exs0) = [true] /\ unevaluated (s_pop exs0) /\
  rmap (fun s => b_vals (s_pop s)) (ga_step stable_argsort exco qstable exev (mkConf 3 false true false) exops2 (ga_init (mkBatch [] [] [true] 0) [1; 5; 3]%Z)) = Ok [1; 11; 15]%Z /\
  rmap (fun s => b_vals (s_pop s)) (ga_step stable_argsort exco qstable exev (mkConf 3 false true true) exops2 (ga_init (mkBatch [] [] [true] 0) [1; 5; 3]%Z)) = Ok [5; 11; 15]%Z.
Proof. split; [repeat constructor; cbn; intuition lia|]. split; [auto|]. split; [repeat constructor|]. split; vm_compute; reflexivity. Qed.

(* ------------------------------------------------------------------------------------ C93 *)
(* Full claim: every Cosyne generation keeps the population size and the elites.  With fewer than four
   solutions and no elites there are no parents, and the generation fails. *)
Theorem C93_cosyne_partial : forall (V : Type) sorter co qs ev popsize elites cross mut permute n (s s1 s' : state V),
  argsort_ok sorter -> reordering co -> qargsort_ok qs ->
  kind_op cross -> (forall m, mut = Some m -> kind_op m) -> kind_op permute -> (forall k b b', permute k b = Ok b' -> b_len b' = b_len b) ->
  wf (s_pop s) -> evaluates (eval_width (s_pop s)) ev -> b_len (s_pop s) = popsize -> s_first s = true ->
  cosyne_run sorter co qs ev popsize elites cross mut permute n s = Ok s1 ->
  cosyne_step sorter co qs ev popsize elites cross mut permute s1 = Ok s' ->
  b_len (s_pop s') = popsize /\ wf (s_pop s') /\
  forall f, deterministic f ev -> evaluated f (s_pop s') /\
    forall d e t, b_desc (s_pop s) = [d] -> nan_free f -> elites = Some e ->
      Nat.min (Z.to_nat e) (how_many d f t (b_vals (s_pop s1))) <= how_many d f t (b_vals (s_pop s')).
Proof.
  intros V so co qs ev popsize elites cross mut permute n s s1 s' H1 H2 H3 HC HM HP HPl W HE Hlen HF R H.
  assert (Q : same_kind (s_pop s) (s_pop s1) /\ b_len (s_pop s1) = popsize /\ forall f, deterministic f ev -> s_first s1 = true \/ evaluated f (s_pop s1)).
  { clear H s'. revert s1 R. induction n as [|n IH]; cbn; intros s1 R.
    - injection R as <-. split; [apply same_kind_refl; auto|auto].
    - destruct (cosyne_run _ _ _ _ _ _ _ _ _ n s) as [s0|] eqn:E; [|discriminate]. cbn [bind] in R.
      destruct (IH s0 eq_refl) as (K & L & F). assert (HE' : evaluates (eval_width (s_pop s0)) ev) by (rewrite (kind_width _ _ K); auto).
      destruct (cosyne_step_ok so co qs ev H1 H2 H3 popsize elites cross mut permute s0 s1 HC HM HP HPl (proj1 K) HE' L R) as (K' & L' & _ & X).
      split; [exact (same_kind_trans _ _ _ K K')|]. split; [auto|]. intros f HD. right. apply (X f HD (F f HD)). }
  destruct Q as (K & L & F). assert (HE' : evaluates (eval_width (s_pop s1)) ev) by (rewrite (kind_width _ _ K); auto).
  destruct (cosyne_step_ok so co qs ev H1 H2 H3 popsize elites cross mut permute s1 s' HC HM HP HPl (proj1 K) HE' L H) as (K' & L' & _ & X).
  split; [auto|]. split; [apply K'|]. intros f HD. destruct (X f HD (F f HD)) as [X1 X2]. split; [auto|].
  intros d e t Hd HN He. destruct (Z.leb_spec 1 e); [|replace (Z.to_nat e) with 0 by lia; cbn; lia].
  apply (X2 d e t); auto. destruct K as (_ & K & _). congruence.
Qed.
Print Assumptions C93_cosyne_partial.
(* with at least four solutions and operators which do not fail, no generation fails *)
Theorem C93_cosyne_progress_partial : forall (V : Type) sorter co qs ev popsize elites cross mut permute n (s : state V),
  argsort_ok sorter -> reordering co -> qargsort_ok qs ->
  kind_op cross -> (forall m, mut = Some m -> kind_op m) -> kind_op permute -> (forall k b b', permute k b = Ok b' -> b_len b' = b_len b) ->
  (forall k b, wf b -> b_vals b <> [] -> exists b', cross k b = Ok b') ->
  (forall m, mut = Some m -> forall k b, wf b -> exists b', m k b = Ok b') ->
  (forall k b, wf b -> exists b', permute k b = Ok b') ->
  wf (s_pop s) -> evaluates (eval_width (s_pop s)) ev -> num_objs (s_pop s) = 1 -> b_len (s_pop s) = popsize -> 4 <= popsize ->
  exists s', cosyne_run sorter co qs ev popsize elites cross mut permute n s = Ok s'.
Proof.
  intros V so co qs ev popsize elites cross mut permute n s H1 H2 H3 HC HM HP HPl TC TM TP W HE Ho Hlen H4.
  enough (Q : exists s', cosyne_run so co qs ev popsize elites cross mut permute n s = Ok s' /\ same_kind (s_pop s) (s_pop s') /\ b_len (s_pop s') = popsize)
    by (destruct Q as (s' & Q & _); eauto).
  induction n as [|n (s1 & E & K & L)]; cbn [cosyne_run]; [exists s; split; [auto|]; split; [apply same_kind_refl; auto|auto]|].
  rewrite E. cbn [bind]. assert (HE' : evaluates (eval_width (s_pop s1)) ev) by (rewrite (kind_width _ _ K); auto).
  assert (Ho' : num_objs (s_pop s1) = 1) by (destruct K as (_ & K & _); unfold num_objs in *; congruence).
  enough (T : exists s', cosyne_step so co qs ev popsize elites cross mut permute s1 = Ok s').
  { destruct T as [s' T]. exists s'. split; [auto|]. destruct (cosyne_step_ok so co qs ev H1 H2 H3 popsize elites cross mut permute s1 s' HC HM HP HPl (proj1 K) HE' L T) as (K' & L' & _).
    split; [exact (same_kind_trans _ _ _ K K')|auto]. }
  assert (N1 : b_vals (s_pop s1) <> []) by (intros X; unfold b_len in L; rewrite X in L; cbn in L; lia).
  unfold cosyne_step.
  assert (Q : exists pop, (if s_first s1 then evaluate ev (s_clock s1) (s_pop s1) else Ok (s_pop s1)) = Ok pop /\ same_kind (s_pop s1) pop /\ b_vals pop = b_vals (s_pop s1)).
  { destruct (s_first s1); [|exists (s_pop s1); split; [auto|]; split; [apply same_kind_refl, K|auto]].
    destruct (evaluate_total ev (s_clock s1) _ N1) as [pop Ep]. exists pop. destruct (evaluate_inv ev _ _ _ HE' Ep) as (A & B & _). auto. }
  destruct Q as (pop & -> & Kp & Vp). cbn [bind].
  assert (Op : num_objs pop = 1) by (destruct Kp as (_ & Kp & _); unfold num_objs in *; congruence).
  assert (Lp : b_len pop = popsize) by (unfold b_len in *; congruence).
  destruct (best_of_total so co qs H1 H2 H3 pop (Z.to_nat (Z.max match elites with Some e => e | None => 0 end (Z.of_nat (popsize / 4)))) (proj1 Kp) (or_introl Op)) as [sr Es].
  rewrite Es. cbn [bind]. destruct (best_of_inv _ _ _ H1 H2 H3 _ _ _ (proj1 Kp) Es) as (_ & _ & _ & Ksr & Lsr).
  assert (P4 : 1 <= popsize / 4) by (apply Nat.div_le_lower_bound; lia).
  assert (Hp : b_vals (head sr (popsize / 4)) <> []).
  { intros X. assert (b_len (head sr (popsize / 4)) = 0) by (unfold b_len; rewrite X; auto). rewrite head_len in H. lia. }
  destruct (TC (s_clock s1 + 1) (head sr (popsize / 4))) as [ch Ech]; [apply head_kind, Ksr|auto|]. rewrite Ech. cbn [bind].
  pose proof (HC _ _ _ (proj1 (head_kind sr (popsize / 4) (proj1 Ksr))) Ech) as Kch.
  assert (Q : exists ch', match mut with Some m => m (s_clock s1 + 2) ch | None => Ok ch end = Ok ch' /\ same_kind ch ch').
  { destruct mut as [m|]; [|exists ch; split; [auto|apply same_kind_refl, Kch]]. destruct (TM m eq_refl (s_clock s1 + 2) ch (proj1 Kch)) as [ch' E'].
    exists ch'. split; [auto|]. apply (HM m eq_refl _ _ _ (proj1 Kch) E'). }
  destruct Q as (ch' & -> & Kch'). cbn [bind]. destruct (TP (s_clock s1 + 3) pop (proj1 Kp)) as [pm Epm]. rewrite Epm. cbn [bind].
  pose proof (HP _ _ _ (proj1 Kp) Epm) as Kpm. pose proof (HPl _ _ _ Epm) as Lpm.
  set (whole := match match elites with Some e => if (1 <=? e)%Z then Some (head sr (Z.to_nat e)) else None | None => None end with
                | Some e => cat e (cat ch' pm) | None => cat ch' pm end).
  assert (Kw : same_kind pop whole).
  { assert (K1 : same_kind pop (cat ch' pm)).
    { apply cat_kind; [|auto]. apply (same_kind_trans _ sr); [auto|]. apply (same_kind_trans _ (head sr (popsize / 4))); [apply head_kind, Ksr|]. exact (same_kind_trans _ _ _ Kch Kch'). }
    unfold whole. destruct elites as [e|]; [|auto]. destruct (1 <=? e)%Z; [|auto]. apply cat_kind; [|auto]. apply (same_kind_trans _ sr); [auto|apply head_kind, Ksr]. }
  assert (Nw : b_vals whole <> []).
  { intros X. assert (Lw : b_len whole = 0) by (unfold b_len; rewrite X; auto). unfold whole in Lw. 
    destruct elites as [e|]; [destruct (1 <=? e)%Z|]; rewrite ?cat_len in Lw; lia. }
  destruct (evaluate_total ev (s_clock s1 + 4) whole Nw) as [w' Ew]. rewrite Ew. cbn [bind].
  assert (HE'' : evaluates (eval_width whole) ev) by (rewrite (kind_width _ _ (same_kind_trans _ _ _ Kp Kw)); auto).
  destruct (evaluate_inv ev _ _ _ HE'' Ew) as (Kw' & _).
  assert (Ow : num_objs w' = 1) by (destruct Kw' as (_ & A & _), Kw as (_ & B & _); unfold num_objs in *; congruence).
  destruct (best_of_total so co qs H1 H2 H3 w' popsize (proj1 Kw') (or_introl Ow)) as [r Er]. rewrite Er. cbn. eauto.
Qed.
Print Assumptions C93_cosyne_progress_partial.
(* both kinds of cross-over fail on the empty batch of parents *)
Theorem C93_small_population_refuted : forall (A : Type) sorter co qs ev popsize elites cx num_points noise draw draw2 mut permute (s : state (list A)) s',
  (forall k, uniform_ints (draw k)) -> popsize < 4 -> argsort_ok sorter -> reordering co -> qargsort_ok qs -> wf (s_pop s) ->
  evaluates (eval_width (s_pop s)) ev ->
  cosyne_step sorter co qs ev popsize elites
    (fun k b => crossover_do sorter co (multi_point num_points (draw2 k)) cx b (noise k) (draw k)) mut permute s <> Ok s'.
Proof.
  intros A so co qs ev popsize elites cx num_points noise draw draw2 mut permute s s' HU H4 H1 H2 H3 W HE H. unfold cosyne_step in H.
  assert (P0 : popsize / 4 = 0) by (apply Nat.div_small; auto).
  destruct (if s_first s then _ else _) as [pop|] eqn:E; [|discriminate]. cbn [bind] in H.
  destruct (best_of _ _ _ _ _) as [sr|]; [|discriminate]. cbn [bind] in H. rewrite P0 in H.
  destruct (crossover_do _ _ _ _ _ _ _) as [r|] eqn:EC; [|discriminate].
  apply (crossover_empty so co cx (head sr 0) _ _ _ _ r (HU _)) in EC; auto.
Qed.
Print Assumptions C93_small_population_refuted.
(* one parent out of four gives two children; the elite survives *)
Definition excross (k : nat) (b : batch Z) : result (batch Z) := match b_vals b with v :: _ => Ok (fresh b [v - 10; v + 2])%Z | [] => Err IndexError end.
Example C93_example : kind_op excross /\ rmap (fun s => (b_vals (s_pop s), b_ev (s_pop s))) (cosyne_run stable_argsort exco qstable exev 4 (Some 1%Z) excross None
     (fun _ b => Ok (fresh b (rev (map (fun v => v - 1)%Z (b_vals b))))) 2 (ga_init (mkBatch [] [] [true] 0) [4; 1; 7; 2]%Z)) =
  Ok ([11; 9; 8; 6]%Z, [[Fin 11]; [Fin 9]; [Fin 8]; [Fin 6]]) /\ cosyne_step stable_argsort exco qstable exev 3 (Some 1%Z) excross None (fun _ b => Ok b) (ga_init (mkBatch [] [] [true] 0) [4; 1; 7]%Z) = Err IndexError.
Proof.
  split. { intros k b b' W H. unfold excross in H. destruct (b_vals b); [discriminate|]. injection H as <-. apply fresh_kind. }
  split; vm_compute; reflexivity.
Qed.
Theorem C93_constructor : forall popsize ne r stdev prob,
  cosyne_elites popsize (Some ne) (Some r) = Err ValueError /\ cosyne_elites popsize (Some ne) None = Ok (Some ne) /\
  cosyne_mutation None (Some prob) = Err ValueError /\ cosyne_mutation (Some stdev) (Some prob) = Ok true /\
  ((0 <= r <= 1)%Q -> exists e, cosyne_elites popsize None (Some r) = Ok (Some e) /\ (0 <= e <= Z.of_nat popsize)%Z /\
     (inject_Z e <= inject_Z (Z.of_nat popsize) * r)%Q /\ (inject_Z (Z.of_nat popsize) * r < inject_Z (e + 1))%Q).
Proof.
  intros popsize ne r stdev prob. repeat (split; [reflexivity|]). intros [R0 R1]. destruct r as [rn rd]. cbn.
  eexists; split; [reflexivity|]. unfold Qle, Qlt in *. cbn in *. rewrite !Z.mul_1_r in *.
  set (p := (Z.of_nat popsize * rn)%Z). assert (0 <= p)%Z by (unfold p; nia). rewrite Z.quot_div_nonneg by lia.
  pose proof (Z.div_mod p (Zpos rd)). pose proof (Z.mod_pos_bound p (Zpos rd)). 
  assert (0 <= p / Zpos rd)%Z by (apply Z.div_pos; lia).
  assert (p / Zpos rd <= Z.of_nat popsize)%Z by (apply Z.div_le_upper_bound; [lia|unfold p; nia]). nia.
Qed.
Print Assumptions C93_constructor.

(* ------------------------------------------------------------------------------------ C94 *)
(* with the default re_evaluate_parents_first, the operators of a list containing a cross-over always
   get evaluated parents: a tournament never sees missing evaluations *)
Theorem C94_parents_are_evaluated : forall (V : Type) sorter co qs ev f popsize elitist re_evaluate first allow_empty ops cross n (s s1 s' : state V),
  argsort_ok sorter -> reordering co -> qargsort_ok qs -> Forall legal ops -> wf (s_pop s) -> evaluates (eval_width (s_pop s)) ev ->
  deterministic f ev -> b_len (s_pop s) = popsize -> s_first s = true ->
  In (Copying true cross) ops -> mixin_init re_evaluate None ops allow_empty = Ok first ->
  ga_run sorter co qs ev (mkConf popsize elitist re_evaluate first) ops n s = Ok s1 ->
  ga_step sorter co qs ev (mkConf popsize elitist re_evaluate first) ops s1 = Ok s' ->
  exists parents ch, b_vals parents = b_vals (s_pop s1) /\ evaluated f parents /\ use_operators (s_clock s1 + 1) parents ops = Ok ch.
Proof.
  intros V so co qs ev f popsize elitist re first ae ops cross n s s1 s' H1 H2 H3 HL W HE HD Hlen HF HC HI R H.
  assert (HX : existsb is_cross ops = true) by (apply existsb_exists; exists (Copying true cross); auto).
  assert (Hf : first = true) by (unfold mixin_init in HI; rewrite HX in HI; destruct (_ && _)%bool; congruence). subst first.
  set (cf := mkConf popsize elitist re true) in *.
  destruct (run_size so co qs ev H1 H2 H3 cf ops n s s1 HL W HE Hlen R) as (K & L & _).
  assert (HE' : evaluates (eval_width (s_pop s1)) ev) by (rewrite (kind_width _ _ K); auto).
  assert (HR : ready f cf s1).
  { destruct n as [|n]; cbn in R; [injection R as <-; right; left; auto|].
    right; right. destruct (ga_run so co qs ev cf ops n s) as [s0|] eqn:E; [|discriminate]. cbn [bind] in R.
    apply (C91_evaluated_partial V so co qs ev f cf ops n s s0 s1); auto. }
  unfold ga_step in H. destruct (extended ev cf ops s1) as [[[s2 p] c]|] eqn:E; [|discriminate]. clear H.
  unfold extended in E. cbn [g_reeval g_first cf] in E.
  assert (Q : exists pop, b_vals pop = b_vals (s_pop s1) /\ evaluated f pop /\
     bind (use_operators (s_clock s1 + 1) pop ops) (fun children => bind (evaluate ev (s_clock s1 + 1 + length ops) children) (fun children' =>
      Ok (mkSt pop false (s_clock s1 + length ops + 2), pop, children'))) = Ok (s2, p, c)).
  { destruct re.
    - destruct (evaluate ev (s_clock s1) (s_pop s1)) as [pop|] eqn:Ee; [|discriminate]. destruct (evaluate_inv ev _ _ _ HE' Ee) as (_ & A & B & _).
      exists pop. split; [auto|]. split; [unfold evaluated; rewrite B, A; apply HD|auto].
    - destruct (s_first s1) eqn:E1.
      + destruct (evaluate ev (s_clock s1) (s_pop s1)) as [pop|] eqn:Ee; [|discriminate]. destruct (evaluate_inv ev _ _ _ HE' Ee) as (_ & A & B & _).
        exists pop. split; [auto|]. split; [unfold evaluated; rewrite B, A; apply HD|auto].
      + exists (s_pop s1). split; [auto|]. split; [|auto]. destruct HR as [X|[X|X]]; [discriminate X|congruence|auto]. }
  destruct Q as (pop & A & B & C). destruct (use_operators _ pop ops) as [ch|] eqn:EU; [|discriminate]. eauto.
Qed.
Print Assumptions C94_parents_are_evaluated.
(* SteadyStateGA: operators given through use() always get evaluated parents, too; asking for the order
   of evaluation without re-evaluation is refused *)
(* what the constructor accepts and decides *)
Theorem C94_constructor : forall (V : Type) re_evaluate parents_first (ops : list (operator V)) allow_empty,
  (forall first, mixin_init re_evaluate parents_first ops allow_empty = Ok first <->
     (ops = [] -> allow_empty = true) /\
     match parents_first with
     | None => first = true <-> exists cross, In (Copying true cross) ops
     | Some given => re_evaluate = true /\ first = given
     end) /\
  (forall e, mixin_init re_evaluate parents_first ops allow_empty = Err e <->
     e = ValueError /\ ((ops = [] /\ allow_empty = false) \/ (parents_first <> None /\ re_evaluate = false))).
Proof.
  intros V re pf ops ae.
  assert (X : existsb is_cross ops = true <-> exists cross, In (Copying true cross) ops).
  { rewrite existsb_exists. split.
    - intros (o & I & E). destruct o as [c f|f|f]; cbn in E; try discriminate. subst c. eauto.
    - intros (f & I). exists (Copying true f). auto. }
  unfold mixin_init. destruct (negb ae && _)%bool eqn:E.
  - apply andb_prop in E. destruct E as [A N]. apply negb_true_iff in A. destruct ops; [|discriminate]. split.
    + intros first. split; [discriminate|]. intros [C _]. rewrite A in C. now specialize (C eq_refl).
    + intros e. split; [intros [= <-]; auto|]. intros [-> _]. reflexivity.
  - assert (C : ops = [] -> ae = true).
    { intros ->. apply andb_false_iff in E. destruct E as [E|E]; [apply negb_false_iff in E; auto|discriminate]. }
    assert (D : ~ (ops = [] /\ ae = false)) by (intros [N B]; rewrite (C N) in B; discriminate).
    destruct pf as [g|].
    + destruct re; cbn; split.
      * intros first. split; [intros [= <-]; auto|]. intros (_ & _ & ->). reflexivity.
      * intros e. split; [discriminate|]. intros (_ & [B|[_ B]]); [tauto|discriminate].
      * intros first. split; [discriminate|]. intros (_ & B & _). discriminate.
      * intros e. split; [intros [= <-]; split; auto; right; split; auto; discriminate|]. intros (-> & _). reflexivity.
    + split.
      * intros first. split.
        { intros [= <-]. auto. }
        intros (_ & F). f_equal. destruct (existsb is_cross ops), first; auto; [symmetry; apply F, X; auto|apply X, F; auto].
      * intros e. split; [discriminate|]. intros (_ & [B|[B _]]); tauto.
Qed.
Print Assumptions C94_constructor.

Theorem C94_steady : forall re_evaluate parents_first using_cross,
  (parents_first = None -> re_evaluate = true -> steady_first re_evaluate parents_first true using_cross = Ok true) /\
  (parents_first = None -> steady_first re_evaluate parents_first false using_cross = Ok using_cross) /\
  (forall b, parents_first = Some b -> re_evaluate = false -> forall no_ops, steady_first re_evaluate parents_first no_ops using_cross = Err ValueError) /\
  (forall b, parents_first = Some b -> re_evaluate = true -> forall no_ops, steady_first re_evaluate parents_first no_ops using_cross = Ok b).
Proof. intros re pf uc. split; [intros -> ->; reflexivity|]. split; [intros ->; reflexivity|]. split; intros b -> -> [|]; reflexivity. Qed.
Print Assumptions C94_steady.

Definition exops3 : list (operator Z) := [Copying true (fun k b => Ok (fresh b (firstn 2 (b_vals b)))); Func (fun k vs => Ok (map (Z.add 1) vs))].
Example C94_example : Forall legal exops3 /\ (exists cross, In (Copying true cross) exops3) /\ mixin_init true None exops3 false = Ok true /\
  mixin_init true None exops2 false = Ok false /\ mixin_init false (Some true) exops3 false = Err ValueError /\ mixin_init true None (@nil (operator Z)) false = Err ValueError /\
  rmap (fun s => b_vals (s_pop s)) (ga_run stable_argsort exco qstable exev (mkConf 3 true true true) exops3 2 exs0) = Ok [7; 6; 6]%Z.
Proof.
  split. { constructor; [|repeat constructor]. intros k b b' W H. cbn in H. injection H as <-. apply fresh_kind. }
  split; [eexists; left; reflexivity|]. repeat split; vm_compute; reflexivity.
Qed.

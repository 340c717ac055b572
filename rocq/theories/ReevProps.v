(* C208: evaluating parents again matters only when evaluations are noisy. *)
From Coq Require Import QArith.
From Verif Require Import Prelude FloatLib BatchModel BatchSpec ParetoModel ParetoSpec ParetoProofs3 GaModel GaSpec GaProofs GaProofs2.
Close Scope Q_scope.
Open Scope nat_scope.

(* ---- spec ---- *)
Definition reevaluating (cf : config) : config := mkConf (g_popsize cf) (g_elitist cf) true true.
Definition evaluating_once (cf : config) : config := mkConf (g_popsize cf) (g_elitist cf) false (g_first cf).
Definition reevaluating_together (cf : config) : config := mkConf (g_popsize cf) (g_elitist cf) true false.
(* With n operators a generation makes n + 2 calls (evaluation, operators, evaluation), or n + 1 when parents and children
   are evaluated together.  The same draws for the j-th operator of the g-th generation: *)
Definition redrawn {A} (n : nat) (f : nat -> A) : nat -> A := fun k => f (k / (n + 1) * (n + 2) + 1 + k mod (n + 1)).
Definition redrawn_op {V} (n : nat) (op : operator V) : operator V :=
  match op with Copying c f => Copying c (redrawn n f) | InPlace f => InPlace (redrawn n f) | Func g => Func (redrawn n g) end.

(* ---- proofs ---- *)
Section RE.
Context {V : Type}.
Variables (sorter : bool -> list fl -> list nat) (co : list (list fl) -> list nat) (qs : list Q -> list nat) (ev : nat -> list V -> list (list fl)) (f : V -> list fl).
Hypothesis Hs : argsort_ok sorter.
Hypothesis Hco : reordering co.
Hypothesis Hqs : qargsort_ok qs.
Hypothesis Det : deterministic f ev.
Lemma evaluate_again k (b : batch V) : evaluated f b -> b_len b <> 0 -> evaluate ev k b = Ok b.
Proof using Det.
  clear Hs Hco Hqs sorter co qs. intros E L. unfold evaluate, b_len in *. destruct b as [vs es d nd]. cbn in *. destruct vs as [|v vs]; [cbn in L; congruence|]. f_equal. f_equal. rewrite Det. symmetry. exact E.
Qed.
Lemma extended_once cf ops (s : state V) : s_first s = true \/ evaluated f (s_pop s) -> b_len (s_pop s) <> 0 -> extended ev (reevaluating cf) ops s = extended ev (evaluating_once cf) ops s.
Proof using Det. intros H L. unfold extended. cbn. destruct (s_first s) eqn:F; [reflexivity|]. destruct H as [H|H]; [discriminate|]. rewrite evaluate_again by auto. reflexivity. Qed.
Lemma step_once cf ops (s : state V) : s_first s = true \/ evaluated f (s_pop s) -> b_len (s_pop s) <> 0 -> ga_step sorter co qs ev (reevaluating cf) ops s = ga_step sorter co qs ev (evaluating_once cf) ops s.
Proof using Det. intros H L. unfold ga_step. rewrite extended_once by auto. reflexivity. Qed.
Lemma run_once cf ops (s : state V) : Forall legal ops -> wf (s_pop s) -> evaluates (eval_width (s_pop s)) ev -> b_len (s_pop s) = g_popsize cf -> 1 <= g_popsize cf -> s_first s = true \/ evaluated f (s_pop s) -> forall n,
  ga_run sorter co qs ev (reevaluating cf) ops n s = ga_run sorter co qs ev (evaluating_once cf) ops n s /\
  (forall s', ga_run sorter co qs ev (reevaluating cf) ops n s = Ok s' -> s_first s' = true \/ evaluated f (s_pop s')).
Proof using Det Hs Hco Hqs.
  intros HL W HE Len P Rd n. induction n as [|n [IH1 IH2]].
  - split; [reflexivity|]. intros s' E. injection E as <-. exact Rd.
  - cbn [ga_run]. rewrite <- IH1. destruct (ga_run sorter co qs ev (reevaluating cf) ops n s) as [s1|] eqn:E; [|split; [reflexivity|discriminate]]. cbn [bind]. specialize (IH2 s1 eq_refl).
    destruct (run_size sorter co qs ev Hs Hco Hqs (reevaluating cf) ops n s s1 HL W HE Len E) as (K & L & _). cbn [g_popsize reevaluating] in L.
    split; [apply step_once; auto; lia|]. intros s' St. right. apply (step_evaluated sorter co qs ev Hs Hco Hqs f (reevaluating cf) ops s1 s'); auto; [apply K|rewrite (kind_width _ _ K); auto|left; reflexivity].
Qed.

(* parents and children together *)
Lemma redrawn_ops (all : nat) (g : nat) ops : forall j (b : batch V), j + length ops <= all ->
  use_operators (g * (all + 1) + j) b (map (redrawn_op all) ops) = use_operators (g * (all + 2) + 1 + j) b ops.
Proof using.
  clear. induction ops as [|op ops IH]; intros j b L; [reflexivity|]. cbn [map use_operators length] in *.
  assert (D : (g * (all + 1) + j) / (all + 1) = g) by (rewrite Nat.add_comm, Nat.div_add by lia; rewrite Nat.div_small by lia; reflexivity).
  assert (M : (g * (all + 1) + j) mod (all + 1) = j) by (rewrite Nat.add_comm, Nat.mod_add by lia; apply Nat.mod_small; lia).
  assert (E : use_operator (g * (all + 1) + j) b (redrawn_op all op) = use_operator (g * (all + 2) + 1 + j) b op) by (destruct op; cbn [redrawn_op use_operator]; unfold redrawn; rewrite D, M; reflexivity).
  rewrite E. destruct (use_operator (g * (all + 2) + 1 + j) b op) as [b'|]; [|reflexivity]. cbn [bind]. replace (S (g * (all + 1) + j)) with (g * (all + 1) + S j) by lia. rewrite IH by lia. f_equal. lia.
Qed.
Lemma extended_together cf ops (s t s' : state V) p c g : evaluated f (s_pop s) -> b_len (s_pop s) <> 0 -> s_pop t = s_pop s -> s_clock s = g * (length ops + 2) -> s_clock t = g * (length ops + 1) -> Forall legal ops -> wf (s_pop s) ->
  extended ev (reevaluating cf) ops s = Ok (s', p, c) -> exists t', extended ev (reevaluating_together cf) (map (redrawn_op (length ops)) ops) t = Ok (t', p, c) /\ s_pop t' = s_pop s' /\ s_clock s' = S g * (length ops + 2) /\ s_clock t' = S g * (length ops + 1).
Proof using Det.
  clear Hs Hco Hqs sorter co qs. intros E L Pt Cs Ct HL W. unfold extended. cbn [reevaluating reevaluating_together g_reeval g_first]. rewrite (evaluate_again (s_clock s)) by auto. cbn [bind]. rewrite Pt, map_length, Cs, Ct.
  pose proof (redrawn_ops (length ops) g ops 0 (s_pop s) ltac:(lia)) as R. rewrite !Nat.add_0_r in R. rewrite R. destruct (use_operators (g * (length ops + 2) + 1) (s_pop s) ops) as [ch|] eqn:U; [|discriminate]. cbn [bind].
  pose proof (use_operators_kind ops _ _ _ HL W U) as ([Wc _] & Dc & Nc). unfold evaluate at 1. destruct (b_vals ch) as [|v vs] eqn:Vc; [discriminate|]. cbn [bind]. intros X. injection X as <- <- <-.
  unfold evaluate. cbn [cat b_vals b_desc b_ndata]. destruct (b_vals (s_pop s) ++ b_vals ch) as [|w ws] eqn:Vw; [rewrite Vc in Vw; destruct (b_vals (s_pop s)); discriminate|]. rewrite <- Vw. cbn [bind].
  assert (Hd : head (mkBatch (b_vals (s_pop s) ++ b_vals ch) (ev (g * (length ops + 1) + length ops) (b_vals (s_pop s) ++ b_vals ch)) (b_desc (s_pop s)) (b_ndata (s_pop s))) (b_len (s_pop s)) = s_pop s).
  { unfold head. cbn [b_vals b_ev b_desc b_ndata]. rewrite Det, map_app. unfold b_len. rewrite firstn_app, Nat.sub_diag, firstn_all, firstn_O, app_nil_r. rewrite <- (map_length f (b_vals (s_pop s))) at 1. rewrite firstn_app, Nat.sub_diag, firstn_all, firstn_O, app_nil_r. rewrite <- E. destruct (s_pop s). reflexivity. }
  assert (Tl : tail (mkBatch (b_vals (s_pop s) ++ b_vals ch) (ev (g * (length ops + 1) + length ops) (b_vals (s_pop s) ++ b_vals ch)) (b_desc (s_pop s)) (b_ndata (s_pop s))) (b_len (s_pop s)) = mkBatch (v :: vs) (ev (g * (length ops + 2) + 1 + length ops) (v :: vs)) (b_desc ch) (b_ndata ch)).
  { unfold tail. cbn [b_vals b_ev b_desc b_ndata]. rewrite !Det, map_app, Dc, Nc, Vc. unfold b_len. rewrite skipn_app, Nat.sub_diag, skipn_all, skipn_O. cbn [app]. f_equal. rewrite <- (map_length f (b_vals (s_pop s))) at 1. rewrite skipn_app, Nat.sub_diag, skipn_all, skipn_O. reflexivity. }
  rewrite Hd, Tl. eexists. split; [reflexivity|]. split; [reflexivity|]. split; [cbn; lia|cbn; lia].
Qed.
Lemma run_together cf ops (s t : state V) : Forall legal ops -> wf (s_pop s) -> evaluates (eval_width (s_pop s)) ev -> b_len (s_pop s) = g_popsize cf -> 1 <= g_popsize cf -> evaluated f (s_pop s) -> s_pop t = s_pop s -> s_clock s = 0 -> s_clock t = 0 ->
  forall n s', ga_run sorter co qs ev (reevaluating cf) ops n s = Ok s' -> evaluated f (s_pop s') /\ s_clock s' = n * (length ops + 2) /\
  exists t', ga_run sorter co qs ev (reevaluating_together cf) (map (redrawn_op (length ops)) ops) n t = Ok t' /\ s_pop t' = s_pop s' /\ s_clock t' = n * (length ops + 1).
Proof using Det Hs Hco Hqs.
  intros HL W HE Len P Rd Pt Cs Ct n. induction n as [|n IH]; intros s' R.
  - cbn [ga_run] in *. injection R as <-. split; auto. split; [auto|]. exists t. auto.
  - cbn [ga_run] in *. destruct (ga_run sorter co qs ev (reevaluating cf) ops n s) as [s1|] eqn:E; [|discriminate]. cbn [bind] in R. destruct (IH s1 eq_refl) as (E1 & C1 & t1 & Rt & P1 & D1).
    destruct (run_size sorter co qs ev Hs Hco Hqs (reevaluating cf) ops n s s1 HL W HE Len E) as (K & L & _). cbn [g_popsize reevaluating] in L.
    split; [apply (step_evaluated sorter co qs ev Hs Hco Hqs f (reevaluating cf) ops s1 s'); auto; [apply K|rewrite (kind_width _ _ K); auto|left; reflexivity]|].
    unfold ga_step in R. destruct (extended ev (reevaluating cf) ops s1) as [[[s2 p] c]|] eqn:Ex; [|discriminate]. cbn [bind] in R.
    destruct (extended_together cf ops s1 t1 s2 p c n E1 ltac:(lia) P1 C1 D1 HL (proj1 K) Ex) as (t2 & Et & P2 & C2 & D2).
    rewrite Rt. cbn [bind]. unfold ga_step. rewrite Et. cbn [bind]. cbn [g_popsize g_elitist reevaluating reevaluating_together] in *. rewrite P2.
    match type of R with rmap _ ?X = _ => destruct X as [pop|]; [|discriminate] end. cbn [rmap] in *. injection R as <-. split; [cbn; lia|]. eexists. split; [reflexivity|]. split; [reflexivity|cbn; lia].
Qed.
End RE.

(* ---- theorems ---- *)
(* GeneticAlgorithm and SteadyStateGA, from the start or from an evaluated population: re_evaluate=True and False give the same run *)
Theorem C208_once : forall (V : Type) sorter co qs ev f cf ops (s : state V) n, argsort_ok sorter -> reordering co -> qargsort_ok qs -> deterministic f ev ->
  Forall legal ops -> wf (s_pop s) -> evaluates (eval_width (s_pop s)) ev -> b_len (s_pop s) = g_popsize cf -> 1 <= g_popsize cf -> s_first s = true \/ evaluated f (s_pop s) ->
  ga_run sorter co qs ev (reevaluating cf) ops n s = ga_run sorter co qs ev (evaluating_once cf) ops n s.
Proof. intros V so co qs ev f cf ops s n H1 H2 H3 D HL W HE Len P Rd. apply (run_once so co qs ev f H1 H2 H3 D cf ops s HL W HE Len P Rd n). Qed.
(* and so does evaluating parents and children together, when the first population is evaluated *)
Theorem C208_together_partial : forall (V : Type) sorter co qs ev f cf ops (s s' : state V) n, argsort_ok sorter -> reordering co -> qargsort_ok qs -> deterministic f ev ->
  Forall legal ops -> wf (s_pop s) -> evaluates (eval_width (s_pop s)) ev -> b_len (s_pop s) = g_popsize cf -> 1 <= g_popsize cf -> evaluated f (s_pop s) -> s_clock s = 0 ->
  ga_run sorter co qs ev (reevaluating cf) ops n s = Ok s' ->
  exists t, ga_run sorter co qs ev (reevaluating_together cf) (map (redrawn_op (length ops)) ops) n s = Ok t /\ s_pop t = s_pop s'.
Proof.
  intros V so co qs ev f cf ops s s' n H1 H2 H3 D HL W HE Len P Rd C R. destruct (run_together so co qs ev f H1 H2 H3 D cf ops s s HL W HE Len P Rd eq_refl C C n s' R) as (_ & _ & t & Et & Pt & _). exists t. auto.
Qed.
(* In a fresh search it is not: the operators then see parents without fitnesses.  A cross-over by tournament fails, and an
   operator which looks at fitnesses, or a non-elitist search which keeps parents, gives other solutions. *)
Definition rv_ev (_ : nat) (vs : list nat) : list (list fl) := map (fun v => [Fin (Z.of_nat v)]) vs.
Definition rv_op : operator nat := Func (fun _ vs => Ok (firstn 1 vs)).
Theorem C208_together_refuted : exists (ops : list (operator nat)) (s : state nat), Forall legal ops /\ s_first s = true /\ wf (s_pop s) /\ b_len (s_pop s) = 2 /\
  exists s' t, ga_run stable_argsort (fun l => seq 0 (length l)) qstable rv_ev (reevaluating (mkConf 2 false true true)) ops 1 s = Ok s' /\
    ga_run stable_argsort (fun l => seq 0 (length l)) qstable rv_ev (reevaluating_together (mkConf 2 false true true)) (map (redrawn_op 1) ops) 1 s = Ok t /\ ~ Permutation (b_vals (s_pop s')) (b_vals (s_pop t)).
Proof.
  exists [rv_op], (mkSt (mkBatch [1; 2] [[NaN]; [NaN]] [true] 0) true 0). split; [repeat constructor|]. split; [reflexivity|]. split; [split; [reflexivity|repeat constructor]|]. split; [reflexivity|].
  do 2 eexists. split; [vm_compute; reflexivity|]. split; [vm_compute; reflexivity|]. cbn. intros P. assert (I : In 2 [1; 1]) by (eapply Permutation_in; [exact P|cbn; auto]). cbn in I. intuition discriminate.
Qed.
Print Assumptions C208_once.
Print Assumptions C208_together_partial.
Print Assumptions C208_together_refuted.
Example C208_example : Forall legal [rv_op] /\ deterministic (fun v => [Fin (Z.of_nat v)]) rv_ev /\ evaluates 1 rv_ev /\
  let s := mkSt (mkBatch [1; 2] [[Fin 1]; [Fin 2]] [true] 0) false 0 in
  wf (s_pop s) /\ evaluated (fun v => [Fin (Z.of_nat v)]) (s_pop s) /\
  rmap (fun s => b_vals (s_pop s)) (ga_run stable_argsort (fun l => seq 0 (length l)) qstable rv_ev (reevaluating (mkConf 2 false true true)) [rv_op] 1 s) = Ok [2; 1].
Proof.
  split; [repeat constructor|]. split; [intros k vs; reflexivity|]. split; [intros k vs; unfold rv_ev; rewrite map_length; split; [reflexivity|]; apply Forall_map, Forall_forall; auto|].
  split; [split; [reflexivity|repeat constructor]|]. split; [reflexivity|]. vm_compute. reflexivity.
Qed.

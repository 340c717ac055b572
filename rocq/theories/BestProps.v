(* C221: The best of all is kept: halls of fame made with take_best, and elitist genetic searches. *)
From Coq Require Import QArith.
From Verif Require Import Prelude FloatLib BatchModel BatchSpec BatchProofs ParetoModel ParetoSpec ParetoProofs3 GaModel GaSpec GaProofs GaProofs2 GaProofs3 BudModel BudProps.
Close Scope Q_scope.
Open Scope nat_scope.

(* ------------------------------------------------------------------------------------ specification *)
(* kept are k of the solutions in all (or all of them, if there are fewer), and no other solution is better in objective j than one of them *)
Definition best_k {V} (maximize : bool) (j k : nat) (kept all : list (V * list fl)) : Prop :=
  length kept = Nat.min k (length all) /\
  exists rest, Permutation (kept ++ rest) all /\ (forall x y, In x kept -> In y rest -> ~ better maximize (score j y) (score j x)).

(* ------------------------------------------------------------------------------------ proofs *)
Section Best.
Context {V : Type}.
Variables (d : bool) (j : nat).
Notation sol := (V * list fl)%type.
Definition above (t x : sol) : bool := if d then flt (score j t) (score j x) else flt (score j x) (score j t).
Lemma above_better t x : above t x = true <-> better d (score j x) (score j t).
Proof. unfold above, better. destruct d; apply flt_lt. Qed.
Lemma count_app (p : sol -> bool) l l' : length (filter p (l ++ l')) = length (filter p l) + length (filter p l').
Proof. rewrite filter_app, app_length. auto. Qed.
Lemma count_perm (p : sol -> bool) l l' : Permutation l l' -> length (filter p l) = length (filter p l').
Proof. induction 1; cbn; auto; [destruct (p x); cbn; lia|destruct (p x), (p y); cbn; lia|lia]. Qed.
Lemma count_all (p : sol -> bool) l : (forall x, In x l -> p x = true) -> length (filter p l) = length l.
Proof. induction l as [|a l IH]; cbn; intros H; auto. rewrite (H a) by auto. cbn. rewrite IH; auto. Qed.
Lemma count_less (p : sol -> bool) l x : In x l -> p x = false -> length (filter p l) < length l.
Proof.
  assert (L : forall l, length (filter p l) <= length l) by (clear; induction l as [|a l IH]; cbn; [lia|destruct (p a); cbn; lia]).
  induction l as [|a l IH]; intros H E; [destruct H|]. destruct H as [->|H]; cbn.
  - rewrite E. specialize (L l). lia.
  - specialize (IH H E). destruct (p a); cbn; lia.
Qed.
(* the best of the best so far and of new solutions *)
Lemma best_merge k (kept all new kept' : list sol) : no_nan j all -> no_nan j new -> best_k d j k kept all -> best_k d j k kept' (kept ++ new) -> best_k d j k kept' (all ++ new).
Proof.
  intros N1 N2 (L1 & r1 & P1 & B1) (L2 & r2 & P2 & B2).
  assert (La : length all = length kept + length r1) by (rewrite <- (Permutation_length P1), app_length; auto).
  assert (Lb : length kept + length new = length kept' + length r2) by (rewrite <- !app_length; symmetry; apply (Permutation_length P2)).
  rewrite app_length in L2. split; [rewrite app_length; lia|].
  exists (r2 ++ r1). split.
  { rewrite app_assoc. rewrite P2. rewrite <- P1. rewrite <- !app_assoc. apply Permutation_app_head. apply Permutation_app_comm. }
  intros x y Hx Hy. apply in_app_or in Hy. destruct Hy as [Hy|Hy]; [eauto|]. intros C.
  assert (NN : forall z, In z (all ++ new) -> is_nan (score j z) = false) by (apply Forall_forall, Forall_app; auto).
  assert (Ik : forall z, In z kept -> In z all) by (intros z Hz; eapply Permutation_in; [exact P1|]; apply in_or_app; auto).
  assert (Nx : is_nan (score j x) = false).
  { assert (I : In x (kept ++ new)) by (eapply Permutation_in; [exact P2|]; apply in_or_app; auto). apply in_app_or in I. destruct I as [I|I]; apply NN, in_or_app; auto. }
  assert (K1 : length (filter (above x) kept) = length kept).
  { apply count_all. intros t Ht. apply above_better. destruct (above x t) eqn:E; [apply above_better; auto|exfalso].
    assert (E1 : ~ better d (score j t) (score j x)) by (rewrite <- above_better; congruence).
    assert (Nt : is_nan (score j t) = false) by (apply NN, in_or_app; auto).
    exact (better_ntrans d _ _ _ Nt (B1 t y Ht Hy) E1 C). }
  assert (K2 : length (filter (above x) kept') < length kept').
  { apply (count_less _ _ x Hx). destruct (above x x) eqn:E; auto. apply above_better in E. exfalso. eapply better_irrefl; eauto. }
  assert (K3 : length kept = k) by (destruct r1; [destruct Hy|cbn in La; lia]).
  pose proof (count_perm (above x) _ _ P2) as K4. rewrite !count_app in K4.
  assert (K5 : filter (above x) r2 <> []) by (intros Z; rewrite Z in K4; cbn in K4; lia).
  destruct (filter (above x) r2) as [|z zs] eqn:F; [congruence|]. assert (Iz : In z (filter (above x) r2)) by (rewrite F; left; auto).
  apply filter_In in Iz. destruct Iz as [Iz Az]. apply above_better in Az. exact (B2 x z Hx Iz Az).
Qed.
Lemma best_self k (all : list sol) : length all <= k -> best_k d j k all all.
Proof. intros L. split; [lia|]. exists []. split; [rewrite app_nil_r; auto|]. intros x y _ []. Qed.
End Best.

Section Runs.
Context {V : Type}.
Variables (so : bool -> list fl -> list nat) (co : list (list fl) -> list nat) (qs : list Q -> list nat).
Variable ev : nat -> list V -> list (list fl).
Hypothesis Hs : argsort_ok so.
Hypothesis Hco : reordering co.
Hypothesis Hqs : qargsort_ok qs.
Lemma rows_cat (a b : batch V) : wf a -> rows (cat a b) = rows a ++ rows b.
Proof.
  intros [W _]. unfold rows, rows_of. cbn [cat b_vals b_ev]. revert W. unfold b_len. generalize (b_ev a) as es, (b_vals a) as vs. induction es as [|e es IH]; intros [|v vs] L; cbn in *; try discriminate; auto. f_equal. auto.
Qed.
Lemma col_rows j (b : batch V) : wf b -> (no_nan_col b j <-> no_nan j (rows b)).
Proof.
  intros [W _]. unfold no_nan_col, no_nan, rows, rows_of, score. revert W. unfold b_len. generalize (b_ev b) as es, (b_vals b) as vs. induction es as [|e es IH]; intros [|v vs] L; cbn in *; try discriminate; [split; constructor|].
  split; intros H; inversion H; subst; constructor; auto; apply (IH vs); auto.
Qed.
Lemma take_best_k d j n (b b' : batch V) : wf b -> nth_error (b_desc b) j = Some d -> no_nan j (rows b) -> take_best so b n (Some (Z.of_nat j)) = Ok b' -> best_k d j n (rows b') (rows b).
Proof.
  intros W D N E. destruct (take_best_ok so Hs b j d n W D (proj2 (col_rows j b W) N)) as (b2 & rest & E2 & L & P & B). rewrite E in E2. injection E2 as <-.
  split; [rewrite L; f_equal; symmetry; apply rows_length; auto|]. exists rest. split; auto.
Qed.
Lemma best_of_k d n (b b' : batch V) : wf b -> b_desc b = [d] -> no_nan 0 (rows b) -> best_of so co qs b n = Ok b' -> best_k d 0 n (rows b') (rows b).
Proof.
  intros W D N E. assert (H1 : num_objs b = 1) by (unfold num_objs; rewrite D; auto). unfold best_of in E. rewrite H1 in E. cbn [Nat.leb] in E.
  rewrite (take_best_none so b n H1) in E. apply (take_best_k d 0); auto. rewrite D. auto.
Qed.
Lemma extended_rows cf ops s s1 pa ch log : g_reeval cf = false -> extended_r ev cf ops s = Ok (s1, pa, ch, log) ->
  (if s_first s then log = rows pa ++ rows ch else pa = s_pop s /\ log = rows ch).
Proof.
  intros R. unfold extended_r. rewrite R. intros X. apply then_inv in X. destruct X as (pop & l1 & l2 & E1 & X & ->).
  apply then_inv in X. destruct X as (chi & l3 & l4 & E2 & X & ->). apply lift_inv in E2. destruct E2 as [E2 ->].
  apply then_inv in X. destruct X as (chi' & l5 & l6 & E3 & X & ->). apply evaluate_r_inv in E3. destruct E3 as [E3 ->]. apply ret_inv in X. destruct X as [X ->].
  injection X as <- <- <-. cbn [app]. rewrite app_nil_r. destruct (s_first s).
  - apply evaluate_r_inv in E1. destruct E1 as [E1 ->]. auto.
  - apply ret_inv in E1. destruct E1 as [<- ->]. auto.
Qed.
Lemma ga_best d cf ops s : Forall legal ops -> wf (s_pop s) -> evaluates (eval_width (s_pop s)) ev -> b_desc (s_pop s) = [d] -> b_len (s_pop s) = g_popsize cf -> s_first s = true ->
  g_reeval cf = false -> g_elitist cf = true -> forall n s' log, ga_run_r so co qs ev cf ops n s = Ok (s', log) -> no_nan 0 log ->
  match n with O => log = [] | _ => best_k d 0 (g_popsize cf) (rows (s_pop s')) log end.
Proof.
  intros HL W HE Hd Hp HF HR Hel. induction n as [|n IH]; intros s' log X NN; cbn [ga_run_r] in X.
  - apply ret_inv in X. apply X.
  - apply then_inv in X. destruct X as (s1 & l1 & l2 & E1 & X & ->). apply Forall_app in NN. destruct NN as [N1 N2]. specialize (IH s1 l1 E1 N1).
    pose proof (f_equal (rmap fst) E1) as R1. rewrite erase_ga in R1. cbn in R1.
    destruct (run_size so co qs ev Hs Hco Hqs cf ops n s s1 HL W HE Hp R1) as (K & Lp & F1).
    unfold ga_step_r in X. apply then_inv in X. destruct X as ([[s2 pa] ch] & l3 & l4 & E2 & X & ->). apply lift_inv in X. destruct X as [X ->]. rewrite app_nil_r in *.
    rewrite Hel in X. destruct (best_of so co qs (cat pa ch) (g_popsize cf)) as [pop|] eqn:EB; [|discriminate]. cbn [rmap] in X. injection X as <-. cbn [s_pop].
    assert (HE' : evaluates (eval_width (s_pop s1)) ev) by (rewrite (kind_width _ _ K); auto).
    pose proof (f_equal (rmap fst) E2) as R2. rewrite erase_extended in R2. cbn in R2.
    destruct (extended_inv ev cf ops s1 s2 pa ch HL (proj1 K) HE' R2) as (Kp & Kc & _). pose proof (cat_kind _ _ _ Kp Kc) as Ka.
    assert (Da : b_desc (cat pa ch) = [d]). { destruct Ka as (_ & -> & _). destruct K as (_ & -> & _). exact Hd. }
    pose proof (extended_rows cf ops s1 s2 pa ch l3 HR E2) as Q.
    destruct n as [|n].
    + cbn [ga_run] in R1. injection R1 as <-. rewrite HF in Q. subst l1 l3. cbn [app]. rewrite <- (rows_cat _ _ (proj1 Kp)) in *. apply best_of_k; auto. apply Ka.
    + rewrite (F1 ltac:(discriminate)) in Q. destruct Q as [-> ->]. apply (best_merge d 0 _ (rows (s_pop s1))); auto.
      rewrite <- (rows_cat _ _ (proj1 Kp)). apply best_of_k; auto; [apply Ka|]. rewrite (rows_cat _ _ (proj1 Kp)). apply Forall_app. split; auto.
      destruct IH as (_ & rest & P & _). apply Forall_forall. intros x Hx. apply (proj1 (Forall_forall _ _) N1). eapply Permutation_in; [exact P|]. apply in_or_app; auto.
Qed.
(* keeping the n best solutions of a sequence of batches: SolutionBatch.cat([best, batch]).take_best(n, obj_index=j) *)
Fixpoint hall_of_fame (j n : nat) (best : batch V) (batches : list (batch V)) : result (batch V) :=
  match batches with [] => Ok best | b :: r => bind (take_best so (cat best b) n (Some (Z.of_nat j))) (fun best' => hall_of_fame j n best' r) end.
Lemma hall_best d j n : forall batches best all, wf best -> nth_error (b_desc best) j = Some d -> Forall (same_kind best) batches -> no_nan j all -> Forall (fun b => no_nan j (rows b)) batches ->
  best_k d j n (rows best) all -> exists best', hall_of_fame j n best batches = Ok best' /\ best_k d j n (rows best') (all ++ concat (map rows batches)).
Proof.
  induction batches as [|b bs IH]; intros best all W D Fk NA NB B; cbn [hall_of_fame map concat].
  - exists best. rewrite app_nil_r. auto.
  - inversion Fk as [|? ? Kb Fk']; subst. inversion NB as [|? ? Nb NB']; subst. pose proof (cat_kind _ _ _ (same_kind_refl _ W) Kb) as Kc.
    assert (N : no_nan j (rows (cat best b))).
    { rewrite rows_cat by auto. apply Forall_app. split; auto. destruct B as (_ & rest & P & _). apply Forall_forall. intros x Hx. apply (proj1 (Forall_forall _ _) NA). eapply Permutation_in; [exact P|]. apply in_or_app; auto. }
    assert (Dc : nth_error (b_desc (cat best b)) j = Some d) by exact D.
    destruct (take_best_ok so Hs (cat best b) j d n (proj1 Kc) Dc (proj2 (col_rows j _ (proj1 Kc)) N)) as (b' & _ & E & _). rewrite E. cbn [bind].
    pose proof (take_best_k d j n _ _ (proj1 Kc) Dc N E) as B'. rewrite rows_cat in B' by auto.
    assert (Kb' : same_kind best b').
    { unfold take_best in E. destruct (argsort so (cat best b) (Some (Z.of_nat j))) as [p|]; [|discriminate]. cbn [bind] in E. destruct (take_inv _ _ _ (proj1 Kc) E) as (K' & _). exact (same_kind_trans _ _ _ Kc K'). }
    assert (G : exists best', hall_of_fame j n b' bs = Ok best' /\ best_k d j n (rows best') ((all ++ rows b) ++ concat (map rows bs))).
    { apply IH.
      - apply Kb'.
      - destruct Kb' as (_ & -> & _). exact D.
      - apply Forall_forall. intros x Hx. apply (proj1 (Forall_forall _ _) Fk') in Hx. destruct Hx as (X1 & X2 & X3), Kb' as (_ & Y2 & Y3). split; [auto|split; congruence].
      - apply Forall_app; auto.
      - exact NB'.
      - apply (best_merge d j n (rows best)); auto. }
    destruct G as (best' & E' & B2). exists best'. rewrite <- app_assoc in B2. auto.
Qed.
End Runs.

(* ------------------------------------------------------------------------------------ C221 *)
(* An elitist search which does not evaluate again: the population consists of the best of all (solution, evaluations) pairs of the run, noisy or not. *)
Theorem C221_ga : forall (V : Type) so co qs ev d cf ops n (s s' : state V) log, argsort_ok so -> reordering co -> qargsort_ok qs ->
  Forall legal ops -> wf (s_pop s) -> evaluates (eval_width (s_pop s)) ev -> b_desc (s_pop s) = [d] -> b_len (s_pop s) = g_popsize cf -> s_first s = true ->
  g_reeval cf = false -> g_elitist cf = true -> 0 < n -> ga_run_r so co qs ev cf ops n s = Ok (s', log) -> no_nan 0 log ->
  best_k d 0 (g_popsize cf) (rows (s_pop s')) log.
Proof.
  intros V so co qs ev d cf ops n s s' log H1 H2 H3 HL W HE Hd Hp HF HR Hel Hn X NN. pose proof (ga_best so co qs ev H1 H2 H3 d cf ops s HL W HE Hd Hp HF HR Hel n s' log X NN) as Q. destruct n; [lia|exact Q].
Qed.
(* A hall of fame: concatenating and taking the best again and again gives the best of all, also of one objective among several *)
Theorem C221_hall_of_fame : forall (V : Type) so d j n (best : batch V) batches, argsort_ok so -> wf best -> nth_error (b_desc best) j = Some d -> Forall (same_kind best) batches ->
  b_len best <= n -> no_nan j (rows best) -> Forall (fun b => no_nan j (rows b)) batches ->
  exists best', hall_of_fame so j n best batches = Ok best' /\ best_k d j n (rows best') (rows best ++ concat (map rows batches)).
Proof. intros V so d j n best batches H W D Fk L N NB. apply hall_best; auto. apply best_self. rewrite (rows_length _ W). exact L. Qed.
Print Assumptions C221_ga.
Print Assumptions C221_hall_of_fame.

(* the search of C220_example; and the two best of three batches, minimizing the second objective *)
Example C221_example : no_nan 0 (map (fun v => (v, [Fin (Z.of_nat v)])) [1; 5; 3; 2; 6; 7; 6; 8; 7]) /\
  rmap (fun r => (rows (s_pop (fst r)), snd r)) (ga_run_r stable_argsort (fun l => seq 0 (length l)) qstable bu_ev (mkConf 3 true false true) [bu_op] 3 (ga_init (mkBatch [] [] [true] 0) [1; 5; 3])) =
  Ok ([(8, [Fin 8]); (7, [Fin 7]); (7, [Fin 7])], map (fun v => (v, [Fin (Z.of_nat v)])) [1; 5; 3; 2; 6; 7; 6; 8; 7]).
Proof. split; [repeat constructor|]. vm_compute. reflexivity. Qed.
Definition be_batch (l : list Z) : batch Z := mkBatch l (map (fun v => [Fin (- v); Fin v]) l) [true; false] 0.
Example C221_hall_of_fame_example : wf (be_batch []) /\ Forall (same_kind (be_batch [])) [be_batch [4; 2]; be_batch [7]; be_batch [1; 9]]%Z /\
  rmap rows (hall_of_fame stable_argsort 1 2 (be_batch []) [be_batch [4; 2]; be_batch [7]; be_batch [1; 9]]%Z) = Ok [(1, [Fin (-1); Fin 1]); (2, [Fin (-2); Fin 2])]%Z.
Proof. split; [split; [reflexivity|constructor]|]. split; [repeat constructor|]. vm_compute. reflexivity. Qed.

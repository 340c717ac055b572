(* Property theorems: batches, selection, best/worst tracking, staleness, indices (C16-C20, C65-C67). *)
From Verif Require Import Prelude FloatLib BatchModel BatchSpec BatchProofs BatchProofs2 StaleModel StaleProofs.
Open Scope nat_scope.

Definition exb : batch nat :=
  mkBatch [10; 11; 12; 13] [[Fin 5; Fin 1]; [Fin 2; Fin 7]; [NInf; Fin 7]; [Fin 2; Fin 0]] [false; true] 0.
Lemma exb_wf : wf exb. Proof. split; [reflexivity|repeat constructor]. Qed.

(* C16 *)
Theorem C16_argsort_best_to_worst : forall (V : Type) sorter, argsort_ok sorter -> forall (b : batch V) j d,
  wf b -> nth_error (b_desc b) j = Some d -> no_nan_col b j ->
  exists p, argsort sorter b (Some (Z.of_nat j)) = Ok p /\ Permutation p (seq 0 (b_len b)) /\
    forall k l x y rx ry, k < l -> nth_error p k = Some x -> nth_error p l = Some y ->
      nth_error (rows b) x = Some rx -> nth_error (rows b) y = Some ry -> ~ better d (score j ry) (score j rx).
Proof. exact @argsort_spec. Qed.
Print Assumptions C16_argsort_best_to_worst.
Theorem C16_argbest : forall (V : Type) (b : batch V) j d,
  wf b -> b_len b <> 0 -> nth_error (b_desc b) j = Some d -> no_nan_col b j ->
  exists i r, argbest b (Some (Z.of_nat j)) = Ok i /\ nth_error (rows b) i = Some r /\
    Forall (fun x => ~ better d (score j x) (score j r)) (rows b) /\
    (exists pre post, rows b = pre ++ r :: post /\ length pre = i /\
       Forall (fun x => better d (score j r) (score j x)) pre /\
       Forall (fun x => ~ better d (score j x) (score j r)) post).
Proof. exact @argbest_ok. Qed.
Print Assumptions C16_argbest.
Theorem C16_argworst : forall (V : Type) (b : batch V) j d,
  wf b -> b_len b <> 0 -> nth_error (b_desc b) j = Some d -> no_nan_col b j ->
  exists i r, argworst b (Some (Z.of_nat j)) = Ok i /\ nth_error (rows b) i = Some r /\
    Forall (fun x => ~ better d (score j r) (score j x)) (rows b) /\
    (exists pre post, rows b = pre ++ r :: post /\ length pre = i /\
       Forall (fun x => better (negb d) (score j r) (score j x)) pre /\
       Forall (fun x => ~ better (negb d) (score j x) (score j r)) post).
Proof. exact @argworst_ok. Qed.
Print Assumptions C16_argworst.
Theorem C16_take_best : forall (V : Type) sorter, argsort_ok sorter -> forall (b : batch V) j d n,
  wf b -> nth_error (b_desc b) j = Some d -> no_nan_col b j ->
  exists b' rest, take_best sorter b n (Some (Z.of_nat j)) = Ok b' /\
    length (rows b') = Nat.min n (b_len b) /\ Permutation (rows b' ++ rest) (rows b) /\
    (forall x y, In x (rows b') -> In y rest -> ~ better d (score j y) (score j x)).
Proof. exact @take_best_ok. Qed.
Print Assumptions C16_take_best.
Theorem C16_index_optional : forall (V : Type) sorter (b : batch V) n, num_objs b = 1 ->
  argsort sorter b None = argsort sorter b (Some 0%Z) /\ argbest b None = argbest b (Some 0%Z) /\
  argworst b None = argworst b (Some 0%Z) /\ take_best sorter b n None = take_best sorter b n (Some 0%Z).
Proof.
  exact (fun V s b n H => conj (argsort_none s b H) (conj (argbest_none b H) (conj (argworst_none b H) (take_best_none s b n H)))).
Qed.
Print Assumptions C16_index_optional.
Example C16_example :
  argsort_ok stable_argsort /\ wf exb /\ no_nan_col exb 0 /\ no_nan_col exb 1 /\
  argsort stable_argsort exb (Some 0%Z) = Ok [2; 1; 3; 0] /\ argsort stable_argsort exb (Some 1%Z) = Ok [1; 2; 0; 3] /\
  argbest exb (Some 0%Z) = Ok 2 /\ argbest exb (Some (-1)%Z) = Ok 1 /\ argworst exb (Some 0%Z) = Ok 0 /\
  rmap b_vals (take_best stable_argsort exb 2 (Some 0%Z)) = Ok [12; 11].
Proof. split; [exact stable_argsort_ok|]. split; [exact exb_wf|]. split; [repeat constructor|]. split; [repeat constructor|]. repeat split. Qed.

(* C17: after any history of batches *)
Theorem C17_best_and_worst_ever : forall (V : Type) senses (hist : list (batch V)) b, Forall (good senses) (hist ++ [b]) ->
  let all := concat (map rows (hist ++ [b])) in
  let st := snd (get_best_and_worst senses (track_history senses hist) b) in
  (forall d, senses = [d] -> exists rb rw, st = Ok (One rb rw (score 0 rb) (score 0 rw)) /\ seen_pair d 0 all rb rw) /\
  (length senses <> 1 -> exists bs ws, st = Ok (Many bs ws) /\ length bs = length senses /\ length ws = length senses /\
     forall j d, nth_error senses j = Some d -> exists rb rw, nth_error bs j = Some (Some rb) /\ nth_error ws j = Some (Some rw) /\
       seen_pair d j all rb rw).
Proof. exact @best_and_worst_ok. Qed.
Print Assumptions C17_best_and_worst_ever.
Definition exb1 : batch nat := mkBatch [1; 2] [[Fin 4]; [Fin 9]] [false] 0.
Definition exb2 : batch nat := mkBatch [3; 4] [[Fin 9]; [Fin (-4)]] [false] 0.
Example C17_example :
  Forall (good [false]) ([exb1] ++ [exb2]) /\
  snd (get_best_and_worst [false] (track_history [false] [exb1]) exb2) = Ok (One (4, [Fin (-4)]) (2, [Fin 9]) (Fin (-4)) (Fin 9)).
Proof.
  split; [|reflexivity]. repeat (constructor; [split; [split; [reflexivity|repeat constructor]|]|]); [| |constructor].
  - split; [reflexivity|]. split; [discriminate|]. intros k Hk. assert (k = 0) by (cbn in Hk; lia). subst. repeat constructor.
  - split; [reflexivity|]. split; [discriminate|]. intros k Hk. assert (k = 0) by (cbn in Hk; lia). subst. repeat constructor.
Qed.

(* C18 *)
Theorem C18_compare_solutions : forall (V : Type) senses j d (a c : V * list fl), nth_error senses j = Some d ->
  is_nan (score j a) = false -> is_nan (score j c) = false ->
  exists r, compare_solutions senses a c (Some (Z.of_nat j)) = Ok r /\
    is_better senses a c (Some (Z.of_nat j)) = Ok (flt (Fin 0) r) /\ is_worse senses a c (Some (Z.of_nat j)) = Ok (flt r (Fin 0)) /\
    (flt (Fin 0) r = true <-> better d (score j a) (score j c)) /\
    (flt r (Fin 0) = true <-> better d (score j c) (score j a)).
Proof. exact @compare_sign. Qed.
Print Assumptions C18_compare_solutions.
(* the relation being decided is a strict weak order on values that are not NaN *)
Theorem C18_strict_weak_order : forall d,
  (forall x, ~ better d x x) /\ (forall x y, better d x y -> ~ better d y x) /\
  (forall x y z, better d x y -> better d y z -> better d x z) /\
  (forall x y z, is_nan y = false -> ~ better d x y -> ~ better d y z -> ~ better d x z).
Proof. exact (fun d => conj (better_irrefl d) (conj (better_asym d) (conj (better_trans d) (better_ntrans d)))). Qed.
Print Assumptions C18_strict_weak_order.
(* without an objective number: the only objective, or an error when there are several *)
Theorem C18_objective_needed : forall (V : Type) senses (a c : V * list fl),
  (length senses = 1 -> compare_solutions senses a c None = compare_solutions senses a c (Some 0%Z)) /\
  (length senses <> 1 -> compare_solutions senses a c None = Err ValueError /\ is_better senses a c None = Err ValueError /\ is_worse senses a c None = Err ValueError).
Proof.
  intros V senses a c. unfold is_better, is_worse, compare_solutions, problem_normalize_obj_index. split; intro L.
  - rewrite L. reflexivity.
  - apply Nat.eqb_neq in L. rewrite L. repeat split.
Qed.
Print Assumptions C18_objective_needed.
Example C18_example :
  is_better [false; true] (0, [Fin 3; Fin 1]) (1, [Fin 4; Fin 1]) (Some 0%Z) = Ok true /\
  is_worse [false; true] (0, [Fin 3; Fin 1]) (1, [Fin 4; PInf]) (Some (-1)%Z) = Ok true /\
  is_better [false; true] (0, [Fin 3; PInf]) (1, [Fin 4; PInf]) (Some 1%Z) = Ok false /\
  is_better [false; true] (0, [Fin 3; PInf]) (1, [Fin 4; PInf]) None = Err ValueError.
Proof. repeat split. Qed.

(* C19 *)
Theorem C19_evaluations_never_stale : forall (V : Type) (f : V -> list fl) nobj ndata, 1 <= nobj -> forall ops c,
  disciplined f nobj ndata init [] ops ->
  In c (heap (run f nobj ndata init ops)) -> evaluated nobj c = false \/ snd c = f (fst c).
Proof. exact @never_stale. Qed.
Print Assumptions C19_evaluations_never_stale.
Theorem C19_evaluation_is_current : forall (V : Type) (f : V -> list fl) nobj ndata, 1 <= nobj -> forall s b a c,
  In a (get_batch s b) -> nth_error (heap s) a = Some c ->
  nth_error (heap (step f nobj ndata s (Evaluate b))) a = Some (fst c, f (fst c)).
Proof. exact @evaluate_sets. Qed.
Print Assumptions C19_evaluation_is_current.
Definition exf (v : nat) : list fl := [Fin (Z.of_nat v)].
Definition exops : list op :=
  [New [1; 2; 3]; Evaluate 0; Slice 0 1 3; Access 1 false; Write 0 0 7; Take 0 [0; 1]; Concat [0; 2]; Evaluate 1; SetValues 3 [0] [9]].
Example C19_example :
  disciplined exf 1 0 init [] exops /\
  heap (run exf 1 0 init exops) =
   [(1, [Fin 1]); (7, [Fin 7]); (3, [Fin 3]); (1, [Fin 1]); (7, [NaN]);
    (9, [NaN]); (7, [NaN]); (3, [NaN]); (1, [Fin 1]); (7, [NaN])].
Proof.
  split; [|reflexivity]. cbn. repeat split. intros a H. injection H as <-. auto.
Qed.
(* both provisos are needed: keeping a handle across an evaluation, or keep_evals=True *)
Theorem C19_kept_handle_refuted : exists ops c, In c (heap (run exf 1 0 init ops)) /\
  (forall b, ~ In (Access b true) ops) /\ evaluated 1 c = true /\ snd c <> exf (fst c).
Proof.
  exists [New [1]; Access 0 false; Evaluate 0; Write 0 0 5], (5, [Fin 1]). split; [left; reflexivity|].
  split; [|split; [reflexivity|discriminate]].
  intros b. cbn. intuition discriminate.
Qed.
Print Assumptions C19_kept_handle_refuted.

(* C20 *)
Theorem C20_problem_objective_index : forall n i,
  problem_normalize_obj_index n (Some i) = match py_index n i with Some k => Ok (Z.of_nat k) | None => Err IndexError end.
Proof. exact problem_normalize_ok. Qed.
Print Assumptions C20_problem_objective_index.
Theorem C20_row_index : forall n i,
  normalize_row_index n i = match py_index n i with Some k => Ok (Z.of_nat k) | None => Err IndexError end.
Proof. exact normalize_row_ok. Qed.
Print Assumptions C20_row_index.
Theorem C20_batch_objective_index_partial : forall n i, i <> Z.of_nat n ->
  normalize_obj_index n i = match py_index n i with Some k => Ok (Z.of_nat k) | None => Err IndexError end.
Proof. exact batch_normalize_ok. Qed.
Print Assumptions C20_batch_objective_index_partial.
Theorem C20_batch_objective_index_refuted : forall n,
  normalize_obj_index n (Z.of_nat n) = Ok (Z.of_nat n) /\ py_index n (Z.of_nat n) = None.
Proof. exact batch_normalize_off. Qed.
Print Assumptions C20_batch_objective_index_refuted.
Theorem C20_solution_index_partial : forall (V : Type) (b : batch V) i, wf b -> i <> Z.of_nat (b_len b) ->
  match py_index (b_len b) i with
  | Some k => exists s v e, solution b i = Ok s /\ rows s = [(v, e)] /\ nth_error (rows b) k = Some (v, e)
  | None => solution b i = Err IndexError
  end.
Proof. exact @solution_ok. Qed.
Print Assumptions C20_solution_index_partial.
(* batch[len(batch)] succeeds with a Solution that has no row *)
Theorem C20_solution_index_refuted : forall (V : Type) (b : batch V),
  exists s, solution b (Z.of_nat (b_len b)) = Ok s /\ rows s = [] /\ py_index (b_len b) (Z.of_nat (b_len b)) = None.
Proof. exact @solution_off. Qed.
Print Assumptions C20_solution_index_refuted.
Example C20_example :
  py_index 3 (-1)%Z = Some 2 /\ py_index 3 2%Z = Some 2 /\ py_index 3 3%Z = None /\ py_index 3 (-4)%Z = None /\
  rmap b_vals (solution exb (-4)%Z) = Ok [10] /\ rmap b_vals (solution exb 4%Z) = Ok [] /\
  access_evals (mkBatch [7] [[Fin 1; Fin 55]] [true] 1) 1%Z = Ok [Fin 55].
Proof. repeat split. Qed.

(* C65 *)
Theorem C65_nan_status_refuted : forall (V : Type) d (b : batch V) r,
  wf b -> b_desc b = [d] -> In r (rows b) -> score 0 r = NaN ->
  snd (get_best_and_worst [d] None b) = Err AttributeError.
Proof. exact @nan_breaks_status. Qed.
Print Assumptions C65_nan_status_refuted.
Theorem C65_nan_taken_first_refuted : forall (V : Type) sorter (b : batch V) j r, argsort_ok sorter -> wf b ->
  nth_error (b_desc b) j = Some true -> In r (rows b) -> score j r = NaN ->
  exists b' s, take_best sorter b 1 (Some (Z.of_nat j)) = Ok b' /\ rows b' = [s] /\ score j s = NaN.
Proof. exact @nan_first_when_max. Qed.
Print Assumptions C65_nan_taken_first_refuted.
Theorem C65_minimisation_partial : forall (V : Type) sorter (b : batch V) j n, argsort_ok sorter -> wf b ->
  nth_error (b_desc b) j = Some false ->
  exists b' rest, take_best sorter b n (Some (Z.of_nat j)) = Ok b' /\
    Permutation (rows b' ++ rest) (rows b) /\
    (forall x y, In x (rows b') -> In y rest -> score j x = NaN -> score j y = NaN).
Proof. exact @nan_last_when_min. Qed.
Print Assumptions C65_minimisation_partial.
Definition exnan (d : bool) : batch nat := mkBatch [1; 2; 3] [[Fin 4]; [NaN]; [Fin 6]] [d] 0.
Example C65_example :
  wf (exnan true) /\ rmap b_vals (take_best stable_argsort (exnan true) 1 None) = Ok [2] /\
  rmap b_vals (take_best stable_argsort (exnan false) 2 None) = Ok [1; 3] /\
  snd (get_best_and_worst [true] None (exnan true)) = Err AttributeError.
Proof. split; [split; [reflexivity|repeat constructor]|]. repeat split. Qed.

(* C66 *)
Theorem C66_set_evals_writes : forall (V : Type) (b : batch V) rows_ ncols data idx b',
  wf b -> NoDup idx -> Forall (fun i => i < b_len b) idx -> Forall (fun r => length r = ncols) rows_ ->
  set_evals b (E2 rows_ ncols) (option_map (fun d => Some (d, b_ndata b)) data) idx = Ok b' ->
  b_vals b' = b_vals b /\ b_desc b' = b_desc b /\
  (forall k i, nth_error idx k = Some i -> nth_error (b_ev b') i = Some (stored (num_objs b) (b_ndata b) rows_ data k)) /\
  (forall i, ~ In i idx -> nth_error (b_ev b') i = nth_error (b_ev b) i).
Proof. exact @set_evals_ok. Qed.
Print Assumptions C66_set_evals_writes.
Theorem C66_set_evals_accepts : forall (V : Type) (b : batch V) rows_ ncols data idx,
  (exists b', set_evals b (E2 rows_ ncols) data idx = Ok b') <->
  length rows_ = length idx /\
  (match data with
   | None => ncols = num_objs b \/ ncols = eval_width b
   | Some None => False
   | Some (Some (d, dc)) => dc = b_ndata b /\ ncols = num_objs b /\ length d = length rows_
   end).
Proof. exact @set_evals_accepts. Qed.
Print Assumptions C66_set_evals_accepts.
Theorem C66_forget_evals : forall (V : Type) (b : batch V) idx i,
  wf b -> NoDup idx -> In i idx -> i < b_len b -> num_objs b <> 0 -> is_evaluated (forget_evals b idx) i = false.
Proof. exact @forget_not_evaluated. Qed.
Print Assumptions C66_forget_evals.
(* a solution counts as evaluated when none of its fitnesses is missing, whatever its extra evaluation data *)
Theorem C66_is_evaluated : forall (V : Type) (b : batch V) i v e, nth_error (rows b) i = Some (v, e) ->
  (is_evaluated b i = true <-> forall j x, j < num_objs b -> nth_error e j = Some x -> is_nan x = false).
Proof.
  intros V b i v e R. unfold is_evaluated. assert (E : nth i (b_ev b) [] = e).
  { apply nth_error_nth. revert R. unfold rows. generalize (b_ev b). revert i. induction (b_vals b) as [|x l IH]; intros i [|y l'] R; destruct i; try discriminate; cbn in *; [congruence|eauto]. }
  rewrite E. rewrite negb_true_iff. split.
  - intros H j x J N. destruct (is_nan x) eqn:X; [|reflexivity]. exfalso. assert (K : existsb is_nan (firstn (num_objs b) e) = true); [|congruence].
    apply existsb_exists. exists x. split; [|exact X]. apply nth_error_In with j. rewrite <- (firstn_skipn (num_objs b) e) in N. rewrite nth_error_app1 in N; [exact N|].
    assert (j < length e) by (apply nth_error_Some; rewrite <- (firstn_skipn (num_objs b) e); congruence). rewrite firstn_length. lia.
  - intros H. destruct (existsb _ _) eqn:X; [|reflexivity]. apply existsb_exists in X. destruct X as (x & I & N). apply In_nth_error in I. destruct I as (j & J).
    assert (L : j < length (firstn (num_objs b) e)) by (apply nth_error_Some; congruence). pose proof L as L2. rewrite firstn_length in L2.
    rewrite <- N. apply (H j); [lia|]. rewrite <- (firstn_skipn (num_objs b) e). rewrite nth_error_app1; auto.
Qed.
Print Assumptions C66_is_evaluated.
Definition exd : batch nat := mkBatch [1; 2; 3] [[Fin 4; Fin 0]; [NaN; NaN]; [Fin 6; Fin 0]] [true] 1.
Example C66_example :
  wf exd /\
  rmap b_ev (set_evals exd (E1 [Fin 8; Fin 9]) None [2; 1]) = Ok [[Fin 4; Fin 0]; [Fin 9; NaN]; [Fin 8; NaN]] /\
  rmap b_ev (set_evals exd (E2 [[Fin 8]; [Fin 9]] 1) (Some (Some ([[Fin 1]; [Fin 2]], 1))) [2; 1]) =
    Ok [[Fin 4; Fin 0]; [Fin 9; Fin 2]; [Fin 8; Fin 1]] /\
  set_evals exd (E2 [[Fin 8]; [Fin 9]] 1) None [0] = Err ValueError /\
  is_evaluated exd 0 = true /\ is_evaluated (mkBatch [1] [[Fin 4; NaN]] [true] 1) 0 = true /\ is_evaluated (forget_evals exd [0]) 0 = false.
Proof. split; [split; [reflexivity|repeat constructor]|]. repeat split. Qed.

(* C67 *)
Theorem C67_utility_order : forall (V : Type) (b : batch V) j d,
  wf b -> nth_error (b_desc b) j = Some d -> no_nan_col b j ->
  exists us, utility b true (Z.of_nat j) = Ok us /\ length us = b_len b /\
    forall i k ri rk ui uk, nth_error (rows b) i = Some ri -> nth_error (rows b) k = Some rk ->
      nth_error us i = Some ui -> nth_error us k = Some uk ->
      (lt_fl ui uk <-> better d (score j rk) (score j ri)).
Proof. exact @utility_order. Qed.
Print Assumptions C67_utility_order.
Example C67_example : utility exb true 0%Z = Ok [Fin (-5); Fin (-2); PInf; Fin (-2)] /\
  utility (exnan true) true 0%Z = Err ValueError.
Proof. split; reflexivity. Qed.

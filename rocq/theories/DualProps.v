(* C206: minimizing a fitness is maximizing its negation. *)
From Coq Require Import QArith Reals Lra Sorted Permutation.
From Verif Require Import Prelude FloatLib SortLib BatchModel ParetoModel RankModel OperModel GaModel MapModel.
Close Scope R_scope.
Close Scope Q_scope.
Open Scope nat_scope.

(* ---- spec ---- *)
(* F says which objectives are turned: their fitnesses are negated and their senses swapped; extra data are kept *)
Definition turn (f : bool) (x : fl) : fl := if f then fneg x else x.
Definition turned_row (F : list bool) (row : list fl) : list fl := map2 turn F row ++ skipn (length F) row.
Definition turned_senses (F senses : list bool) : list bool := map2 xorb F senses.
Definition turned {V} (F : list bool) (b : batch V) : batch V := mkBatch (b_vals b) (map (turned_row F) (b_ev b)) (turned_senses F (b_desc b)) (b_ndata b).
Definition turned_state {V} (F : list bool) (s : state V) : state V := mkSt (turned F (s_pop s)) (s_first s) (s_clock s).
Definition turned_sol {V} (F : list bool) (s : @sol V) : @sol V := (fst s, turned_row F (snd s)).
Definition turned_track {V} (F : list bool) (f : bool) (t : track V) : track V :=
  mkTrack (turn f (t_be t)) (option_map (turned_sol F) (t_best t)) (turn f (t_we t)) (option_map (turned_sol F) (t_worst t)).
Definition turned_status {V} (F : list bool) (s : status V) : status V :=
  match s with
  | One b w be we => One (turned_sol F b) (turned_sol F w) (turn (nth 0 F false) be) (turn (nth 0 F false) we)
  | Many bs ws => Many (map (option_map (turned_sol F)) bs) (map (option_map (turned_sol F)) ws)
  end.
(* sorting numbers in the one direction is sorting their negations in the other (also where they are equal) *)
Definition two_way (sorter : bool -> list fl -> list nat) : Prop := forall d c, existsb is_nan c = false -> sorter (negb d) (map fneg c) = sorter d c.
(* argmax is argmin of the negations *)
Definition two_way_pick (pick : bool -> list fl -> nat) : Prop := forall d c, pick (negb d) (map fneg c) = pick d c.
(* every fitness is a number *)
Definition numbers {V} (b : batch V) : Prop := Forall (fun r => forall j, j < num_objs b -> is_nan (nth j r NaN) = false) (b_ev b).
Definition numeric {V} (m : nat) (ev : nat -> list V -> list (list fl)) : Prop := forall k vs, Forall (fun r => forall j, j < m -> is_nan (nth j r NaN) = false) (ev k vs).
(* an operator which treats a problem and the turned one alike *)
Definition blind {V} (F : list bool) (f : nat -> batch V -> result (batch V)) : Prop :=
  forall k b, num_objs b = length F -> f k (turned F b) = rmap (turned F) (f k b) /\ (forall b', f k b = Ok b' -> b_desc b' = b_desc b).
Definition blind_op {V} (F : list bool) (op : operator V) : Prop := match op with Copying _ f => blind F f | InPlace f => blind F f | Func _ => True end.
(* a genetic algorithm never sorts solutions without fitnesses: they have them from the start, or get them before *)
Definition prepared {V} (cf : config) (s : state V) : Prop :=
  numbers (s_pop s) \/ (s_first s = true /\ (g_elitist cf = true \/ g_reeval cf = false \/ g_first cf = true)).

(* ---- proofs: numbers ---- *)
Lemma fneg_fneg x : fneg (fneg x) = x.
Proof. destruct x; cbn; auto. rewrite Z.opp_involutive. auto. Qed.
Lemma nan_neg x : is_nan (fneg x) = is_nan x. Proof. destruct x; auto. Qed.
Lemma nan_turn f x : is_nan (turn f x) = is_nan x. Proof. destruct f; auto. apply nan_neg. Qed.
Lemma flt_neg a b : flt (fneg a) (fneg b) = flt b a. Proof. destruct a, b; cbn; auto. lia. Qed.
Lemma turn_nan f : turn f NaN = NaN. Proof. destruct f; auto. Qed.
Lemma turned_nth F row j : nth j (turned_row F row) NaN = turn (nth j F false) (nth j row NaN).
Proof.
  revert row j. induction F as [|f F IH]; intros row j; [unfold turned_row; cbn; destruct j; reflexivity|].
  destruct row as [|x row]; [unfold turned_row; cbn; destruct j; rewrite turn_nan; reflexivity|]. unfold turned_row in *. cbn. destruct j; auto.
Qed.
Lemma turned_first F row n : n = length F -> firstn n (turned_row F row) = map2 turn F (firstn n row).
Proof. intros ->. revert row. induction F as [|f F IH]; intros row; [reflexivity|]. destruct row as [|x row]; [reflexivity|]. unfold turned_row in *. cbn. rewrite IH. reflexivity. Qed.
Lemma turned_blank F n : turned_row F (repeat NaN n) = repeat NaN n.
Proof. revert n. induction F as [|f F IH]; intros n; [reflexivity|]. destruct n as [|n]; [reflexivity|]. unfold turned_row in *. cbn. rewrite IH, turn_nan. reflexivity. Qed.
Lemma map2_length {A B C} (h : A -> B -> C) a b : length a = length b -> length (map2 h a b) = length a.
Proof. revert b. induction a; intros [|y b] E; cbn in *; auto; discriminate. Qed.
Lemma map2_nth_error {A B C} (h : A -> B -> C) a b i : nth_error (map2 h a b) i = match nth_error a i, nth_error b i with Some x, Some y => Some (h x y) | _, _ => None end.
Proof. revert b i. induction a as [|x a IH]; intros [|y b] [|i]; cbn; auto. destruct (nth_error a i); auto. Qed.
Lemma nans_turned f c : existsb is_nan (map (turn f) c) = existsb is_nan c.
Proof. induction c as [|x c IH]; cbn; auto. rewrite IH, nan_turn. reflexivity. Qed.
Lemma beats_neg m x y : beats (negb m) (fneg x) (fneg y) = beats m x y.
Proof. unfold beats. rewrite !nan_neg. destruct m; cbn [negb]; rewrite flt_neg; reflexivity. Qed.
Lemma argext_neg m c : argext (negb m) (map fneg c) = argext m c.
Proof.
  destruct c as [|x c]; [reflexivity|]. cbn. f_equal. generalize 0 at 1 3. generalize 1. revert x. induction c as [|y c IH]; intros x i best; [reflexivity|]. cbn [map argext_from]. rewrite beats_neg, !IH. reflexivity.
Qed.
Lemma argext_turn f m c : argext (xorb f m) (map (turn f) c) = argext m c.
Proof. destruct f; [change (xorb true m) with (negb m); apply argext_neg|]. replace (xorb false m) with m by (destruct m; reflexivity). unfold turn. rewrite map_id. reflexivity. Qed.
Lemma gather_map {A B} (h : A -> B) l idx : gather (map h l) idx = rmap (map h) (gather l idx).
Proof.
  unfold gather. induction idx as [|i idx IH]; [reflexivity|]. cbn [map sequence]. rewrite nth_error_map. destruct (nth_error l i) as [x|]; [|reflexivity]. cbn [option_map]. unfold gather in IH.
  rewrite IH. clear IH. destruct (sequence (map (fun i => match nth_error l i with Some x => Ok x | None => Err IndexError end) idx)); reflexivity.
Qed.
Lemma gather_forall {A} (P : A -> Prop) l idx r : Forall P l -> gather l idx = Ok r -> Forall P r.
Proof.
  intros F. revert r. unfold gather. induction idx as [|i idx IH]; intros r; cbn [map sequence]; [intros E; injection E as <-; constructor|].
  destruct (nth_error l i) as [x|] eqn:E; [|discriminate]. destruct (sequence _) as [q|]; [|discriminate]. intros H. injection H as <-. constructor; [|apply IH; auto]. rewrite Forall_forall in F. apply F. eapply nth_error_In; eauto.
Qed.

(* ---- proofs: batches ---- *)
Section DUAL.
Context {V : Type}.
Variables (sorter : bool -> list fl -> list nat) (F : list bool).
Hypothesis Two : two_way sorter.
Notation ok b := (num_objs b = length F).
Lemma turned_objs (b : batch V) : ok b -> num_objs (turned F b) = num_objs b.
Proof using. clear Two sorter. intros E. unfold num_objs in *. cbn. unfold turned_senses. rewrite map2_length; auto. Qed.
Lemma turned_width (b : batch V) : ok b -> eval_width (turned F b) = eval_width b.
Proof using. clear Two sorter. intros E. unfold eval_width. rewrite turned_objs by auto. reflexivity. Qed.
Lemma column_turned (b : batch V) j : ok b -> column (turned F b) j = rmap (map (turn (nth (Z.to_nat j) F false))) (column b j).
Proof using.
  clear Two sorter. intros E. unfold column. rewrite turned_width by auto. destruct (_ && _)%bool; [|reflexivity]. cbn. f_equal. rewrite !map_map. apply map_ext. intros. apply turned_nth.
Qed.
Lemma descending_turned (b : batch V) j : ok b -> descending (turned F b) j = rmap (xorb (nth (Z.to_nat j) F false)) (descending b j).
Proof using.
  clear Two sorter. intros E. unfold descending. cbn [b_desc turned]. unfold turned_senses. rewrite map2_nth_error. destruct (nth_error (b_desc b) (Z.to_nat j)) as [d|] eqn:D.
  - destruct (nth_error F (Z.to_nat j)) as [f|] eqn:Ef; [rewrite (nth_error_nth _ _ false Ef); reflexivity|]. apply nth_error_None in Ef. assert (Z.to_nat j < length (b_desc b)) by (apply nth_error_Some; congruence). unfold num_objs in E. lia.
  - destruct (nth_error F (Z.to_nat j)); reflexivity.
Qed.
Lemma sort_turned f d c : existsb is_nan c = false -> sorter (xorb f d) (map (turn f) c) = sorter d c.
Proof. intros N. destruct f; [change (xorb true d) with (negb d); apply Two; auto|]. replace (xorb false d) with d by (destruct d; reflexivity). unfold turn. rewrite map_id. reflexivity. Qed.
Lemma numbers_column (b : batch V) j d c : numbers b -> descending b j = Ok d -> column b j = Ok c -> existsb is_nan c = false.
Proof using.
  clear Two sorter F. intros N D C. unfold descending in D. destruct (nth_error (b_desc b) (Z.to_nat j)) eqn:E; [|discriminate]. assert (L : Z.to_nat j < num_objs b) by (apply nth_error_Some; congruence).
  unfold column in C. destruct (_ && _)%bool; [|discriminate]. injection C as <-. unfold numbers in N. induction N as [|r l H _ IH]; [reflexivity|]. cbn. rewrite H by auto. exact IH.
Qed.
Lemma argsort_turned (b : batch V) oi : ok b -> numbers b -> argsort sorter (turned F b) oi = argsort sorter b oi.
Proof.
  intros E N. unfold argsort. rewrite turned_objs by auto. destruct (optionally_get_obj_index (num_objs b) oi) as [j|]; [|reflexivity]. cbn [bind]. rewrite descending_turned, column_turned by auto.
  destruct (descending b j) as [d|] eqn:D; [|reflexivity]. cbn [rmap bind]. destruct (column b j) as [c|] eqn:C; [|reflexivity]. cbn [rmap bind]. f_equal. apply sort_turned. eapply numbers_column; eauto.
Qed.
Lemma argbest_turned (b : batch V) oi : ok b -> argbest (turned F b) oi = argbest b oi /\ argworst (turned F b) oi = argworst b oi.
Proof using.
  clear Two sorter. intros E. unfold argbest, argworst. rewrite turned_objs by auto. destruct (optionally_get_obj_index (num_objs b) oi) as [j|]; [|split; reflexivity]. cbn [bind]. rewrite descending_turned, column_turned by auto.
  destruct (descending b j) as [d|]; [|split; reflexivity]. cbn [rmap bind]. destruct (column b j) as [c|]; [|split; reflexivity]. cbn [rmap bind]. set (f := nth (Z.to_nat j) F false). 
  assert (A : forall m, argext (xorb f m) (map (turn f) c) = argext m c) by (intros; apply argext_turn).
  split; [rewrite <- (A true), <- (A false)|rewrite <- (A true), <- (A false)]; destruct f, d; reflexivity.
Qed.
Lemma take_turned (b : batch V) idx : take (turned F b) idx = rmap (turned F) (take b idx).
Proof using.
  clear Two sorter. unfold take. cbn [b_vals b_ev b_desc b_ndata turned]. rewrite gather_map. destruct (gather (b_vals b) idx); [|reflexivity]. cbn [bind]. destruct (gather (b_ev b) idx); reflexivity.
Qed.
Lemma take_desc (b b' : batch V) idx : take b idx = Ok b' -> b_desc b' = b_desc b /\ (numbers b -> numbers b').
Proof using.
  clear Two sorter F. unfold take. destruct (gather (b_vals b) idx); [|discriminate]. cbn [bind]. destruct (gather (b_ev b) idx) as [es|] eqn:G; [|discriminate]. intros E. injection E as <-. split; [reflexivity|].
  intros N. unfold numbers, num_objs. cbn. eapply gather_forall; eauto.
Qed.
Lemma utils_turned (b : batch V) : ok b -> utils (turned F b) = utils b.
Proof using.
  clear Two sorter. intros E. unfold utils. rewrite turned_objs by auto. cbn [b_ev b_desc turned].
  assert (N : existsb (fun r => existsb is_nan (firstn (num_objs b) r)) (map (turned_row F) (b_ev b)) = existsb (fun r => existsb is_nan (firstn (num_objs b) r)) (b_ev b)).
  { induction (b_ev b) as [|r l IH]; cbn; auto. rewrite IH. f_equal. rewrite turned_first by auto. rewrite E. clear. revert r. induction F as [|f F' IH]; intros r; [reflexivity|]. destruct r as [|x r]; [reflexivity|]. cbn. rewrite IH, nan_turn. reflexivity. }
  rewrite N. clear N. destruct (existsb _ (b_ev b)); [reflexivity|]. f_equal. rewrite map_map. apply map_ext. intros r. rewrite turned_first by auto. unfold turned_senses.
  unfold num_objs in *. set (m := length (b_desc b)) in *. assert (Lr : forall ds row, length ds = length F -> map2 (fun d x => if d : bool then x else fneg x) (map2 xorb F ds) (map2 turn F row) = map2 (fun d x => if d : bool then x else fneg x) ds row).
  { clear. induction F as [|f F' IH]; intros [|d ds] row L; try discriminate; [reflexivity|]. destruct row as [|x row]; [reflexivity|]. cbn [map2]. rewrite IH by (injection L; auto). f_equal. destruct f, d; cbn; auto using fneg_fneg. }
  apply Lr. auto.
Qed.
Lemma centered_turned (b : batch V) oi : ok b -> centered_utility sorter (turned F b) oi = centered_utility sorter b oi.
Proof.
  intros E. unfold centered_utility. rewrite turned_objs by auto. destruct (match oi with Some i => normalize_obj_index (num_objs b) i | None => Ok 0%Z end) as [j|]; [|reflexivity]. cbn [bind].
  rewrite column_turned, descending_turned by auto. destruct (column b j) as [c|]; [|reflexivity]. cbn [rmap bind]. destruct (descending b j) as [d|]; [|reflexivity]. cbn [rmap bind]. rewrite nans_turned. destruct (existsb is_nan c) eqn:N; [reflexivity|].
  f_equal. unfold centered. rewrite map_length. replace (negb (xorb (nth (Z.to_nat j) F false) d)) with (xorb (nth (Z.to_nat j) F false) (negb d)) by (destruct (nth _ _ _), d; reflexivity). rewrite sort_turned by auto. reflexivity.
Qed.
Lemma tournament_turned co cx (b : batch V) noise draw : ok b -> do_tournament sorter co cx (turned F b) noise draw = do_tournament sorter co cx b noise draw.
Proof.
  intros E. unfold do_tournament. change (b_len (turned F b)) with (b_len b). assert (C : candidate_ranks sorter co cx (turned F b) noise = candidate_ranks sorter co cx b noise).
  { unfold candidate_ranks. unfold batch_pareto_ranks. rewrite turned_objs, utils_turned, centered_turned by auto. reflexivity. }
  rewrite C. reflexivity.
Qed.
Lemma fresh_turned (b : batch V) vs : ok b -> fresh (turned F b) vs = turned F (fresh b vs).
Proof using. clear Two sorter. intros E. unfold fresh. rewrite turned_width by auto. unfold turned. cbn. f_equal. rewrite map_map. apply map_ext. intros. rewrite turned_blank. reflexivity. Qed.
Lemma crossover_turned co cross cx (b : batch V) noise draw : ok b -> crossover_do sorter co cross cx (turned F b) noise draw = rmap (turned F) (crossover_do sorter co cross cx b noise draw).
Proof.
  intros E. unfold crossover_do. rewrite tournament_turned by auto. destruct (do_tournament sorter co cx b noise draw) as [ps|]; [|reflexivity]. cbn [bind]. destruct (negb _); [reflexivity|]. destruct (cross (fst ps) (snd ps)) as [vs|]; [|reflexivity]. cbn [rmap]. f_equal.
  apply (fresh_turned b vs E).
Qed.

(* ---- proofs: generations ---- *)
Variables (co : list (list fl) -> list nat) (qs : list Q -> list nat) (ev ev' : nat -> list V -> list (list fl)).
Hypothesis Ev : forall k vs, ev' k vs = map (turned_row F) (ev k vs).
Lemma best_turned (b : batch V) n : ok b -> (num_objs b < 2 -> numbers b) -> best_of sorter co qs (turned F b) n = rmap (turned F) (best_of sorter co qs b n) /\
  (forall b', best_of sorter co qs b n = Ok b' -> b_desc b' = b_desc b /\ (numbers b -> numbers b')).
Proof.
  intros E N. unfold best_of. rewrite turned_objs by auto. destruct (2 <=? num_objs b) eqn:M.
  - unfold take_best_multi, batch_pareto_ranks. rewrite utils_turned by auto. destruct (utils b) as [us|]; [|split; [reflexivity|discriminate]]. cbn [bind]. destruct (compute_pareto_ranks co us true) as [rc|]; [|split; [reflexivity|discriminate]]. cbn [bind].
    change (b_len (turned F b)) with (b_len b). split; [apply take_turned|]. intros b' T. eapply take_desc; eauto.
  - apply Nat.leb_gt in M. unfold take_best. rewrite argsort_turned by auto. destruct (argsort sorter b None) as [idx|]; [|split; [reflexivity|discriminate]]. cbn [bind]. split; [apply take_turned|]. intros b' T. eapply take_desc; eauto.
Qed.
Lemma evaluate_turned k (b : batch V) : evaluate ev' k (turned F b) = rmap (turned F) (evaluate ev k b) /\ (forall b', evaluate ev k b = Ok b' -> b_desc b' = b_desc b /\ (numeric (num_objs b) ev -> numbers b')).
Proof using Ev.
  clear Two sorter. unfold evaluate. cbn [b_vals turned]. destruct (b_vals b) as [|v vs]; [split; [reflexivity|discriminate]|]. split.
  - cbn [rmap b_desc b_ndata turned]. unfold turned. cbn [b_vals b_ev b_desc b_ndata]. rewrite Ev. reflexivity.
  - intros b' E. injection E as <-. split; [reflexivity|]. intros N. apply N.
Qed.
Lemma operators_turned ops : Forall (blind_op F) ops -> forall k (b : batch V), ok b ->
  use_operators k (turned F b) ops = rmap (turned F) (use_operators k b ops) /\ (forall b', use_operators k b ops = Ok b' -> b_desc b' = b_desc b).
Proof using.
  clear Two sorter co qs ev ev' Ev. intros Fo. induction Fo as [|op ops H Fo IH]; intros k b L; cbn [use_operators].
  - split; [reflexivity|]. intros b' E. injection E as <-. reflexivity.
  - assert (Q : use_operator k (turned F b) op = rmap (turned F) (use_operator k b op) /\ (forall b', use_operator k b op = Ok b' -> b_desc b' = b_desc b)).
    { destruct op as [c f|f|f]; cbn [use_operator blind_op] in *; [apply H; auto|apply H; auto|]. change (b_vals (turned F b)) with (b_vals b). destruct (f k (b_vals b)) as [vs|]; [|split; [reflexivity|discriminate]]. cbn [rmap]. split.
      - f_equal. apply fresh_turned. auto.
      - intros b' E. injection E as <-. reflexivity. }
    destruct Q as [Q1 Q2]. rewrite Q1. destruct (use_operator k b op) as [b1|]; [|split; [reflexivity|discriminate]]. cbn [rmap bind]. specialize (Q2 b1 eq_refl). destruct (IH (S k) b1) as [I1 I2]; [unfold num_objs in *; rewrite Q2; auto|]. split; [exact I1|].
    intros b' E. rewrite (I2 b' E). auto.
Qed.
Lemma cat_turned (a b : batch V) : cat (turned F a) (turned F b) = turned F (cat a b).
Proof using. clear. unfold cat, turned. cbn. rewrite map_app. reflexivity. Qed.
Lemma head_turned (b : batch V) n : head (turned F b) n = turned F (head b n).
Proof using. clear. unfold head, turned. cbn. rewrite firstn_map. reflexivity. Qed.
Lemma tail_turned (b : batch V) n : tail (turned F b) n = turned F (tail b n).
Proof using. clear. unfold tail, turned. cbn. rewrite skipn_map. reflexivity. Qed.
Lemma numbers_cat (a b : batch V) : b_desc b = b_desc a -> numbers a -> numbers b -> numbers (cat a b).
Proof using. clear. intros D A B. unfold numbers, num_objs in *. cbn. rewrite D in B. apply Forall_app. auto. Qed.
Lemma numbers_head (b : batch V) n : numbers b -> numbers (head b n).
Proof using. clear. intros N. unfold numbers, num_objs in *. cbn. apply Forall_forall. rewrite Forall_forall in N. intros r I. apply N. rewrite <- (firstn_skipn n). apply in_or_app. auto. Qed.
Lemma numbers_tail (b : batch V) n : numbers b -> numbers (tail b n).
Proof using. clear. intros N. unfold numbers, num_objs in *. cbn. apply Forall_forall. rewrite Forall_forall in N. intros r I. apply N. rewrite <- (firstn_skipn n). apply in_or_app. auto. Qed.
Definition turned_extended (e : state V * batch V * batch V) : state V * batch V * batch V := let '(s, p, c) := e in (turned_state F s, turned F p, turned F c).
Lemma extended_turned cf ops s : Forall (blind_op F) ops -> ok (s_pop s) ->
  extended ev' cf ops (turned_state F s) = rmap turned_extended (extended ev cf ops s) /\
  (forall s' p c, extended ev cf ops s = Ok (s', p, c) -> b_desc (s_pop s') = b_desc (s_pop s) /\ b_desc p = b_desc (s_pop s) /\ b_desc c = b_desc (s_pop s) /\
     (numeric (length F) ev -> numbers c /\ (prepared cf s -> numbers p /\ (g_elitist cf = true \/ numbers (s_pop s'))))).
Proof using Ev.
  clear Two sorter co qs. intros Fo L. unfold extended. cbn [s_pop s_first s_clock turned_state]. set (k := s_clock s). set (n := length ops).
  assert (D : forall b b' : batch V, b_desc b' = b_desc b -> ok b -> ok b') by (intros b b' E; unfold num_objs; rewrite E; auto).
  assert (First : forall (r : result (batch V)) r', r' = rmap (turned F) r -> (forall b, r = Ok b -> b_desc b = b_desc (s_pop s) /\ (numeric (length F) ev -> prepared cf s -> numbers b)) ->
    bind r' (fun pop => bind (use_operators (k + 1) pop ops) (fun children => bind (evaluate ev' (k + 1 + n) children) (fun children' => Ok (mkSt pop false (k + n + 2), pop, children')))) =
    rmap turned_extended (bind r (fun pop => bind (use_operators (k + 1) pop ops) (fun children => bind (evaluate ev (k + 1 + n) children) (fun children' => Ok (mkSt pop false (k + n + 2), pop, children'))))) /\
    (forall s' p c, bind r (fun pop => bind (use_operators (k + 1) pop ops) (fun children => bind (evaluate ev (k + 1 + n) children) (fun children' => Ok (mkSt pop false (k + n + 2), pop, children')))) = Ok (s', p, c) ->
       b_desc (s_pop s') = b_desc (s_pop s) /\ b_desc p = b_desc (s_pop s) /\ b_desc c = b_desc (s_pop s) /\ (numeric (length F) ev -> numbers c /\ (prepared cf s -> numbers p /\ (g_elitist cf = true \/ numbers (s_pop s')))))).
  { intros r r' -> R. destruct r as [pop|]; [|split; [reflexivity|discriminate]]. cbn [rmap bind]. destruct (R pop eq_refl) as [R1 R2]. assert (Rk : ok pop) by (apply (D (s_pop s)); auto).
    destruct (operators_turned ops Fo (k + 1) pop Rk) as [O1 O2]. rewrite O1. destruct (use_operators (k + 1) pop ops) as [ch|]; [|split; [reflexivity|discriminate]]. cbn [rmap bind]. specialize (O2 ch eq_refl).
    destruct (evaluate_turned (k + 1 + n) ch) as [E1 E2]. rewrite E1. destruct (evaluate ev (k + 1 + n) ch) as [ch'|]; [|split; [reflexivity|discriminate]]. cbn [rmap bind]. destruct (E2 ch' eq_refl) as [E3 E4].
    split; [reflexivity|]. intros s' p c E. injection E as <- <- <-. cbn [s_pop]. split; [exact R1|]. split; [exact R1|]. split; [congruence|]. intros N. split; [apply E4; unfold num_objs; rewrite O2; fold (num_objs pop); rewrite Rk; auto|]. intros P. auto. }
  destruct (g_reeval cf) eqn:Er.
  - destruct (g_first cf) eqn:Ef.
    + destruct (evaluate_turned k (s_pop s)) as [E1 E2]. apply First; auto. intros b E. destruct (E2 b E) as [E3 E4]. split; auto. intros N _. apply E4. rewrite L. auto.
    + destruct (operators_turned ops Fo k (s_pop s) L) as [O1 O2]. rewrite O1. destruct (use_operators k (s_pop s) ops) as [ch|]; [|split; [reflexivity|discriminate]]. cbn [rmap bind]. specialize (O2 ch eq_refl).
      rewrite cat_turned. destruct (evaluate_turned (k + n) (cat (s_pop s) ch)) as [E1 E2]. rewrite E1. destruct (evaluate ev (k + n) (cat (s_pop s) ch)) as [w|]; [|split; [reflexivity|discriminate]]. cbn [rmap bind]. destruct (E2 w eq_refl) as [E3 E4].
      split.
      * unfold turned_extended. change (b_len (turned F (s_pop s))) with (b_len (s_pop s)). rewrite head_turned, tail_turned. reflexivity.
      * intros s' p c E. injection E as <- <- <-. cbn [s_pop]. do 3 (split; [solve [auto]|]). intros N. assert (W : numbers w) by (apply E4; unfold num_objs in *; cbn; rewrite L; auto). split; [apply numbers_tail; auto|]. intros P. split; [apply numbers_head; auto|].
        destruct P as [P|[_ [P|[P|P]]]]; auto; congruence.
  - destruct (s_first s) eqn:Es.
    + destruct (evaluate_turned k (s_pop s)) as [E1 E2]. apply First; auto. intros b E. destruct (E2 b E) as [E3 E4]. split; auto. intros N _. apply E4. rewrite L. auto.
    + apply First; auto. intros b E. injection E as <-. split; auto. intros _ [P|[P _]]; [auto|congruence].
Qed.
Hypothesis Num : numeric (length F) ev.
Lemma ga_step_turned cf ops s : Forall (blind_op F) ops -> ok (s_pop s) -> prepared cf s ->
  ga_step sorter co qs ev' cf ops (turned_state F s) = rmap (turned_state F) (ga_step sorter co qs ev cf ops s) /\ (forall s', ga_step sorter co qs ev cf ops s = Ok s' -> ok (s_pop s') /\ prepared cf s').
Proof.
  intros Fo L P. unfold ga_step. destruct (extended_turned cf ops s Fo L) as [E1 E2]. rewrite E1. destruct (extended ev cf ops s) as [[[s' p] c]|]; [|split; [reflexivity|discriminate]]. cbn [rmap bind turned_extended].
  destruct (E2 s' p c eq_refl) as (D1 & D2 & D3 & N). destruct (N Num) as (Nc & NN). destruct (NN P) as (Np & Ns). clear N NN E2.
  assert (Dk : forall b : batch V, b_desc b = b_desc (s_pop s) -> ok b) by (intros b E; unfold num_objs; rewrite E; auto).
  change (b_len (turned F c)) with (b_len c). change (s_first (turned_state F s')) with (s_first s'). change (s_clock (turned_state F s')) with (s_clock s'). change (s_pop (turned_state F s')) with (turned F (s_pop s')).
  assert (Q : forall (r r' : result (batch V)), r' = rmap (turned F) r /\ (forall b, r = Ok b -> b_desc b = b_desc (s_pop s) /\ numbers b) ->
    rmap (fun pop => mkSt pop (s_first s') (s_clock s')) r' = rmap (turned_state F) (rmap (fun pop => mkSt pop (s_first s') (s_clock s')) r) /\ (forall q, rmap (fun pop => mkSt pop (s_first s') (s_clock s')) r = Ok q -> ok (s_pop q) /\ prepared cf q)).
  { intros r r' [-> R]. destruct r as [b|]; [|split; [reflexivity|discriminate]]. split; [reflexivity|]. intros q E. injection E as <-. cbn [s_pop]. destruct (R b eq_refl) as [R1 R2]. split; [auto|left; exact R2]. }
  assert (Bst : forall (b : batch V) m, b_desc b = b_desc (s_pop s) -> numbers b -> best_of sorter co qs (turned F b) m = rmap (turned F) (best_of sorter co qs b m) /\ (forall b', best_of sorter co qs b m = Ok b' -> b_desc b' = b_desc (s_pop s) /\ numbers b')).
  { intros b m Db Nb. destruct (best_turned b m (Dk b Db) (fun _ => Nb)) as [B1 B2]. split; auto. intros b' E. destruct (B2 b' E) as [B3 B4]. split; [congruence|auto]. }
  apply Q. destruct (g_elitist cf) eqn:Ee.
  - rewrite cat_turned. apply Bst; [exact D2|]. apply numbers_cat; auto. congruence.
  - destruct Ns as [Ns|Ns]; [discriminate|]. destruct (b_len c <? g_popsize cf).
    + destruct (Bst (s_pop s') (g_popsize cf - b_len c) D1 Ns) as [B1 B2]. rewrite B1. destruct (best_of sorter co qs (s_pop s') (g_popsize cf - b_len c)) as [ch|]; [|split; [reflexivity|discriminate]]. cbn [rmap bind]. rewrite cat_turned. split; [reflexivity|].
      intros b E. injection E as <-. destruct (B2 ch eq_refl) as [B3 B4]. split; [exact B3|]. apply numbers_cat; auto. congruence.
    + destruct (Nat.eqb (b_len c) (g_popsize cf)); [|apply Bst; auto]. split; [reflexivity|]. intros b E. injection E as <-. auto.
Qed.
Lemma ga_run_turned cf ops s : Forall (blind_op F) ops -> ok (s_pop s) -> prepared cf s -> forall n,
  ga_run sorter co qs ev' cf ops n (turned_state F s) = rmap (turned_state F) (ga_run sorter co qs ev cf ops n s) /\ (forall s', ga_run sorter co qs ev cf ops n s = Ok s' -> ok (s_pop s') /\ prepared cf s').
Proof.
  intros Fo L P. induction n as [|n [IH1 IH2]]; cbn [ga_run].
  - split; [reflexivity|]. intros s' E. injection E as <-. auto.
  - rewrite IH1. destruct (ga_run sorter co qs ev cf ops n s) as [s1|]; [|split; [reflexivity|discriminate]]. cbn [rmap bind]. destruct (IH2 s1 eq_refl). apply ga_step_turned; auto.
Qed.
Lemma cosyne_step_turned popsize ne cross mut permute s : blind F cross -> (forall m, mut = Some m -> blind F m) -> blind F permute -> ok (s_pop s) -> (s_first s = true \/ numbers (s_pop s)) ->
  cosyne_step sorter co qs ev' popsize ne cross mut permute (turned_state F s) = rmap (turned_state F) (cosyne_step sorter co qs ev popsize ne cross mut permute s) /\
  (forall s', cosyne_step sorter co qs ev popsize ne cross mut permute s = Ok s' -> ok (s_pop s') /\ (s_first s' = true \/ numbers (s_pop s'))).
Proof.
  intros Fc Fm Fp L Pr. unfold cosyne_step. cbn [s_pop s_first s_clock turned_state]. set (k := s_clock s).
  assert (D : forall b b' : batch V, b_desc b' = b_desc b -> ok b -> ok b') by (intros b b' E; unfold num_objs; rewrite E; auto).
  assert (P1 : (if s_first s then evaluate ev' k (turned F (s_pop s)) else Ok (turned F (s_pop s))) = rmap (turned F) (if s_first s then evaluate ev k (s_pop s) else Ok (s_pop s)) /\ (forall b, (if s_first s then evaluate ev k (s_pop s) else Ok (s_pop s)) = Ok b -> ok b /\ numbers b)).
  { destruct (s_first s).
    - destruct (evaluate_turned k (s_pop s)) as [E1 E2]. split; auto. intros b E. destruct (E2 b E) as [E3 E4]. split; [apply (D (s_pop s)); auto|]. apply E4. rewrite L. auto.
    - split; [reflexivity|]. intros b E. injection E as <-. destruct Pr; [discriminate|auto]. }
  destruct P1 as [P1 P2]. rewrite P1. destruct (if s_first s then evaluate ev k (s_pop s) else Ok (s_pop s)) as [pop|]; [|split; [reflexivity|discriminate]]. cbn [rmap bind]. destruct (P2 pop eq_refl) as [P3 P4]. cbv zeta.
  set (nr := Z.to_nat (Z.max _ _)). destruct (best_turned pop nr P3 (fun _ => P4)) as [B1 B2]. rewrite B1. destruct (best_of sorter co qs pop nr) as [so|]; [|split; [reflexivity|discriminate]]. cbn [rmap bind]. destruct (B2 so eq_refl) as [B3 B4]. assert (Ko : ok so) by (apply (D pop); auto).
  rewrite head_turned. destruct (Fc (k + 1) (head so (popsize / 4))) as [C1 C2]; [exact Ko|]. rewrite C1. destruct (cross (k + 1) (head so (popsize / 4))) as [ch|]; [|split; [reflexivity|discriminate]]. cbn [rmap bind]. specialize (C2 ch eq_refl).
  assert (Kc : ok ch) by (apply (D (head so (popsize / 4))); auto).
  assert (M1 : match mut with Some m => m (k + 2) (turned F ch) | None => Ok (turned F ch) end = rmap (turned F) (match mut with Some m => m (k + 2) ch | None => Ok ch end) /\ (forall b, match mut with Some m => m (k + 2) ch | None => Ok ch end = Ok b -> ok b)).
  { destruct mut as [m|]; [|split; [reflexivity|intros b E; injection E as <-; auto]]. destruct (Fm m eq_refl (k + 2) ch Kc) as [Q1 Q2]. split; auto. intros b E. apply (D ch); auto. }
  destruct M1 as [M1 M2]. rewrite M1. destruct (match mut with Some m => m (k + 2) ch | None => Ok ch end) as [ch2|]; [|split; [reflexivity|discriminate]]. cbn [rmap bind]. specialize (M2 ch2 eq_refl).
  destruct (Fp (k + 3) pop P3) as [Q1 Q2]. rewrite Q1. destruct (permute (k + 3) pop) as [pm|]; [|split; [reflexivity|discriminate]]. cbn [rmap bind]. rewrite cat_turned.
  set (el := match ne with Some e => if (1 <=? e)%Z then Some (head so (Z.to_nat e)) else None | None => None end).
  assert (El : match ne with Some e => if (1 <=? e)%Z then Some (head (turned F so) (Z.to_nat e)) else None | None => None end = option_map (turned F) el).
  { unfold el. destruct ne as [e|]; [|reflexivity]. destruct (1 <=? e)%Z; [|reflexivity]. cbn. rewrite head_turned. reflexivity. }
  rewrite El. assert (W : match option_map (turned F) el with Some e => cat e (turned F (cat ch2 pm)) | None => turned F (cat ch2 pm) end = turned F (match el with Some e => cat e (cat ch2 pm) | None => cat ch2 pm end)).
  { destruct el; cbn [option_map]; [apply cat_turned|reflexivity]. }
  rewrite W. set (wh := match el with Some e => cat e (cat ch2 pm) | None => cat ch2 pm end).
  assert (Kw : ok wh) by (unfold wh, el; destruct ne as [e|]; [destruct (1 <=? e)%Z|]; [apply (D so)|apply (D ch2)|apply (D ch2)]; auto).
  destruct (evaluate_turned (k + 4) wh) as [E1 E2]. rewrite E1. destruct (evaluate ev (k + 4) wh) as [w|]; [|split; [reflexivity|discriminate]]. cbn [rmap bind]. destruct (E2 w eq_refl) as [E3 E4]. assert (Nw : numbers w) by (apply E4; rewrite Kw; auto).
  destruct (best_turned w popsize (D wh w E3 Kw) (fun _ => Nw)) as [R1 R2]. rewrite R1. destruct (best_of sorter co qs w popsize) as [r|]; [|split; [reflexivity|discriminate]]. cbn [rmap]. split; [reflexivity|]. intros s' E. injection E as <-. cbn [s_pop].
  destruct (R2 r eq_refl) as [R3 R4]. split; [apply (D wh); auto; congruence|right; auto].
Qed.
Lemma cosyne_run_turned popsize ne cross mut permute s : blind F cross -> (forall m, mut = Some m -> blind F m) -> blind F permute -> ok (s_pop s) -> (s_first s = true \/ numbers (s_pop s)) -> forall n,
  cosyne_run sorter co qs ev' popsize ne cross mut permute n (turned_state F s) = rmap (turned_state F) (cosyne_run sorter co qs ev popsize ne cross mut permute n s) /\
  (forall s', cosyne_run sorter co qs ev popsize ne cross mut permute n s = Ok s' -> ok (s_pop s') /\ (s_first s' = true \/ numbers (s_pop s'))).
Proof.
  intros Fc Fm Fp L P. induction n as [|n [IH1 IH2]]; cbn [cosyne_run].
  - split; [reflexivity|]. intros s' E. injection E as <-. auto.
  - rewrite IH1. destruct (cosyne_run sorter co qs ev popsize ne cross mut permute n s) as [s1|]; [|split; [reflexivity|discriminate]]. cbn [rmap bind]. destruct (IH2 s1 eq_refl). apply cosyne_step_turned; auto.
Qed.
End DUAL.

(* ---- proofs: MAP-Elites ---- *)
Section ELITES.
Context {V : Type}.
Variables (pick : bool -> list fl -> nat) (ev : nat -> list V -> list (list fl)).
Hypothesis Pk : two_way_pick pick.
Let F := [true].
Let ev' := fun k vs => map (turned_row F) (ev k vs).
Definition turned_best (r : V * list fl * bool) : V * list fl * bool := (fst (fst r), turned_row [true] (snd (fst r)), snd r).
Lemma suitable_turned c r : suitable c (turned_row F r) = suitable c r.
Proof using. clear. unfold suitable. assert (E : skipn 1 (turned_row F r) = skipn 1 r) by (destruct r; reflexivity). rewrite E. reflexivity. Qed.
Lemma best_cell_turned d vs es c : best_for_cell pick (negb d) vs (map (turned_row F) es) c = rmap turned_best (best_for_cell pick d vs es c).
Proof.
  unfold best_for_cell. rewrite map_map. rewrite (map_ext _ (suitable c)) by (intros; apply suitable_turned). destruct (sequence (map (suitable c) es)) as [suits|]; [|reflexivity]. cbn [bind].
  set (pr := map2 (fun (s : bool) row => if s then nth 0 row NaN else if d then NInf else PInf) suits es).
  assert (E : map2 (fun (s : bool) row => if s then nth 0 row NaN else if negb d then NInf else PInf) suits (map (turned_row F) es) = map fneg pr).
  { unfold pr. clear. revert es. induction suits as [|s suits IH]; intros [|e es]; cbn [map map2]; auto. rewrite IH. f_equal. destruct s; [rewrite turned_nth; reflexivity|destruct d; reflexivity]. }
  rewrite E. destruct pr as [|x pr']; [reflexivity|]. change (map fneg (x :: pr')) with (fneg x :: map fneg pr') at 1. cbv iota. rewrite Pk. set (i := pick d (x :: pr')). rewrite nth_error_map.
  destruct (nth_error vs i); [|reflexivity]. destruct (nth_error es i); [|reflexivity]. cbn [option_map]. destruct (nth_error suits i); reflexivity.
Qed.
Lemma sequence_rmap {A B} (h : A -> B) (l : list (result A)) : sequence (map (rmap h) l) = rmap (map h) (sequence l).
Proof using. clear. induction l as [|[x|e] l IH]; cbn [map sequence rmap]; auto. rewrite IH. destruct (sequence l); reflexivity. Qed.
Definition turned_map (s : mstate V) : mstate V := mkMap (turned_state F (m_st s)) (m_filled s).
Lemma map_step_turned cf ops grid s : Forall (blind_op F) ops -> num_objs (s_pop (m_st s)) = 1 ->
  map_step pick ev' cf ops grid (turned_map s) = rmap (fun r => (turned_map (fst r), turned F (snd r))) (map_step pick ev cf ops grid s) /\
  (forall r, map_step pick ev cf ops grid s = Ok r -> num_objs (s_pop (m_st (fst r))) = 1).
Proof.
  intros Fo L. unfold map_step. cbn [m_st turned_map]. destruct (extended_turned F ev ev' (fun _ _ => eq_refl) cf ops (m_st s) Fo L) as [E1 E2]. rewrite E1. destruct (extended ev cf ops (m_st s)) as [[[s' p] c]|]; [|split; [reflexivity|discriminate]].
  cbn [rmap bind turned_extended]. destruct (E2 s' p c eq_refl) as (_ & D2 & _ & _). rewrite cat_turned. set (pool := cat p c). assert (Dp : length (b_desc pool) = 1) by (unfold pool; cbn; rewrite D2; exact L).
  cbn [b_desc turned]. destruct (b_desc pool) as [|d [|d' ds]] eqn:Dd; try discriminate. cbn [turned_senses F map2 xorb].
  change (if d then false else true) with (negb d). cbn [b_vals b_ev turned].
  rewrite (map_ext (best_for_cell pick (negb d) (b_vals pool) (map (turned_row F) (b_ev pool))) (fun c => rmap turned_best (best_for_cell pick d (b_vals pool) (b_ev pool) c))) by (intros; apply best_cell_turned).
  rewrite <- (map_map (best_for_cell pick d (b_vals pool) (b_ev pool)) (rmap turned_best)), sequence_rmap. destruct (sequence _) as [best|]; [|split; [reflexivity|discriminate]]. cbn [rmap bind]. split.
  - f_equal. unfold turned_map, turned_state, turned. cbn [fst snd m_st m_filled s_pop s_first s_clock b_vals b_ev b_desc b_ndata]. rewrite !map_map, Dd. reflexivity.
  - intros r E. injection E as <-. reflexivity.
Qed.
Lemma map_run_turned cf ops grid s : Forall (blind_op F) ops -> num_objs (s_pop (m_st s)) = 1 -> forall n,
  map_run pick ev' cf ops grid n (turned_map s) = rmap (fun r => (turned_map (fst r), snd r)) (map_run pick ev cf ops grid n s) /\
  (forall r, map_run pick ev cf ops grid n s = Ok r -> num_objs (s_pop (m_st (fst r))) = 1).
Proof.
  intros Fo L. induction n as [|n [IH1 IH2]]; cbn [map_run].
  - split; [reflexivity|]. intros r E. injection E as <-. auto.
  - rewrite IH1. destruct (map_run pick ev cf ops grid n s) as [r|]; [|split; [reflexivity|discriminate]]. cbn [rmap bind fst]. destruct (map_step_turned cf ops grid (fst r) Fo (IH2 r eq_refl)) as [S1 S2]. rewrite S1.
    destruct (map_step pick ev cf ops grid (fst r)) as [q|]; [|split; [reflexivity|discriminate]]. cbn [rmap bind fst snd]. split; [reflexivity|]. intros r' E. injection E as <-. cbn. apply S2. reflexivity.
Qed.
End ELITES.

(* ---- proofs: the best and the worst ever seen ---- *)
Section TRACKS.
Context {V : Type}.
Variable F : list bool.
Lemma row_turned (b : batch V) i : row (turned F b) i = rmap (turned_sol F) (row b i).
Proof. unfold row. cbn [b_vals b_ev turned]. rewrite nth_error_map. destruct (nth_error (b_vals b) i); [|reflexivity]. destruct (nth_error (b_ev b) i); reflexivity. Qed.
Lemma nth_map_turn f (c : list fl) i : nth i (map (turn f) c) NaN = turn f (nth i c NaN).
Proof using. clear. rewrite <- (turn_nan f) at 1. apply map_nth. Qed.
Lemma update_turned f d t bi wi x y (p q : @sol V) : update_track (xorb f d) (turned_track F f t) bi wi (turn f x) (turn f y) (turned_sol F p) (turned_sol F q) = turned_track F f (update_track d t bi wi x y p q).
Proof.
  assert (B : forall a b, first_is_better (xorb f d) (turn f a) (turn f b) = first_is_better d a b) by (intros a b; destruct f, d; cbn; auto using flt_neg).
  assert (W : forall a b, first_is_worse (xorb f d) (turn f a) (turn f b) = first_is_worse d a b) by (intros a b; destruct f, d; cbn; auto using flt_neg).
  unfold update_track. cbn [t_be turned_track]. rewrite B. destruct (first_is_better d x (t_be t)); cbn [t_we t_be t_best t_worst turned_track]; rewrite W; destruct (first_is_worse d y (t_we t)); reflexivity.
Qed.
Lemma track_obj_turned (b : batch V) j t : num_objs b = length F -> track_obj (turned F b) j (turned_track F (nth j F false) t) = rmap (turned_track F (nth j F false)) (track_obj b j t).
Proof.
  intros L. unfold track_obj. destruct (argbest_turned F b (Some (Z.of_nat j)) L) as [A1 A2]. rewrite A1, A2. destruct (argbest b _) as [bi|]; [|reflexivity]. cbn [bind]. destruct (argworst b _) as [wi|]; [|reflexivity]. cbn [bind].
  unfold access_evals. rewrite turned_objs by auto. destruct (normalize_obj_index (num_objs b) (Z.of_nat j)) as [k|] eqn:K; [|reflexivity]. cbn [bind]. assert (k = Z.of_nat j) as ->.
  { unfold normalize_obj_index in K. replace (Z.of_nat j <? 0)%Z with false in K by lia. destruct (_ || _)%bool in K; [discriminate|]. injection K as <-. reflexivity. }
  rewrite column_turned, descending_turned by auto. rewrite !row_turned, Nat2Z.id. destruct (column b (Z.of_nat j)) as [c|]; [|reflexivity]. cbn [rmap bind]. destruct (row b bi) as [p|]; [|reflexivity]. cbn [rmap bind]. destruct (row b wi) as [q|]; [|reflexivity]. cbn [rmap bind].
  destruct (descending b (Z.of_nat j)) as [d|]; [|reflexivity]. cbn [rmap bind]. f_equal. rewrite !nth_map_turn. apply update_turned.
Qed.
Definition turned_tracks (ts : list (track V)) : list (track V) := map2 (turned_track F) F ts.
Lemma track_all_turned (b : batch V) : num_objs b = length F -> forall G j ts, (forall i, nth i G false = nth (j + i) F false) -> length ts = length G ->
  track_all (turned F b) j (map2 (turned_track F) G ts) = rmap (map2 (turned_track F) G) (track_all b j ts).
Proof.
  intros L. induction G as [|g G IH]; intros j [|t ts] H Lt; try discriminate; [reflexivity|]. cbn [map2 track_all]. assert (E : g = nth j F false) by (specialize (H 0); cbn in H; rewrite Nat.add_0_r in H; exact H). rewrite E at 1.
  rewrite track_obj_turned by auto. destruct (track_obj b j t) as [t'|]; [|reflexivity]. cbn [rmap bind]. rewrite IH; [|intros i; specialize (H (S i)); cbn in H; rewrite H; f_equal; lia|injection Lt; auto].
  destruct (track_all b (S j) ts) as [r|]; [|reflexivity]. cbn [rmap bind map2]. rewrite E. reflexivity.
Qed.
Lemma track_all_length (b : batch V) : forall ts j r, track_all b j ts = Ok r -> length r = length ts.
Proof using. clear. induction ts as [|t ts IH]; intros j r; cbn [track_all]; [intros E; injection E as <-; reflexivity|]. destruct (track_obj b j t); [|discriminate]. cbn [bind]. destruct (track_all b (S j) ts) as [q|] eqn:Q; [|discriminate]. intros E. injection E as <-. cbn. rewrite (IH (S j) q Q). reflexivity. Qed.
Lemma report_turned (ts : list (track V)) : length ts = length F -> report (turned_tracks ts) = rmap (turned_status F) (report ts).
Proof.
  intros L. unfold turned_tracks. destruct ts as [|t [|t' ts]]; [destruct F; [reflexivity|discriminate]| |].
  - destruct F as [|f [|]]; try discriminate. cbn [map2 report turned_track t_best t_worst]. destruct (t_best t) as [p|]; [|reflexivity]. cbn [option_map]. destruct (t_worst t) as [q|]; [|reflexivity]. cbn [option_map rmap turned_status turned_sol snd nth]. rewrite !turned_nth. reflexivity.
  - assert (Q : forall G (us : list (track V)), length us = length G -> map t_best (map2 (turned_track F) G us) = map (option_map (turned_sol F)) (map t_best us) /\ map t_worst (map2 (turned_track F) G us) = map (option_map (turned_sol F)) (map t_worst us)).
    { induction G as [|g G IH]; intros [|u us] Lu; try discriminate; [split; reflexivity|]. injection Lu as Lu. destruct (IH us Lu) as [I1 I2]. cbn [map2 map]. rewrite I1, I2. split; reflexivity. }
    destruct (Q F (t :: t' :: ts) L) as [Q1 Q2]. destruct F as [|f [|f' F']] eqn:EF; try discriminate. rewrite <- EF in *. clear Q.
    assert (R : forall us : list (track V), 2 <= length us -> report us = Ok (Many (map t_best us) (map t_worst us))) by (intros [|u [|u' us]] Lu; cbn in Lu; try lia; reflexivity).
    rewrite !R; [|cbn; lia|rewrite map2_length by auto; rewrite EF; cbn; lia]. cbn [rmap turned_status]. rewrite Q1, Q2. reflexivity.
Qed.
Lemma init_turned senses : length senses = length F -> map init_track (turned_senses F senses) = turned_tracks (map init_track senses).
Proof.
  unfold turned_tracks. assert (Q : forall G ss, length ss = length G -> map (@init_track V) (turned_senses G ss) = map2 (turned_track F) G (map init_track ss)); [|apply Q].
  induction G as [|g G IH]; intros [|d ds] L; try discriminate; [reflexivity|]. injection L as L. cbn [turned_senses map2 map]. unfold turned_senses in IH. rewrite IH by auto. f_equal. destruct g, d; reflexivity.
Qed.
Lemma step_turned senses st (b : batch V) : length senses = length F -> num_objs b = length F -> (forall ts, st = Some ts -> length ts = length F) ->
  get_best_and_worst (turned_senses F senses) (option_map turned_tracks st) (turned F b) =
    (option_map turned_tracks (fst (get_best_and_worst senses st b)), rmap (turned_status F) (snd (get_best_and_worst senses st b))) /\
  (forall ts, fst (get_best_and_worst senses st b) = Some ts -> length ts = length F).
Proof.
  intros Ls L Lt. unfold get_best_and_worst. set (ts := match st with Some ts => ts | None => map init_track senses end).
  assert (T : match option_map turned_tracks st with Some ts => ts | None => map init_track (turned_senses F senses) end = turned_tracks ts) by (unfold ts; destruct st; [reflexivity|apply init_turned; auto]).
  assert (Lts : length ts = length F) by (unfold ts; destruct st; [apply Lt; reflexivity|rewrite map_length; auto]).
  rewrite T. unfold turned_tracks at 1. rewrite (track_all_turned b L F 0 ts); [|reflexivity|auto]. destruct (track_all b 0 ts) as [ts'|] eqn:E; cbn [rmap].
  - pose proof (track_all_length b ts 0 ts' E) as L'. split; [|intros u Q; injection Q as <-; lia]. cbn [fst snd option_map]. f_equal. apply report_turned. lia.
  - split; [reflexivity|]. intros u Q. injection Q as <-. auto.
Qed.
End TRACKS.

(* ---- theorems ---- *)
(* GeneticAlgorithm, SteadyStateGA and NSGA-II: for whole runs, with any number of objectives, any of them turned *)
Theorem C206_ga_partial : forall (V : Type) sorter co qs ev F cf ops n (s : state V),
  two_way sorter -> num_objs (s_pop s) = length F -> Forall (blind_op F) ops -> numeric (length F) ev -> prepared cf s ->
  ga_run sorter co qs (fun k vs => map (turned_row F) (ev k vs)) cf ops n (turned_state F s) = rmap (turned_state F) (ga_run sorter co qs ev cf ops n s).
Proof. intros V so co qs ev F cf ops n s T L B N P. apply ga_run_turned; auto. Qed.
(* Cosyne *)
Theorem C206_cosyne_partial : forall (V : Type) sorter co qs ev F popsize elites cross mutate permute n (s : state V),
  two_way sorter -> num_objs (s_pop s) = length F -> blind F cross -> (forall m, mutate = Some m -> blind F m) -> blind F permute -> numeric (length F) ev -> s_first s = true \/ numbers (s_pop s) ->
  cosyne_run sorter co qs (fun k vs => map (turned_row F) (ev k vs)) popsize elites cross mutate permute n (turned_state F s) =
  rmap (turned_state F) (cosyne_run sorter co qs ev popsize elites cross mutate permute n s).
Proof. intros V so co qs ev F ps el cr mu pe n s T L B1 B2 B3 N P. apply cosyne_run_turned; auto. Qed.
(* MAP-Elites: the features stay as they are; NaN allowed *)
Theorem C206_map_elites : forall (V : Type) pick ev cf ops grid n (s : mstate V),
  two_way_pick pick -> num_objs (s_pop (m_st s)) = 1 -> Forall (blind_op [true]) ops ->
  map_run pick (fun k vs => map (turned_row [true]) (ev k vs)) cf ops grid n (mkMap (turned_state [true] (m_st s)) (m_filled s)) =
  rmap (fun r => (mkMap (turned_state [true] (m_st (fst r))) (m_filled (fst r)), snd r)) (map_run pick ev cf ops grid n s).
Proof. intros V pick ev cf ops grid n s P L B. apply (map_run_turned pick ev P cf ops grid s B L n). Qed.
(* every cross-over with tournaments is blind to the senses *)
Theorem C206_crossover : forall (V : Type) sorter co cross cx F (noise : nat -> list Q) draw,
  two_way sorter -> blind F (fun k (b : batch V) => crossover_do sorter co (cross k) cx b (noise k) (draw k)).
Proof.
  intros V so co cross cx F noise draw T k b L. split; [apply crossover_turned; auto|]. intros b'. unfold crossover_do. destruct (do_tournament _ _ _ _ _ _) as [ps|]; [|discriminate]. cbn [bind].
  destruct (negb _); [discriminate|]. destruct (cross k _ _); [|discriminate]. intros E. injection E as <-. reflexivity.
Qed.
(* the best and the worst solution of a batch, and the Pareto ranks, NaN or not *)
Theorem C206_batch : forall (V : Type) co F (b : batch V) obj_index, num_objs b = length F ->
  argbest (turned F b) obj_index = argbest b obj_index /\ argworst (turned F b) obj_index = argworst b obj_index /\ batch_pareto_ranks co (turned F b) true = batch_pareto_ranks co b true /\
  (forall i check, utility (turned F b) check i = utility b check i).
Proof.
  intros V co F b oi L. destruct (argbest_turned F b oi L) as [A1 A2]. split; [exact A1|]. split; [exact A2|]. split; [unfold batch_pareto_ranks; rewrite utils_turned by auto; reflexivity|].
  intros i check. unfold utility. rewrite turned_objs by auto. destruct (normalize_obj_index (num_objs b) i) as [j|]; [|reflexivity]. cbn [bind]. rewrite column_turned, descending_turned by auto. destruct (column b j) as [c|]; [|reflexivity]. cbn [rmap bind]. rewrite nans_turned.
  destruct (_ && _)%bool; [reflexivity|]. destruct (descending b j) as [d|]; [|reflexivity]. cbn [rmap bind]. f_equal. destruct (nth (Z.to_nat j) F false), d; cbn [xorb turn]; auto; unfold turn; rewrite ?map_id; auto. rewrite map_map. rewrite <- (map_id c) at 2. apply map_ext. intros. apply fneg_fneg.
Qed.
(* the order of a batch without NaN *)
Theorem C206_order_partial : forall (V : Type) sorter F (b : batch V) obj_index n, two_way sorter -> num_objs b = length F -> numbers b ->
  argsort sorter (turned F b) obj_index = argsort sorter b obj_index /\ take_best sorter (turned F b) n obj_index = rmap (turned F) (take_best sorter b n obj_index).
Proof. intros V so F b oi n T L N. pose proof (argsort_turned so F T b oi L N) as A. split; [exact A|]. unfold take_best. rewrite A. destruct (argsort so b oi); [|reflexivity]. cbn [bind]. apply take_turned. Qed.
(* but a batch in which some fitnesses are NaN, and some are not, is ordered differently, whatever it contains *)
Theorem C206_order_refuted : forall (V : Type) sorter (b : batch V) p q, argsort_ok sorter -> num_objs b = 1 ->
  p < length (b_ev b) -> nth 0 (nth p (b_ev b) []) NaN = NaN -> is_nan (nth 0 (nth q (b_ev b) []) NaN) = false ->
  argsort sorter (turned [true] b) None <> argsort sorter b None.
Proof.
  intros V so b p q Ok L Lp Hp Hq. destruct b as [vals evs desc nd]. unfold num_objs in L. cbn [b_ev b_desc b_vals] in *. destruct desc as [|d [|]]; try discriminate. cbn [turned b_vals b_ev b_desc b_ndata turned_senses map2].
  unfold argsort. cbn [num_objs b_desc length optionally_get_obj_index]. cbn [bind]. unfold descending. cbn [b_desc Z.to_nat nth_error bind]. unfold column, eval_width, num_objs. cbn [b_ev b_desc b_ndata length]. replace ((0 <=? 0) && (0 <? Z.of_nat (1 + nd)))%Z with true by lia. cbn [bind Z.to_nat].
  intros E. injection E as E. rewrite map_map in E. set (c := map (fun r => nth 0 r NaN) evs) in *.
  rewrite (map_ext _ (fun r => fneg (nth 0 r NaN))), <- (map_map (fun r => nth 0 r NaN) fneg) in E by (intros r; rewrite turned_nth; reflexivity). fold c in E. change (if d then false else true) with (negb d) in E.
  assert (Lq : q < length evs) by (destruct (Nat.lt_ge_cases q (length evs)); auto; rewrite (nth_overflow evs []) in Hq by auto; discriminate).
  assert (At : forall i, at_ c i = nth 0 (nth i evs []) NaN) by (intros i; exact (map_nth (fun r : list fl => nth 0 r NaN) evs [] i)).
  assert (Neg : forall i, at_ (map fneg c) i = fneg (at_ c i)) by (intros i; unfold at_; change NaN with (fneg NaN) at 1; apply map_nth).
  assert (Lc : length c = length evs) by apply map_length. rewrite <- At in Hp, Hq. rewrite <- Lc in Lp, Lq. clearbody c. clear At Lc evs vals nd L.
  destruct (Ok true c) as [P1 S1] eqn:E1. destruct (Ok false c) as [P2 S2]. destruct (Ok true (map fneg c)) as [P3 S3]. destruct (Ok false (map fneg c)) as [P4 S4]. clear E1 Ok.
  rewrite map_length in P3, P4.
  assert (Inn : forall l i, Permutation l (seq 0 (length c)) -> i < length c -> In i l) by (intros l i P H; apply (Permutation_in _ (Permutation_sym P)); apply in_seq; lia).
  assert (Hd : forall l (R : nat -> nat -> Prop) i, StronglySorted R l -> In i l -> exists h t, l = h :: t /\ (h = i \/ R h i)).
  { intros l R i S I. destruct l as [|h t]; [contradiction|]. exists h, t. split; [reflexivity|]. inversion S as [|? ? _ FA]; subst. destruct I as [->|I]; [auto|]. rewrite Forall_forall in FA. auto. }
  destruct d; cbn [negb] in E.
  - destruct (Hd _ _ p S1 (Inn _ p P1 Lp)) as (h & t & El & H1). destruct (Hd _ _ q S4 (Inn _ q P4 Lq)) as (h' & t' & El' & H2). rewrite E, El in El'. injection El' as <- <-. rewrite !Neg in H2.
    assert (N : at_ c h = NaN) by (destruct H1 as [->|H1]; auto; rewrite Hp in H1; destruct (at_ c h); auto; discriminate). rewrite N in H2. destruct H2 as [<-|H2]; [rewrite N in Hq; discriminate|]. destruct (at_ c q); discriminate.
  - destruct (Hd _ _ q S2 (Inn _ q P2 Lq)) as (h & t & El & H1). destruct (Hd _ _ p S3 (Inn _ p P3 Lp)) as (h' & t' & El' & H2). rewrite E, El in El'. injection El' as <- <-. rewrite !Neg, Hp in H2.
    assert (N : at_ c h = NaN) by (destruct H2 as [->|H2]; auto; destruct (at_ c h); auto; discriminate). rewrite N in H1. destruct H1 as [<-|H1]; [rewrite N in Hq; discriminate|]. destruct (at_ c q); discriminate.
Qed.
(* the best and the worst solutions ever seen, and what the status reports, after any history of evaluations *)
Theorem C206_best_ever : forall (V : Type) F senses (hist : list (batch V)) (b : batch V), length senses = length F -> Forall (fun b => num_objs b = length F) (hist ++ [b]) ->
  track_history (turned_senses F senses) (map (turned F) hist) = option_map (map2 (turned_track F) F) (track_history senses hist) /\
  snd (get_best_and_worst (turned_senses F senses) (track_history (turned_senses F senses) (map (turned F) hist)) (turned F b)) =
    rmap (turned_status F) (snd (get_best_and_worst senses (track_history senses hist) b)).
Proof.
  intros V F senses hist b Ls Hh. apply Forall_app in Hh. destruct Hh as [Hh Hb]. inversion Hb as [|? ? Lb _]; subst. clear Hb.
  assert (K : forall st, (forall ts, st = Some ts -> length ts = length F) ->
    fold_left (fun st b => fst (get_best_and_worst (turned_senses F senses) st b)) (map (turned F) hist) (option_map (turned_tracks F) st) = option_map (turned_tracks F) (fold_left (fun st b => fst (get_best_and_worst senses st b)) hist st) /\
    (forall ts, fold_left (fun st b => fst (get_best_and_worst senses st b)) hist st = Some ts -> length ts = length F)).
  { induction Hh as [|x hist Lx Hh IH]; intros st Lst; [split; [reflexivity|exact Lst]|]. cbn [map fold_left]. destruct (step_turned F senses st x Ls Lx Lst) as [S1 S2]. rewrite S1. cbn [fst]. apply IH. exact S2. }
  destruct (K None) as [K1 K2]; [discriminate|]. unfold track_history. cbn [option_map] in K1. rewrite K1. split; [reflexivity|].
  destruct (step_turned F senses _ b Ls Lb K2) as [S1 _]. rewrite S1. reflexivity.
Qed.
(* comparing two solutions *)
Theorem C206_compare : forall (V : Type) F senses (a b : V * list fl) obj_index, length senses = length F ->
  compare_solutions (turned_senses F senses) (turned_sol F a) (turned_sol F b) obj_index = compare_solutions senses a b obj_index /\
  is_better (turned_senses F senses) (turned_sol F a) (turned_sol F b) obj_index = is_better senses a b obj_index /\
  is_worse (turned_senses F senses) (turned_sol F a) (turned_sol F b) obj_index = is_worse senses a b obj_index.
Proof.
  intros V F senses a b oi L. assert (C : compare_solutions (turned_senses F senses) (turned_sol F a) (turned_sol F b) oi = compare_solutions senses a b oi); [|unfold is_better, is_worse; rewrite C; auto].
  unfold compare_solutions. assert (Ls : length (turned_senses F senses) = length senses) by (unfold turned_senses; rewrite map2_length; auto). rewrite Ls. destruct (problem_normalize_obj_index (length senses) oi) as [j|]; [|reflexivity]. cbn [bind].
  unfold turned_senses. rewrite map2_nth_error. cbn [turned_sol snd]. rewrite !turned_nth. set (i := Z.to_nat j). assert (Sub : forall x y, fsub (fneg x) (fneg y) = fsub y x) by (intros [| |x|] [| |y|]; cbn; auto; f_equal; lia).
  destruct (nth_error senses i) as [d|] eqn:D; [|destruct (nth_error F i); reflexivity]. destruct (nth_error F i) as [f|] eqn:Ef.
  - rewrite (nth_error_nth _ _ false Ef). destruct f, d; cbn [xorb turn]; rewrite ?Sub; reflexivity.
  - apply nth_error_None in Ef. assert (i < length senses) by (apply nth_error_Some; congruence). lia.
Qed.
(* the utilities by which the distribution-based algorithms follow the fitnesses: the same for every ranking method *)
Theorem C206_rankings : forall sorter (x : list fl) (y : list R) higher, two_way sorter -> existsb is_nan x = false ->
  centered sorter (map fneg x) (negb higher) = centered sorter x higher /\ linear sorter (map fneg x) (negb higher) = linear sorter x higher /\ nes sorter (map fneg x) (negb higher) = nes sorter x higher /\
  normalized (map Ropp y) (negb higher) = normalized y higher /\ raw (map Ropp y) (negb higher) = raw y higher.
Proof.
  intros so x y h T N. unfold centered, linear, nes. rewrite map_length, (T (negb h) x N). do 3 (split; [reflexivity|]).
  assert (E : (if negb h then map Ropp y else map Ropp (map Ropp y)) = (if h then y else map Ropp y)) by (destruct h; cbn [negb]; auto; rewrite map_map; rewrite <- (map_id y) at 2; apply map_ext; intros; apply Ropp_involutive).
  unfold normalized, raw. rewrite E. auto.
Qed.
Print Assumptions C206_ga_partial.
Print Assumptions C206_cosyne_partial.
Print Assumptions C206_map_elites.
Print Assumptions C206_crossover.
Print Assumptions C206_batch.
Print Assumptions C206_order_partial.
Print Assumptions C206_order_refuted.
Print Assumptions C206_best_ever.
Print Assumptions C206_compare.
Print Assumptions C206_rankings.
(* the stable sort is two-way, argmax/argmin are; and a run with two objectives, the second turned *)
Example C206_example : two_way stable_argsort /\ two_way_pick (fun d c => match argext d c with Ok i => i | Err _ => 0 end) /\
  let ev := fun (_ : nat) (vs : list nat) => map (fun v => [Fin (Z.of_nat v); Fin (5 - Z.of_nat v); NaN]) vs in
  let s := mkSt (mkBatch [1; 3] [] [true; true] 1) true 0 in
  let cf := mkConf 2 true true true in
  numeric 2 ev /\ prepared cf s /\ blind_op [false; true] (Func (fun _ (vs : list nat) => Ok (map S vs))) /\
  rmap (fun s => b_ev (s_pop s)) (ga_run stable_argsort (fun _ => []) (fun q => seq 0 (length q)) (fun k vs => map (turned_row [false; true]) (ev k vs)) cf [Func (fun _ vs => Ok (map S vs))] 2 (turned_state [false; true] s)) = Ok [[Fin 1; Fin (-4); NaN]; [Fin 3; Fin (-2); NaN]].
Proof.
  split; [|split; [|split; [|split; [|split; [exact Logic.I|vm_compute; reflexivity]]]]].
  - intros d c N. unfold stable_argsort. rewrite map_length.
    assert (A : forall i, at_ (map fneg c) i = fneg (at_ c i)) by (intros i; unfold at_; change NaN with (fneg NaN) at 1; apply map_nth).
    assert (Tn : forall a b, is_nan a = false -> is_nan b = false -> tle (fneg a) (fneg b) = tle b a) by (intros [| |a|] [| |b|]; cbn; try discriminate; auto; intros _ _; lia).
    assert (Nn : forall i, i < length c -> is_nan (at_ c i) = false).
    { intros i Hi. destruct (is_nan (at_ c i)) eqn:Q; auto. assert (existsb is_nan c = true) by (apply existsb_exists; exists (at_ c i); split; [apply nth_In; auto|auto]). congruence. }
    assert (G : forall le le' l, (forall i j : nat, In i l -> In j l -> le i j = le' i j) -> isort le l = isort le' l).
    { intros le le' l. induction l as [|x l IH]; intros H; cbn; auto. rewrite IH by (intros; apply H; cbn; auto). assert (I : forall q, (forall j, In j q -> In j l) -> insert le x q = insert le' x q).
      { induction q as [|y q IHq]; intros Hq; cbn; auto. rewrite H by (cbn; auto using in_eq). rewrite IHq by (intros; apply Hq; cbn; auto). reflexivity. }
      apply I. intros j Hj. apply (Permutation_in _ (Permutation_sym (isort_perm le' l))). exact Hj. }
    apply G. intros i j Hi Hj. apply in_seq in Hi, Hj. rewrite !A, !Tn by (apply Nn; lia). destruct d; reflexivity.
  - intros d c. rewrite argext_neg. reflexivity.
  - intros k vs. apply Forall_forall. intros r I. apply in_map_iff in I. destruct I as (v & <- & _). intros [|[|j]] Hj; [reflexivity|reflexivity|lia].
  - right. auto.
Qed.

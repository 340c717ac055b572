(* C202: the genetic algorithms see the fitnesses only through comparisons. *)
From Coq Require Import QArith.
From Verif Require Import Prelude FloatLib SortLib BatchModel ParetoModel RankModel OperModel GaModel.
Close Scope Q_scope.
Open Scope nat_scope.

(* ---- spec ---- *)
(* a strictly increasing change of a fitness, which keeps missing fitnesses missing *)
Definition order_map (g : fl -> fl) : Prop := (forall a b, flt (g a) (g b) = flt a b) /\ (forall a, is_nan (g a) = is_nan a).
(* the evaluations with one change per objective; extra data are kept *)
Definition retold_row (G : list (fl -> fl)) (row : list fl) : list fl := map2 (fun g x => g x) G row ++ skipn (length G) row.
Definition retold {V} (G : list (fl -> fl)) (b : batch V) : batch V := mkBatch (b_vals b) (map (retold_row G) (b_ev b)) (b_desc b) (b_ndata b).
Definition retold_state {V} (G : list (fl -> fl)) (s : state V) : state V := mkSt (retold G (s_pop s)) (s_first s) (s_clock s).
(* a sorting function which decides by comparisons *)
Definition sees_order (sorter : bool -> list fl -> list nat) : Prop := forall d c g, order_map g -> sorter d (map g c) = sorter d c.
(* an operator which sees no more of the fitnesses *)
Definition order_only {V} (G : list (fl -> fl)) (f : nat -> batch V -> result (batch V)) : Prop :=
  forall k b, num_objs b = length G -> f k (retold G b) = rmap (retold G) (f k b) /\ (forall b', f k b = Ok b' -> b_desc b' = b_desc b).
Definition order_only_op {V} (G : list (fl -> fl)) (op : operator V) : Prop := match op with Copying _ f => order_only G f | InPlace f => order_only G f | Func _ => True end.

(* ---- proofs ---- *)
Lemma nan_fixed g : order_map g -> g NaN = NaN.
Proof. intros [_ N]. specialize (N NaN). destruct (g NaN); auto; discriminate. Qed.
Lemma retold_nth G row j : Forall order_map G -> nth j (retold_row G row) NaN = (nth j G (fun x => x)) (nth j row NaN).
Proof.
  intros F. revert row j. induction F as [|g G H F IH]; intros row j.
  - unfold retold_row. cbn. destruct j; reflexivity.
  - destruct row as [|x row].
    + unfold retold_row. cbn. destruct j; [symmetry; apply nan_fixed; auto|]. destruct (Nat.lt_ge_cases j (length G)).
      * symmetry. apply nan_fixed. rewrite Forall_forall in F. apply F, nth_In. auto.
      * rewrite nth_overflow by auto. reflexivity.
    + unfold retold_row in *. cbn. destruct j; auto.
Qed.
Lemma retold_nan G n : Forall order_map G -> retold_row G (repeat NaN n) = repeat NaN n.
Proof.
  intros F. revert n. induction F as [|g G H F IH]; intros n; [reflexivity|]. destruct n as [|n]; [reflexivity|]. unfold retold_row in *. cbn. rewrite IH, nan_fixed; auto.
Qed.
Lemma retold_fresh {V} G (b : batch V) vs : Forall order_map G -> retold G (fresh b vs) = fresh b vs.
Proof. intros F. unfold retold, fresh. cbn. f_equal. rewrite map_map. apply map_ext. intros. apply retold_nan. auto. Qed.
Lemma retold_first G row n : n = length G -> firstn n (retold_row G row) = map2 (fun g x => g x) G (firstn n row).
Proof.
  intros ->. revert row. induction G as [|g G IH]; intros row; [reflexivity|]. destruct row as [|x row]; [reflexivity|]. unfold retold_row in *. cbn. rewrite IH. reflexivity.
Qed.
Lemma column_retold {V} G (b : batch V) j : Forall order_map G -> column (retold G b) j = rmap (map (nth (Z.to_nat j) G (fun x => x))) (column b j).
Proof.
  intros F. unfold column. change (eval_width (retold G b)) with (eval_width b). destruct (_ && _)%bool; [|reflexivity]. cbn. f_equal. rewrite !map_map. apply map_ext. intros. apply retold_nth. auto.
Qed.
Lemma gather_map {A B} (h : A -> B) l idx : gather (map h l) idx = rmap (map h) (gather l idx).
Proof.
  unfold gather. induction idx as [|i idx IH]; [reflexivity|]. cbn [map sequence]. rewrite nth_error_map. destruct (nth_error l i) as [x|]; [|reflexivity]. cbn [option_map]. unfold gather in IH.
  rewrite IH. clear IH. destruct (sequence (map (fun i => match nth_error l i with Some x => Ok x | None => Err IndexError end) idx)); reflexivity.
Qed.
Lemma take_retold {V} G (b : batch V) idx : take (retold G b) idx = rmap (retold G) (take b idx).
Proof.
  unfold take, retold. cbn [b_vals b_ev b_desc b_ndata]. rewrite gather_map. destruct (gather (b_vals b) idx); [|reflexivity]. cbn [bind]. destruct (gather (b_ev b) idx); reflexivity.
Qed.
Lemma take_desc {V} (b b' : batch V) idx : take b idx = Ok b' -> b_desc b' = b_desc b.
Proof. unfold take. destruct (gather (b_vals b) idx); [|discriminate]. cbn [bind]. destruct (gather (b_ev b) idx); [|discriminate]. intros E. injection E as <-. reflexivity. Qed.
Lemma nth_order_map G j : Forall order_map G -> order_map (nth j G (fun x => x)).
Proof.
  intros F. destruct (Nat.lt_ge_cases j (length G)); [rewrite Forall_forall in F; apply F, nth_In; auto|]. rewrite nth_overflow by auto. split; auto.
Qed.
Lemma nans_retold c g : order_map g -> existsb is_nan (map g c) = existsb is_nan c.
Proof. intros [_ N]. induction c as [|x c IH]; cbn; auto. rewrite N, IH. reflexivity. Qed.
Section MON.
Context {V : Type}.
Variables (sorter : bool -> list fl -> list nat) (G : list (fl -> fl)).
Hypothesis Sees : sees_order sorter.
Hypothesis Maps : Forall order_map G.
Lemma argsort_retold (b : batch V) oi : argsort sorter (retold G b) oi = argsort sorter b oi.
Proof.
  unfold argsort. change (num_objs (retold G b)) with (num_objs b). destruct (optionally_get_obj_index (num_objs b) oi) as [j|]; [|reflexivity]. cbn [bind]. change (descending (retold G b) j) with (descending b j).
  destruct (descending b j) as [d|]; [|reflexivity]. cbn [bind]. rewrite column_retold by auto. destruct (column b j); [|reflexivity]. cbn [rmap bind]. f_equal. apply Sees. apply nth_order_map. auto.
Qed.
Lemma centered_retold (b : batch V) oi : centered_utility sorter (retold G b) oi = centered_utility sorter b oi.
Proof.
  unfold centered_utility. change (num_objs (retold G b)) with (num_objs b). destruct (match oi with Some i => normalize_obj_index (num_objs b) i | None => Ok 0%Z end) as [j|]; [|reflexivity]. cbn [bind].
  rewrite column_retold by auto. destruct (column b j) as [c|]; [|reflexivity]. cbn [rmap bind]. change (descending (retold G b) j) with (descending b j). destruct (descending b j) as [d|]; [|reflexivity]. cbn [bind].
  rewrite nans_retold by (apply nth_order_map; auto). destruct (existsb is_nan c); [reflexivity|]. f_equal. unfold centered. rewrite map_length, Sees by (apply nth_order_map; auto). reflexivity.
Qed.
Lemma dominated_retold ds x y : length ds <= length G -> dominated_by (map2 (fun d x => if d : bool then x else fneg x) ds (map2 (fun g x => g x) G x)) (map2 (fun d x => if d : bool then x else fneg x) ds (map2 (fun g x => g x) G y))
  = dominated_by (map2 (fun d x => if d : bool then x else fneg x) ds x) (map2 (fun d x => if d : bool then x else fneg x) ds y).
Proof using Maps.
  clear Sees sorter.
  assert (NF : forall a b, flt (fneg a) (fneg b) = flt b a) by (intros a b; unfold flt, fneg; destruct a, b; auto; lia).
  assert (NN : forall a, is_nan (fneg a) = is_nan a) by (intros a; destruct a; reflexivity).
  intros L. unfold dominated_by.
  assert (Q : forall H : fl -> fl -> bool, (forall (d : bool) g a b, order_map g -> H (if d then g a else fneg (g a)) (if d then g b else fneg (g b)) = H (if d then a else fneg a) (if d then b else fneg b)) ->
    map (fun p => H (fst p) (snd p)) (combine (map2 (fun d x => if d : bool then x else fneg x) ds (map2 (fun g x => g x) G y)) (map2 (fun d x => if d : bool then x else fneg x) ds (map2 (fun g x => g x) G x)))
    = map (fun p => H (fst p) (snd p)) (combine (map2 (fun d x => if d : bool then x else fneg x) ds y) (map2 (fun d x => if d : bool then x else fneg x) ds x))).
  { intros H HH. revert ds x y L Maps. induction G as [|g G' IH]; intros [|d ds] x y L M; try reflexivity; [cbn in L; lia|]. inversion M; subst. destruct y as [|b y], x as [|a x]; try reflexivity.
    cbn [map2 combine map fst snd]. rewrite HH by auto. f_equal. apply IH; auto. cbn in L. lia. }
  assert (A : forall (h : fl -> fl -> bool) l, forallb (fun p => h (fst p) (snd p)) l = forallb (fun x => x) (map (fun p => h (fst p) (snd p)) l)) by (intros h l; induction l; cbn; congruence).
  assert (E : forall (h : fl -> fl -> bool) l, existsb (fun p => h (fst p) (snd p)) l = existsb (fun x => x) (map (fun p => h (fst p) (snd p)) l)) by (intros h l; induction l; cbn; congruence).
  rewrite !(A fge), !(E (fun a b => flt b a)). f_equal; f_equal; [apply (Q fge)|apply (Q (fun a b => flt b a))]; intros d g a b [M N].
  - unfold fge, feq. destruct d; rewrite ?NF, ?NN, ?M, ?N; reflexivity.
  - destruct d; rewrite ?NF, ?M; reflexivity.
Qed.
Lemma ploop_matrix co us us' : length us = length us' -> dominated_matrix us = dominated_matrix us' -> forall fuel s, ploop co fuel us false s = ploop co fuel us' false s.
Proof using.
  intros L D. induction fuel as [|fuel IH]; intros s; cbn [ploop]; [destruct (existsb _ _); reflexivity|]. rewrite IH. assert (E : pstep co us false s = pstep co us' false s) by (unfold pstep; rewrite D; reflexivity). rewrite E. reflexivity.
Qed.
Lemma ranks_retold co (b : batch V) : num_objs b = length G -> batch_pareto_ranks co (retold G b) false = batch_pareto_ranks co b false.
Proof using Maps.
  clear Sees sorter.
  intros L. unfold batch_pareto_ranks, utils. change (num_objs (retold G b)) with (num_objs b). cbn [b_ev b_desc retold].
  assert (N : existsb (fun r => existsb is_nan (firstn (num_objs b) r)) (map (retold_row G) (b_ev b)) = existsb (fun r => existsb is_nan (firstn (num_objs b) r)) (b_ev b)).
  { induction (b_ev b) as [|r l IH]; cbn; auto. rewrite IH. f_equal. rewrite retold_first by auto. rewrite L. clear - Maps. revert r. induction Maps as [|g G' H F IH]; intros r; [reflexivity|]. destruct r as [|x r]; [reflexivity|]. cbn. rewrite IH, (proj2 H). reflexivity. exact F. }
  rewrite N. clear N. destruct (existsb _ (b_ev b)); [reflexivity|]. cbn [bind]. set (U := fun r => map2 (fun d x => if d : bool then x else fneg x) (b_desc b) (firstn (num_objs b) r)). set (us' := map U (map (retold_row G) (b_ev b))). set (us := map U (b_ev b)).
  assert (D : dominated_matrix us' = dominated_matrix us).
  { unfold dominated_matrix, us, us', U. rewrite !map_map. apply map_ext. intros x. rewrite !map_map. apply map_ext. intros y. rewrite !retold_first by auto. apply dominated_retold. unfold num_objs in L. lia. }
  assert (Len : length us' = length us) by (unfold us, us'; rewrite !map_length; reflexivity).
  unfold compute_pareto_ranks. rewrite Len. f_equal. rewrite (ploop_matrix co us' us Len D). f_equal. unfold pinit. rewrite D. assert (C : forall A (z : A), map (fun _ => z) us' = map (fun _ => z) us) by (intros A z; unfold us, us'; rewrite !map_map; reflexivity). rewrite !C. reflexivity.
Qed.
Lemma tournament_retold co cx (b : batch V) noise draw : num_objs b = length G -> do_tournament sorter co cx (retold G b) noise draw = do_tournament sorter co cx b noise draw.
Proof.
  intros L. unfold do_tournament. change (b_len (retold G b)) with (b_len b). assert (C : candidate_ranks sorter co cx (retold G b) noise = candidate_ranks sorter co cx b noise).
  { unfold candidate_ranks. rewrite ranks_retold, centered_retold by auto. reflexivity. }
  rewrite C. reflexivity.
Qed.
Lemma crossover_retold co cross cx (b : batch V) noise draw : num_objs b = length G -> crossover_do sorter co cross cx (retold G b) noise draw = rmap (retold G) (crossover_do sorter co cross cx b noise draw).
Proof.
  intros L. unfold crossover_do. rewrite tournament_retold by auto. destruct (do_tournament sorter co cx b noise draw) as [ps|]; [|reflexivity]. cbn [bind]. destruct (negb _); [reflexivity|]. destruct (cross (fst ps) (snd ps)) as [vs|]; [|reflexivity]. cbn [rmap]. f_equal.
  change (children_batch (retold G b) vs) with (fresh b vs). change (children_batch b vs) with (fresh b vs). symmetry. apply retold_fresh. auto.
Qed.
Hypothesis One : length G = 1.
Variables (co : list (list fl) -> list nat) (qs : list Q -> list nat) (ev ev' : nat -> list V -> list (list fl)).
Hypothesis Ev : forall k vs, ev' k vs = map (retold_row G) (ev k vs).
Notation ok b := (num_objs b = length G).
Lemma best_retold (b : batch V) n : ok b -> best_of sorter co qs (retold G b) n = rmap (retold G) (best_of sorter co qs b n) /\ (forall b', best_of sorter co qs b n = Ok b' -> ok b').
Proof.
  intros L. unfold best_of. change (num_objs (retold G b)) with (num_objs b). assert (E : (2 <=? num_objs b) = false) by (apply Nat.leb_gt; lia). rewrite E. unfold take_best. rewrite argsort_retold.
  destruct (argsort sorter b None) as [idx|]; [|split; [reflexivity|discriminate]]. cbn [bind]. split; [apply take_retold|]. intros b' T. apply take_desc in T. unfold num_objs in *. rewrite T. auto.
Qed.
Lemma evaluate_retold k (b : batch V) : evaluate ev' k (retold G b) = rmap (retold G) (evaluate ev k b) /\ (forall b', evaluate ev k b = Ok b' -> b_desc b' = b_desc b).
Proof.
  unfold evaluate. cbn [b_vals retold]. destruct (b_vals b) as [|v vs]; [split; [reflexivity|discriminate]|]. split.
  - cbn [rmap b_desc b_ndata retold]. unfold retold. cbn [b_vals b_ev b_desc b_ndata]. rewrite Ev. reflexivity.
  - intros b' E. injection E as <-. reflexivity.
Qed.
Lemma operators_retold ops : Forall (order_only_op G) ops -> forall k (b : batch V), ok b ->
  use_operators k (retold G b) ops = rmap (retold G) (use_operators k b ops) /\ (forall b', use_operators k b ops = Ok b' -> b_desc b' = b_desc b).
Proof.
  intros F. induction F as [|op ops H F IH]; intros k b L; cbn [use_operators].
  - split; [reflexivity|]. intros b' E. injection E as <-. reflexivity.
  - assert (Q : use_operator k (retold G b) op = rmap (retold G) (use_operator k b op) /\ (forall b', use_operator k b op = Ok b' -> b_desc b' = b_desc b)).
    { destruct op as [c f|f|f]; cbn [use_operator order_only_op] in *; [apply H; auto|apply H; auto|]. change (b_vals (retold G b)) with (b_vals b). destruct (f k (b_vals b)) as [vs|]; [|split; [reflexivity|discriminate]]. cbn [rmap]. split.
      - f_equal. change (fresh (retold G b) vs) with (fresh b vs). symmetry. apply retold_fresh. auto.
      - intros b' E. injection E as <-. reflexivity. }
    destruct Q as [Q1 Q2]. rewrite Q1. destruct (use_operator k b op) as [b1|]; [|split; [reflexivity|discriminate]]. cbn [rmap bind]. specialize (Q2 b1 eq_refl). destruct (IH (S k) b1) as [I1 I2]; [unfold num_objs in *; rewrite Q2; auto|]. split; [exact I1|].
    intros b' E. rewrite (I2 b' E). auto.
Qed.
Lemma cat_retold (a b : batch V) : cat (retold G a) (retold G b) = retold G (cat a b).
Proof. unfold cat, retold. cbn. rewrite map_app. reflexivity. Qed.
Lemma head_retold (b : batch V) n : head (retold G b) n = retold G (head b n).
Proof. unfold head, retold. cbn. rewrite firstn_map. reflexivity. Qed.
Lemma tail_retold (b : batch V) n : tail (retold G b) n = retold G (tail b n).
Proof. unfold tail, retold. cbn. rewrite skipn_map. reflexivity. Qed.
Definition retold_extended (e : state V * batch V * batch V) : state V * batch V * batch V := let '(s, p, c) := e in (retold_state G s, retold G p, retold G c).
Lemma extended_retold cf ops s : Forall (order_only_op G) ops -> ok (s_pop s) ->
  extended ev' cf ops (retold_state G s) = rmap retold_extended (extended ev cf ops s) /\ (forall s' p c, extended ev cf ops s = Ok (s', p, c) -> ok (s_pop s') /\ ok p /\ ok c).
Proof.
  intros F L. unfold extended. cbn [s_pop s_first s_clock retold_state]. set (k := s_clock s). set (n := length ops).
  assert (D : forall b b' : batch V, b_desc b' = b_desc b -> ok b -> ok b') by (intros b b' E; unfold num_objs; rewrite E; auto).
  assert (First : forall (r : result (batch V)) r', r' = rmap (retold G) r -> (forall b, r = Ok b -> ok b) ->
    bind r' (fun pop => bind (use_operators (k + 1) pop ops) (fun children => bind (evaluate ev' (k + 1 + n) children) (fun children' => Ok (mkSt pop false (k + n + 2), pop, children')))) =
    rmap retold_extended (bind r (fun pop => bind (use_operators (k + 1) pop ops) (fun children => bind (evaluate ev (k + 1 + n) children) (fun children' => Ok (mkSt pop false (k + n + 2), pop, children'))))) /\
    (forall s' p c, bind r (fun pop => bind (use_operators (k + 1) pop ops) (fun children => bind (evaluate ev (k + 1 + n) children) (fun children' => Ok (mkSt pop false (k + n + 2), pop, children')))) = Ok (s', p, c) -> ok (s_pop s') /\ ok p /\ ok c)).
  { intros r r' -> R. destruct r as [pop|]; [|split; [reflexivity|discriminate]]. cbn [rmap bind]. specialize (R pop eq_refl). destruct (operators_retold ops F (k + 1) pop R) as [O1 O2]. rewrite O1.
    destruct (use_operators (k + 1) pop ops) as [ch|]; [|split; [reflexivity|discriminate]]. cbn [rmap bind]. specialize (O2 ch eq_refl). destruct (evaluate_retold (k + 1 + n) ch) as [E1 E2]. rewrite E1.
    destruct (evaluate ev (k + 1 + n) ch) as [ch'|]; [|split; [reflexivity|discriminate]]. cbn [rmap bind]. specialize (E2 ch' eq_refl). split; [reflexivity|]. intros s' p c E. injection E as <- <- <-. cbn. split; [exact R|]. split; [exact R|]. apply (D pop); auto. congruence. }
  destruct (g_reeval cf).
  - destruct (g_first cf).
    + destruct (evaluate_retold k (s_pop s)) as [E1 E2]. apply First; auto. intros b E. apply (D (s_pop s)); auto.
    + destruct (operators_retold ops F k (s_pop s) L) as [O1 O2]. rewrite O1. destruct (use_operators k (s_pop s) ops) as [ch|]; [|split; [reflexivity|discriminate]]. cbn [rmap bind]. specialize (O2 ch eq_refl).
      rewrite cat_retold. destruct (evaluate_retold (k + n) (cat (s_pop s) ch)) as [E1 E2]. rewrite E1. destruct (evaluate ev (k + n) (cat (s_pop s) ch)) as [w|]; [|split; [reflexivity|discriminate]]. cbn [rmap bind]. specialize (E2 w eq_refl).
      split.
      * unfold retold_extended. change (b_len (retold G (s_pop s))) with (b_len (s_pop s)). rewrite head_retold, tail_retold. reflexivity.
      * intros s' p c E. injection E as <- <- <-. cbn [s_pop]. split; [exact L|]. assert (W : ok w) by (apply (D (s_pop s)); auto). split; apply (D w); auto.
  - destruct (s_first s); [|apply First; auto; intros b E; injection E as <-; auto]. destruct (evaluate_retold k (s_pop s)) as [E1 E2]. apply First; auto. intros b E. apply (D (s_pop s)); auto.
Qed.
Lemma ga_step_retold cf ops s : Forall (order_only_op G) ops -> ok (s_pop s) ->
  ga_step sorter co qs ev' cf ops (retold_state G s) = rmap (retold_state G) (ga_step sorter co qs ev cf ops s) /\ (forall s', ga_step sorter co qs ev cf ops s = Ok s' -> ok (s_pop s')).
Proof.
  intros F L. unfold ga_step. destruct (extended_retold cf ops s F L) as [E1 E2]. rewrite E1. destruct (extended ev cf ops s) as [[[s' p] c]|]; [|split; [reflexivity|discriminate]]. cbn [rmap bind retold_extended]. destruct (E2 s' p c eq_refl) as (K1 & K2 & K3).
  change (b_len (retold G c)) with (b_len c). change (s_first (retold_state G s')) with (s_first s'). change (s_clock (retold_state G s')) with (s_clock s'). change (s_pop (retold_state G s')) with (retold G (s_pop s')).
  assert (Q : forall (r r' : result (batch V)), r' = rmap (retold G) r -> (forall b, r = Ok b -> ok b) ->
    rmap (fun pop => mkSt pop (s_first s') (s_clock s')) r' = rmap (retold_state G) (rmap (fun pop => mkSt pop (s_first s') (s_clock s')) r) /\ (forall q, rmap (fun pop => mkSt pop (s_first s') (s_clock s')) r = Ok q -> ok (s_pop q))).
  { intros r r' -> R. destruct r as [b|]; [|split; [reflexivity|discriminate]]. split; [reflexivity|]. intros q E. injection E as <-. cbn. auto. }
  apply Q; destruct (g_elitist cf).
  - rewrite cat_retold. apply best_retold. exact K2.
  - destruct (b_len c <? g_popsize cf); [|destruct (Nat.eqb (b_len c) (g_popsize cf)); [reflexivity|apply best_retold; auto]].
    destruct (best_retold (s_pop s') (g_popsize cf - b_len c) K1) as [B1 B2]. rewrite B1. destruct (best_of sorter co qs (s_pop s') (g_popsize cf - b_len c)) as [ch|]; [|reflexivity]. cbn [rmap bind]. rewrite cat_retold. reflexivity.
  - apply best_retold. exact K2.
  - destruct (b_len c <? g_popsize cf); [|destruct (Nat.eqb (b_len c) (g_popsize cf)); [intros b E; injection E as <-; auto|apply best_retold; auto]].
    destruct (best_retold (s_pop s') (g_popsize cf - b_len c) K1) as [B1 B2]. destruct (best_of sorter co qs (s_pop s') (g_popsize cf - b_len c)) as [ch|]; [|discriminate]. cbn [bind]. intros b E. injection E as <-. apply (B2 ch). reflexivity.
Qed.
Lemma ga_run_retold cf ops s : Forall (order_only_op G) ops -> ok (s_pop s) -> forall n,
  ga_run sorter co qs ev' cf ops n (retold_state G s) = rmap (retold_state G) (ga_run sorter co qs ev cf ops n s) /\ (forall s', ga_run sorter co qs ev cf ops n s = Ok s' -> ok (s_pop s')).
Proof.
  intros F L. induction n as [|n [IH1 IH2]]; cbn [ga_run].
  - split; [reflexivity|]. intros s' E. injection E as <-. auto.
  - rewrite IH1. destruct (ga_run sorter co qs ev cf ops n s) as [s1|]; [|split; [reflexivity|discriminate]]. cbn [rmap bind]. apply ga_step_retold; auto.
Qed.
Lemma cosyne_step_retold popsize ne cross mut permute s : order_only G cross -> (forall m, mut = Some m -> order_only G m) -> order_only G permute -> ok (s_pop s) ->
  cosyne_step sorter co qs ev' popsize ne cross mut permute (retold_state G s) = rmap (retold_state G) (cosyne_step sorter co qs ev popsize ne cross mut permute s) /\
  (forall s', cosyne_step sorter co qs ev popsize ne cross mut permute s = Ok s' -> ok (s_pop s')).
Proof.
  intros Fc Fm Fp L. unfold cosyne_step. cbn [s_pop s_first s_clock retold_state]. set (k := s_clock s).
  assert (D : forall b b' : batch V, b_desc b' = b_desc b -> ok b -> ok b') by (intros b b' E; unfold num_objs; rewrite E; auto).
  assert (P1 : (if s_first s then evaluate ev' k (retold G (s_pop s)) else Ok (retold G (s_pop s))) = rmap (retold G) (if s_first s then evaluate ev k (s_pop s) else Ok (s_pop s)) /\ (forall b, (if s_first s then evaluate ev k (s_pop s) else Ok (s_pop s)) = Ok b -> ok b)).
  { destruct (s_first s); [|split; [reflexivity|intros b E; injection E as <-; auto]]. destruct (evaluate_retold k (s_pop s)) as [E1 E2]. split; auto. intros b E. apply (D (s_pop s)); auto. }
  destruct P1 as [P1 P2]. rewrite P1. destruct (if s_first s then evaluate ev k (s_pop s) else Ok (s_pop s)) as [pop|]; [|split; [reflexivity|discriminate]]. cbn [rmap bind]. specialize (P2 pop eq_refl). cbv zeta.
  set (nr := Z.to_nat (Z.max _ _)). destruct (best_retold pop nr P2) as [B1 B2]. rewrite B1. destruct (best_of sorter co qs pop nr) as [so|]; [|split; [reflexivity|discriminate]]. cbn [rmap bind]. specialize (B2 so eq_refl).
  rewrite head_retold. destruct (Fc (k + 1) (head so (popsize / 4))) as [C1 C2]; [exact B2|]. rewrite C1. destruct (cross (k + 1) (head so (popsize / 4))) as [ch|]; [|split; [reflexivity|discriminate]]. cbn [rmap bind]. specialize (C2 ch eq_refl).
  assert (Kc : ok ch) by (apply (D (head so (popsize / 4))); auto).
  assert (M1 : match mut with Some m => m (k + 2) (retold G ch) | None => Ok (retold G ch) end = rmap (retold G) (match mut with Some m => m (k + 2) ch | None => Ok ch end) /\ (forall b, match mut with Some m => m (k + 2) ch | None => Ok ch end = Ok b -> ok b)).
  { destruct mut as [m|]; [|split; [reflexivity|intros b E; injection E as <-; auto]]. destruct (Fm m eq_refl (k + 2) ch Kc) as [Q1 Q2]. split; auto. intros b E. apply (D ch); auto. }
  destruct M1 as [M1 M2]. rewrite M1. destruct (match mut with Some m => m (k + 2) ch | None => Ok ch end) as [ch2|]; [|split; [reflexivity|discriminate]]. cbn [rmap bind]. specialize (M2 ch2 eq_refl).
  destruct (Fp (k + 3) pop P2) as [Q1 Q2]. rewrite Q1. destruct (permute (k + 3) pop) as [pm|]; [|split; [reflexivity|discriminate]]. cbn [rmap bind]. rewrite cat_retold.
  set (el := match ne with Some e => if (1 <=? e)%Z then Some (head so (Z.to_nat e)) else None | None => None end).
  assert (El : match ne with Some e => if (1 <=? e)%Z then Some (head (retold G so) (Z.to_nat e)) else None | None => None end = option_map (retold G) el).
  { unfold el. destruct ne as [e|]; [|reflexivity]. destruct (1 <=? e)%Z; [|reflexivity]. cbn. rewrite head_retold. reflexivity. }
  rewrite El. assert (W : match option_map (retold G) el with Some e => cat e (retold G (cat ch2 pm)) | None => retold G (cat ch2 pm) end = retold G (match el with Some e => cat e (cat ch2 pm) | None => cat ch2 pm end)).
  { destruct el; cbn; [apply cat_retold|reflexivity]. }
  rewrite W. set (wh := match el with Some e => cat e (cat ch2 pm) | None => cat ch2 pm end).
  assert (Kw : ok wh) by (unfold wh, el; destruct ne as [e|]; [destruct (1 <=? e)%Z|]; [apply (D so)|apply (D ch2)|apply (D ch2)]; auto).
  destruct (evaluate_retold (k + 4) wh) as [E1 E2]. rewrite E1. destruct (evaluate ev (k + 4) wh) as [w|]; [|split; [reflexivity|discriminate]]. cbn [rmap bind]. specialize (E2 w eq_refl).
  destruct (best_retold w popsize (D wh w E2 Kw)) as [R1 R2]. rewrite R1. destruct (best_of sorter co qs w popsize) as [r|]; [|split; [reflexivity|discriminate]]. cbn [rmap]. split; [reflexivity|]. intros s' E. injection E as <-. cbn. apply R2. reflexivity.
Qed.
Lemma cosyne_run_retold popsize ne cross mut permute s : order_only G cross -> (forall m, mut = Some m -> order_only G m) -> order_only G permute -> ok (s_pop s) -> forall n,
  cosyne_run sorter co qs ev' popsize ne cross mut permute n (retold_state G s) = rmap (retold_state G) (cosyne_run sorter co qs ev popsize ne cross mut permute n s) /\
  (forall s', cosyne_run sorter co qs ev popsize ne cross mut permute n s = Ok s' -> ok (s_pop s')).
Proof.
  intros Fc Fm Fp L. induction n as [|n [IH1 IH2]]; cbn [cosyne_run].
  - split; [reflexivity|]. intros s' E. injection E as <-. auto.
  - rewrite IH1. destruct (cosyne_run sorter co qs ev popsize ne cross mut permute n s) as [s1|]; [|split; [reflexivity|discriminate]]. cbn [rmap bind]. apply cosyne_step_retold; auto.
Qed.
End MON.

(* ---- theorems ---- *)
(* GeneticAlgorithm and SteadyStateGA with one objective, any operators which see only the order *)
Theorem C202_ga_partial : forall (V : Type) sorter co qs ev g cf ops n (s : state V),
  sees_order sorter -> order_map g -> num_objs (s_pop s) = 1 -> Forall (order_only_op [g]) ops ->
  ga_run sorter co qs (fun k vs => map (retold_row [g]) (ev k vs)) cf ops n (retold_state [g] s) = rmap (retold_state [g]) (ga_run sorter co qs ev cf ops n s).
Proof. intros V so co qs ev g cf ops n s S M L F. apply ga_run_retold; auto. Qed.
Theorem C202_cosyne_partial : forall (V : Type) sorter co qs ev g popsize elites cross mutate permute n (s : state V),
  sees_order sorter -> order_map g -> num_objs (s_pop s) = 1 -> order_only [g] cross -> (forall m, mutate = Some m -> order_only [g] m) -> order_only [g] permute ->
  cosyne_run sorter co qs (fun k vs => map (retold_row [g]) (ev k vs)) popsize elites cross mutate permute n (retold_state [g] s) =
  rmap (retold_state [g]) (cosyne_run sorter co qs ev popsize elites cross mutate permute n s).
Proof. intros V so co qs ev g ps el cr mu pe n s S M L F1 F2 F3. apply cosyne_run_retold; auto. Qed.
(* every cross-over with tournaments sees only the order, with any number of objectives *)
Theorem C202_crossover : forall (V : Type) sorter co cross cx G (noise : nat -> list Q) draw,
  sees_order sorter -> Forall order_map G -> order_only G (fun k (b : batch V) => crossover_do sorter co (cross k) cx b (noise k) (draw k)).
Proof.
  intros V so co cross cx G noise draw S M k b L. split; [apply crossover_retold; auto|]. intros b'. unfold crossover_do. destruct (do_tournament _ _ _ _ _ _) as [ps|]; [|discriminate]. cbn [bind].
  destruct (negb _); [discriminate|]. destruct (cross k _ _); [|discriminate]. intros E. injection E as <-. reflexivity.
Qed.
(* Pareto ranks too *)
Theorem C202_ranks : forall (V : Type) co G (b : batch V), Forall order_map G -> num_objs b = length G -> batch_pareto_ranks co (retold G b) false = batch_pareto_ranks co b false.
Proof. intros V co G b M L. apply ranks_retold; auto. Qed.
(* But with two objectives the survivors are chosen by crowding distances, which depend on the values: *)
Definition mr_fit (v : nat) : list fl := match v with 0 => [Fin 0; Fin 30] | 1 => [Fin 30; Fin 0] | 2 => [Fin 1; Fin 20] | _ => [Fin 2; Fin 10] end.
Definition mr_g (x : fl) : fl := match x with Fin z => Fin (if z <=? 0 then z else z + 100)%Z | x => x end.
Definition mr_co : list (list fl) -> list nat :=
  crowd_order_of (fun c => isort (fun i j => Z.leb (nth i c 0%Z) (nth j c 0%Z)) (seq 0 (length c))) (1 # 1000)
    (fun c => isort (fun i j => dle (nth j c (DFin 0)) (nth i c (DFin 0))) (seq 0 (length c))) 2.
Definition mr_run (G : list (fl -> fl)) : result (list nat) :=
  rmap (fun s => b_vals (s_pop s)) (ga_run stable_argsort mr_co qstable (fun _ vs => map (retold_row G) (map mr_fit vs)) (mkConf 3 false true true) [Func (fun _ _ => Ok [0; 1; 2; 3])] 1
    (mkSt (mkBatch [0] [[NaN; NaN]] [true; true] 0) true 0)).
Lemma mr_g_map : order_map mr_g.
Proof.
  split; [|intros [| | |]; reflexivity]. intros [| |x|] [| |y|]; try reflexivity. cbn.
  destruct (Z.leb_spec x 0), (Z.leb_spec y 0); lia.
Qed.
Theorem C202_multi_objective_refuted : exists G, Forall order_map G /\ exists vs vs', mr_run [] = Ok vs /\ mr_run G = Ok vs' /\ ~ Permutation vs vs'.
Proof.
  exists [mr_g; fun x => x]. split; [constructor; [exact mr_g_map|constructor; [split; auto|constructor]]|].
  exists [0; 1; 3], [0; 1; 2]. split; [vm_compute; reflexivity|]. split; [vm_compute; reflexivity|]. intros P. assert (I : In 3 [0; 1; 2]) by (eapply Permutation_in; [exact P|cbn; auto]). cbn in I. intuition discriminate.
Qed.
Print Assumptions C202_ga_partial.
Print Assumptions C202_cosyne_partial.
Print Assumptions C202_crossover.
Print Assumptions C202_ranks.
Print Assumptions C202_multi_objective_refuted.
Example C202_example : sees_order stable_argsort /\ order_map mr_g /\ order_only_op [mr_g] (Func (fun _ (vs : list nat) => Ok (map S vs))) /\
  order_only [mr_g] (fun k (b : batch nat) => Ok (fresh b (rev (b_vals b)))).
Proof.
  split; [|split; [exact mr_g_map|split; [exact Logic.I|]]].
  - intros d c g M. pose proof (nan_fixed g M) as N. destruct M as [M1 M2]. unfold stable_argsort. rewrite map_length.
    assert (A : forall i, at_ (map g c) i = g (at_ c i)) by (intros i; unfold at_; rewrite <- N at 1; apply map_nth).
    assert (T : forall a b, tle (g a) (g b) = tle a b).
    { assert (W : forall a b, tle a b = (is_nan b || (negb (is_nan a) && negb (flt b a)))%bool) by (intros [| | |] [| | |]; reflexivity). intros a b. rewrite !W, M1, !M2. reflexivity. }
    assert (E : forall le le' l, (forall i j : nat, le i j = le' i j) -> isort le l = isort le' l).
    { intros le le' l H. assert (I : forall x q, insert le x q = insert le' x q) by (intros x q; induction q as [|y q IH]; cbn; auto; rewrite H, IH; reflexivity). induction l as [|x l IH]; cbn; auto. rewrite IH, I. reflexivity. }
    apply E. intros i j. rewrite !A, !T. reflexivity.
  - intros k b L. split; [|intros b' E; injection E as <-; reflexivity]. cbn [rmap]. f_equal. change (fresh (retold [mr_g] b) (rev (b_vals (retold [mr_g] b)))) with (fresh b (rev (b_vals b))). symmetry. apply retold_fresh. constructor; [exact mr_g_map|constructor].
Qed.

(* Model of the evolutionary operators (operators/base.py, operators/real.py, operators/sequence.py).
   Random draws are arguments.  Real arithmetic (R or Q) stands for floating point; None is NaN. *)
From Coq Require Import QArith Qround Reals.
From Verif Require Import Prelude FloatLib SortLib BatchModel ParetoModel RankModel.
Close Scope Q_scope.
Open Scope nat_scope.

(* ---------------------------------------------------------------- tournament selection *)
(* operators/base.py:200-224 the fields of a CrossOver *)
Record crossover := mkCx { cx_obj : option Z; cx_size : nat; cx_children : option Z; cx_rate : option Q }.
(* operators/base.py:211-224 CrossOver.__init__ for a problem with the given number of senses *)
Definition make_crossover (num_senses : nat) (obj_index : option Z) (tournament_size : nat)
    (num_children : option Z) (rate : option Q) : result crossover :=
  bind (match obj_index with None => Ok None
        | Some i => rmap Some (problem_normalize_obj_index num_senses (Some i)) end) (fun oi =>
  match num_children, rate with
  | Some _, Some _ => Err ValueError
  | _, _ => Ok (mkCx oi tournament_size num_children rate)
  end).

Definition next_even (n : Z) : Z := if (n mod 2 =? 0)%Z then n else (n + 1)%Z.
(* operators/base.py:226-256 _compute_num_tournaments (the product len * rate is exact) *)
Definition num_tournaments (cx : crossover) (len : nat) : result Z :=
  match cx_children cx, cx_rate cx with
  | None, None => Ok (next_even (Z.of_nat len))
  | Some c, _ => if (c mod 2 =? 0)%Z then Ok c else Err ValueError
  | None, Some rate =>
      let f := (inject_Z (Z.of_nat len) * rate)%Q in
      let result1 := Qceiling f in
      let result2 := Qfloor f in
      Ok (if (result1 =? result2)%Z then next_even result1
          else if (result1 mod 2 =? 0)%Z then result1 else result2)
  end.

(* torch.argmax over a row: the first index of a largest value; NaN wins over everything *)
Definition qbeats (x y : option Q) : bool :=
  match x, y with
  | None, Some _ => true
  | Some a, Some b => negb (Qle_bool a b)
  | _, None => false
  end.
Fixpoint qargmax_from (best : nat) (bv : option Q) (i : nat) (c : list (option Q)) : nat :=
  match c with
  | [] => best
  | x :: t => if qbeats x bv then qargmax_from i x (S i) t else qargmax_from best bv (S i) t
  end.
Definition qargmax (c : list (option Q)) : result nat :=
  match c with [] => Err IndexError | x :: t => Ok (qargmax_from 0 x 1 t) end.

(* problem.make_randint((rows, cols), n): draw is the generator, queried only for a legal shape;
   n = 0 makes the remainder fail unless nothing is drawn *)
Definition randint (draw : nat -> nat -> nat -> list (list nat)) (rows : Z) (cols n : nat) : result (list (list nat)) :=
  if (rows <? 0)%Z then Err RuntimeError
  else if (Nat.eqb n 0 && negb (Nat.eqb (Z.to_nat rows * cols) 0))%bool then Err ZeroDivisionError
  else Ok (draw (Z.to_nat rows) cols n).

Section Tournament.
Context {V : Type}.
Variable sorter : bool -> list fl -> list nat.           (* torch.argsort *)
Variable crowd_order : list (list fl) -> list nat.       (* not used: crowdsort=False *)

(* core.py:4252-4275 SolutionBatch.utility(obj_index, ranking_method="centered"), one objective *)
Definition centered_utility (b : batch V) (obj_index : option Z) : result (list (option Q)) :=
  bind (match obj_index with Some i => normalize_obj_index (num_objs b) i | None => Ok 0%Z end) (fun j =>
  bind (column b j) (fun c =>
  bind (descending b j) (fun d =>
  if existsb is_nan c then Err ValueError else Ok (centered sorter c d)))).

(* operators/base.py:268-292 the ranks by which the candidates are compared; noise: uniform draws *)
Definition candidate_ranks (cx : crossover) (b : batch V) (noise : list Q) : result (list (option Q)) :=
  if ((1 <? num_objs b) && match cx_obj cx with None => true | Some _ => false end)%bool then
    bind (batch_pareto_ranks crowd_order b false) (fun rc =>
    match fst rc with
    | [] => Err IndexError (* torch.amax of an empty tensor *)
    | _ => let n_fronts := list_max (fst rc) + 1 in
           Ok (map2 (fun r u => Some (inject_Z (Z.of_nat n_fronts - Z.of_nat r) + u * (1 # 10))%Q) (fst rc) noise)
    end)
  else centered_utility b (cx_obj cx).

(* operators/base.py:301, 327-328: the winner of one tournament *)
Definition winner (ranks : list (option Q)) (row : list nat) : result nat :=
  bind (qargmax (map (fun i => nth i ranks None) row)) (fun k =>
  match nth_error row k with Some i => Ok i | None => Err IndexError end).

(* operators/base.py:264-365 _do_tournament *)
Definition do_tournament (cx : crossover) (b : batch V) (noise : list Q) (draw : nat -> nat -> nat -> list (list nat))
  : result (list V * list V) :=
  bind (num_tournaments cx (b_len b)) (fun n =>
  bind (candidate_ranks cx b noise) (fun ranks =>
  bind (randint draw n (cx_size cx) (b_len b)) (fun tournament_indices =>
  if Nat.eqb (cx_size cx) 0 then Err IndexError (* argmax over an empty dimension *) else
  bind (sequence (map (winner ranks) tournament_indices)) (fun parents =>
  let split_point := length parents / 2 in
  bind (gather (b_vals b) parents) (fun values =>
  Ok (firstn split_point values, skipn split_point values)))))).

(* operators/base.py:400-403 _make_children_batch (and core.py: an empty batch is full of NaNs) *)
Definition children_batch (b : batch V) (values : list V) : batch V :=
  mkBatch values (map (fun _ => repeat NaN (eval_width b)) values) (b_desc b) (b_ndata b).

(* operators/base.py:405-412 CrossOver._do *)
Definition crossover_do (cross : list V -> list V -> result (list V)) (cx : crossover) (b : batch V)
    (noise : list Q) (draw : nat -> nat -> nat -> list (list nat)) : result (batch V) :=
  bind (do_tournament cx b noise draw) (fun ps =>
  if negb (Nat.eqb (length (fst ps)) (length (snd ps))) then Err ValueError
  else rmap (children_batch b) (cross (fst ps) (snd ps))).
End Tournament.

(* ---------------------------------------------------------------- multi-point cross-over *)
(* operators/real.py:137-142 *)
Definition make_num_points (num_points : Z) : result nat :=
  if (num_points <? 1)%Z then Err ValueError else Ok (Z.to_nat num_points).
(* operators/real.py:180, 191-196: the mask of one pairing *)
Definition cross_mask (len : nat) (points : list nat) : list bool :=
  fold_left (fun mask p => map2 xorb mask (map (fun g => p <=? g) (seq 0 len))) points (repeat false len).
(* torch.where on one row *)
Definition where_ {A} (mask : list bool) (a b : list A) : list A := map3 (fun (m : bool) x y => if m then x else y) mask a b.
(* operators/real.py:144-207 MultiPointCrossOver._do_cross_over *)
Definition multi_point {A} (num_points : nat) (draw : nat -> nat -> nat -> list (list nat))
    (parents1 parents2 : list (list A)) : result (list (list A)) :=
  match parents1 with
  | [] => Err IndexError (* parents1[0] *)
  | p0 :: _ =>
      let num_pairings := length parents1 in
      let solution_length := length p0 in
      bind (if Nat.eqb num_points 1
            then rmap (map (map (fun p => p + 1))) (randint draw (Z.of_nat num_pairings) 1 (solution_length - 1))
            else randint draw (Z.of_nat num_pairings) num_points (solution_length + 1)) (fun points =>
      let masks := map (cross_mask solution_length) points in
      Ok (map3 where_ masks parents1 parents2 ++ map3 where_ masks parents2 parents1))
  end.

(* ---------------------------------------------------------------- cut and splice *)
(* operators/sequence.py:39-63 one pairing; cut1 and cut2 are the generator's answers *)
Definition cut_and_splice {A} (draw : nat -> nat -> nat) (row : nat) (p1 p2 : list A) : result (list A * list A) :=
  if Nat.eqb (length p1) 0 then Err ZeroDivisionError
  else if Nat.eqb (length p2) 0 then Err ZeroDivisionError
  else
    let cutpoint1 := draw (2 * row) (length p1) in
    let cutpoint2 := draw (2 * row + 1) (length p2) in
    Ok (firstn cutpoint1 p1 ++ skipn cutpoint2 p2, firstn cutpoint2 p2 ++ skipn cutpoint1 p1).
(* operators/sequence.py:65-74 *)
Definition cut_and_splice_all {A} (draw : nat -> nat -> nat) (parents1 parents2 : list (list A)) : result (list (list A)) :=
  rmap (fun cs => map fst cs ++ map snd cs)
    (sequence (map3 (cut_and_splice draw) (seq 0 (length parents1)) parents1 parents2)).

(* ---------------------------------------------------------------- Cosyne permutation *)
(* sort in descending order of a boolean column *)
Definition sort_mask (mask : list bool) : list bool := isort (fun a b => (a || negb b)%bool) mask.
(* operators/real.py:681-704 for one column.  keys: uniform draws; qsorter: torch.argsort *)
Definition permute_column {A} (d : A) (qsorter : list Q -> list nat) (col : list A) (mask : list bool) (keys : list Q) : list A :=
  let n := length mask in
  let perm_mask_sorted := sort_mask mask in
  let permutations := qsorter (map2 (fun (m : bool) k => if m then k else 1%Q) mask keys) in
  let perm_sort := isort Nat.leb (map2 (fun (m : bool) i => if m then i else i + n + 1) mask (seq 0 n)) in
  let origins := select perm_mask_sorted perm_sort in
  let targets := select perm_mask_sorted permutations in
  fold_left (fun l p => upd l (fst p) (snd p)) (combine origins (map (fun t => nth t col d) targets)) col.
(* operators/real.py:681-706: every column of the population; newbatch has no evaluations *)
Definition col_at {A} (d : A) (j : nat) (rows : list (list A)) : list A := map (fun r => nth j r d) rows.
Definition permute_rows {A} (d : A) (qsorter : list Q -> list nat) (len : nat) (rows : list (list A))
    (mask : list (list bool)) (keys : list (list Q)) : list (list A) :=
  let cols := map (fun j => permute_column d qsorter (col_at d j rows) (col_at false j mask) (col_at 0%Q j keys)) (seq 0 len) in
  map (fun i => map (fun c => nth i c d) cols) (seq 0 (length rows)).

(* ---------------------------------------------------------------- real-valued operators *)
Local Open Scope R_scope.
(* tensor.pow on numbers: None where the result is not a finite number *)
Definition tpow (a b : R) : option R :=
  if Rlt_dec 0 a then Some (Rpower a b)
  else if Req_EM_T a 0 then (if Rlt_dec 0 b then Some 0 else None)
  else None.
(* operators/base.py:75-98 _respect_bounds, one element; max and min keep NaN *)
Definition respect (lb ub : option R) (x : option R) : option R :=
  let x1 := match lb with Some l => option_map (Rmax l) x | None => x end in
  match ub with Some u => option_map (Rmin u) x1 | None => x1 end.
(* bounds of a problem: one number per gene, or no bounds *)
Definition bound_at (b : option (list R)) (j : nat) : option R :=
  match b with Some l => nth_error l j | None => None end.
Definition respect_row (lb ub : option (list R)) (row : list (option R)) : list (option R) :=
  map (fun j => respect (bound_at lb j) (bound_at ub j) (nth j row None)) (seq 0 (length row)).

(* operators/real.py:672-679 the permutation probabilities and the mask *)
Definition q2r (q : Q) : R := (IZR (Qnum q) / IZR (Zpos (Qden q))).
Definition permute_prob (n : nat) (rank : option Q) : option R :=
  match rank with
  | Some q => option_map (fun p => 1 - p) (tpow (q2r q + 0.5) (1 / INR n))
  | None => None
  end.
(* u <= prob (false for NaN) *)
Definition chosen (prob : option R) (u : R) : bool :=
  match prob with Some p => if Rle_dec u p then true else false | None => false end.
Definition perm_mask (permute_all : bool) (n : nat) (ranks : list (option Q)) (draws : list (list R)) : list (list bool) :=
  map2 (fun r us => map (chosen (if permute_all then Some 1 else permute_prob n r)) us) ranks draws.

(* operators/real.py:60-66 GaussianMutation._do, one gene (u, g: uniform and normal draw) *)
Definition gaussian_gene (lb ub : option R) (stdev prob : R) (x u g : R) : option R :=
  respect lb ub (Some (if Rle_dec u prob then x + stdev * g else x)).
Definition gaussian_mutation (lb ub : option (list R)) (stdev : R) (probability : option R)
    (rows us gs : list (list R)) : list (list (option R)) :=
  let prob := match probability with Some p => p | None => 1 end in
  map3 (fun xs u g => map (fun j => gaussian_gene (bound_at lb j) (bound_at ub j) stdev prob (nth j xs 0) (nth j u 0) (nth j g 0))
                          (seq 0 (length xs))) rows us gs.

(* operators/real.py:456-481 SimulatedBinaryCrossOver._do_cross_over, one gene before the bounds *)
Definition sbx_beta (eta u : R) : option R :=
  if Rlt_dec 0.5 u then tpow (1 / (2 * (1 - u))) (1 / (eta + 1)) else tpow (2 * u) (1 / (eta + 1)).
Definition sbx_child (beta : option R) (a b : R) : option R :=
  option_map (fun t => 0.5 * ((1 + t) * a + (1 - t) * b)) beta.
Definition sbx_raw (eta : R) (parents1 parents2 us : list (list R)) : list (list (option R)) :=
  let row a b u := map3 (fun x y w => sbx_child (sbx_beta eta w) x y) a b u in
  map3 row parents1 parents2 us ++ map3 row parents2 parents1 us.
Definition sbx (lb ub : option (list R)) (eta : R) (parents1 parents2 us : list (list R)) : list (list (option R)) :=
  map (respect_row lb ub) (sbx_raw eta parents1 parents2 us).

(* operators/real.py:523-543 PolynomialMutation.__init__ (float dtype) *)
Definition poly_init (lb ub : option (list R)) : result (list R * list R) :=
  match lb, ub with
  | Some l, Some u => if existsb (fun b => b) (map2 (fun a b => if Rlt_dec b a then true else false) l u) then Err ValueError else Ok (l, u)
  | _, _ => Err ValueError
  end.
(* a / b for floats; None where the result is not a finite number *)
Definition fdiv (a b : R) : option R := if Req_EM_T b 0 then None else Some (a / b).
(* operators/real.py:576-594 one gene that is mutated, before the bounds *)
Definition poly_raw (lb ub eta x r : R) : option R :=
  let mut_str := 1 / (eta + 1) in
  match fdiv (x - lb) (ub - lb), fdiv (ub - x) (ub - lb) with
  | Some delta_1, Some delta_2 =>
      let delta_q :=
        if Rlt_dec r 0.5 then
          match tpow (1 - delta_1) (eta + 1) with
          | Some w => option_map (fun d => d - 1) (tpow (2 * r + (1 - 2 * r) * w) mut_str)
          | None => None end
        else
          match tpow (1 - delta_2) (eta + 1) with
          | Some w => option_map (fun d => 1 - d) (tpow (2 * (1 - r) + 2 * (r - 0.5) * w) mut_str)
          | None => None end in
      option_map (fun dq => x + dq * (ub - lb)) delta_q
  | _, _ => None
  end.
(* operators/real.py:546-603 PolynomialMutation._do: u, r the uniform draws of the gene *)
Definition poly_gene (prob : option R) (lb ub eta x u r : R) : option R :=
  let mutate := match prob with None => true | Some p => if Rlt_dec u p then true else false end in
  respect (Some lb) (Some ub) (if mutate then poly_raw lb ub eta x r else Some x).
Definition poly_mutation (prob : option R) (eta : option R) (lb ub : list R) (rows us rs : list (list R)) : list (list (option R)) :=
  let eta := match eta with Some e => e | None => 20 end in
  map3 (fun xs u r => map (fun j => poly_gene prob (nth j lb 0) (nth j ub 0) eta (nth j xs 0) (nth j u 0) (nth j r 0))
                          (seq 0 (length xs))) rows us rs.

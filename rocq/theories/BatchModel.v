(* Model of SolutionBatch / Solution and of the problem's bookkeeping around them (core.py). *)
From Verif Require Import Prelude FloatLib.

(* core.py:3774-3784 SolutionBatch._normalize_row_index *)
Definition normalize_row_index (rows : nat) (i : Z) : result Z :=
  let i' := if (i <? 0)%Z then (Z.of_nat rows + i)%Z else i in
  if ((i' <? 0) || (Z.of_nat rows - 1 <? i'))%Z then Err IndexError else Ok i'.

(* core.py:3786-3796 SolutionBatch._normalize_obj_index (note: i > num_objs, not >=) *)
Definition normalize_obj_index (num_objs : nat) (i : Z) : result Z :=
  let i' := if (i <? 0)%Z then (Z.of_nat num_objs + i)%Z else i in
  if ((i' <? 0) || (Z.of_nat num_objs <? i'))%Z then Err IndexError else Ok i'.

(* core.py:3798-3810 SolutionBatch._optionally_get_obj_index *)
Definition optionally_get_obj_index (num_objs : nat) (i : option Z) : result Z :=
  match i with
  | None => if negb (Nat.eqb num_objs 1) then Err ValueError else Ok 0%Z
  | Some i => normalize_obj_index num_objs i
  end.

(* core.py:2667-2704 Problem.normalize_obj_index *)
Definition problem_normalize_obj_index (num_senses : nat) (i : option Z) : result Z :=
  match i with
  | None => if Nat.eqb num_senses 1 then Ok 0%Z else Err ValueError
  | Some i =>
      let i' := if (i <? 0)%Z then (Z.of_nat num_senses + i)%Z else i in
      if ((i' <? 0) || (Z.of_nat num_senses <=? i'))%Z then Err IndexError else Ok i'
  end.

Section Batch.
Context {V : Type}.  (* decision values of one solution *)
(* torch.argsort *)
Variable sorter : bool -> list fl -> list nat.

(* core.py:3638-3641 the fields of a SolutionBatch; num_objs = length of _descending.
   b_ndata is the number of extra evaluation columns. Devices, dtypes and storage sharing are
   left out here (sharing is modelled in StaleModel). *)
Record batch := mkBatch { b_vals : list V; b_ev : list (list fl); b_desc : list bool; b_ndata : nat }.
Definition b_len (b : batch) : nat := length (b_vals b).
Definition num_objs (b : batch) : nat := length (b_desc b).
Definition eval_width (b : batch) : nat := num_objs b + b_ndata b.

(* self._evdata[:, j] *)
Definition column (b : batch) (j : Z) : result (list fl) :=
  if ((0 <=? j) && (j <? Z.of_nat (eval_width b)))%Z
  then Ok (map (fun r => nth (Z.to_nat j) r NaN) (b_ev b)) else Err IndexError.
(* self._descending[j] *)
Definition descending (b : batch) (j : Z) : result bool :=
  match nth_error (b_desc b) (Z.to_nat j) with Some d => Ok d | None => Err IndexError end.

(* core.py:3813-3829 SolutionBatch.argsort *)
Definition argsort (b : batch) (obj_index : option Z) : result (list nat) :=
  bind (optionally_get_obj_index (num_objs b) obj_index) (fun j =>
  bind (descending b j) (fun d =>
  bind (column b j) (fun c => Ok (sorter d c)))).

(* core.py:3898-3911 SolutionBatch.argbest *)
Definition argbest (b : batch) (obj_index : option Z) : result nat :=
  bind (optionally_get_obj_index (num_objs b) obj_index) (fun j =>
  bind (descending b j) (fun d =>
  bind (column b j) (fun c => if d then argext true c else argext false c))).

(* core.py:3914-3927 SolutionBatch.argworst *)
Definition argworst (b : batch) (obj_index : option Z) : result nat :=
  bind (optionally_get_obj_index (num_objs b) obj_index) (fun j =>
  bind (descending b j) (fun d =>
  bind (column b j) (fun c => if d then argext false c else argext true c))).

(* indexing a tensor with a list of row numbers *)
Definition gather {A} (l : list A) (idx : list nat) : result (list A) :=
  sequence (map (fun i => match nth_error l i with Some x => Ok x | None => Err IndexError end) idx).
(* core.py:3643-3683 SolutionBatch(slice_of=(source, indices)) *)
Definition take (b : batch) (idx : list nat) : result batch :=
  bind (gather (b_vals b) idx) (fun vs =>
  bind (gather (b_ev b) idx) (fun es => Ok (mkBatch vs es (b_desc b) (b_ndata b)))).

(* core.py:4413-4415 SolutionBatch.take_best, the single-objective branch (n >= 0) *)
Definition take_best (b : batch) (n : nat) (obj_index : option Z) : result batch :=
  bind (argsort b obj_index) (fun idx => take b (firstn n idx)).

(* core.py:4113-4149 SolutionBatch.access_evals(obj_index) *)
Definition access_evals (b : batch) (obj_index : Z) : result (list fl) :=
  bind (normalize_obj_index (num_objs b) obj_index) (column b).

(* core.py:4746-4764 Solution.__init__: the one-row slice [index : index+1] of the parent (note:
   index <= len(parent), not <) *)
Definition solution (b : batch) (index : Z) : result batch :=
  let n := Z.of_nat (b_len b) in
  let i := if (index <? 0)%Z then (n + index)%Z else index in
  if ((0 <=? i) && (i <=? n))%Z
  then let cut := fun A (l : list A) => firstn 1 (skipn (Z.to_nat i) l) in
       Ok (mkBatch (cut V (b_vals b)) (cut (list fl) (b_ev b)) (b_desc b) (b_ndata b))
  else Err IndexError.

(* ------------------------------------------------------------- best and worst ever seen *)
(* One solution that was cloned out of a batch: values and evaluation row. *)
Definition sol := (V * list fl)%type.
(* core.py:2340-2353: per objective the best/worst evaluation and solution so far *)
Record track := mkTrack { t_be : fl; t_best : option sol; t_we : fl; t_worst : option sol }.
Definition init_track (maximize : bool) : track :=
  if maximize then mkTrack NInf None PInf None else mkTrack PInf None NInf None.

(* core.py:2355-2369 *)
Definition first_is_better (maximize : bool) (a b : fl) : bool := if maximize then flt b a else flt a b.
Definition first_is_worse (maximize : bool) (a b : fl) : bool := if maximize then flt a b else flt b a.

(* core.py:2374-2385 the loop body for one objective *)
Definition update_track (maximize : bool) (t : track) (bi wi : nat) (bscore wscore : fl) (bs ws : sol) : track :=
  let t1 := if first_is_better maximize bscore (t_be t) then mkTrack bscore (Some bs) (t_we t) (t_worst t) else t in
  if first_is_worse maximize wscore (t_we t1) then mkTrack (t_be t1) (t_best t1) wscore (Some ws) else t1.

Definition row (b : batch) (i : nat) : result sol :=
  match nth_error (b_vals b) i, nth_error (b_ev b) i with
  | Some v, Some e => Ok (v, e) | _, _ => Err IndexError end.

Definition track_obj (b : batch) (j : nat) (t : track) : result track :=
  bind (argbest b (Some (Z.of_nat j))) (fun bi =>
  bind (argworst b (Some (Z.of_nat j))) (fun wi =>
  bind (access_evals b (Z.of_nat j)) (fun scores =>
  bind (row b bi) (fun bs => bind (row b wi) (fun ws =>
  bind (descending b (Z.of_nat j)) (fun d =>
  Ok (update_track d t bi wi (nth bi scores NaN) (nth wi scores NaN) bs ws))))))).

Fixpoint track_all (b : batch) (j : nat) (ts : list track) : result (list track) :=
  match ts with
  | [] => Ok []
  | t :: ts' => bind (track_obj b j t) (fun t' => bind (track_all b (S j) ts') (fun r => Ok (t' :: r)))
  end.

(* core.py:2387-2395 the reported status *)
Inductive status :=
| One (best worst : sol) (best_eval worst_eval : fl)
| Many (best worst : list (option sol)).
Definition report (ts : list track) : result status :=
  match ts with
  | [t] => match t_best t, t_worst t with
           | Some b, Some w => Ok (One b w (nth 0 (snd b) NaN) (nth 0 (snd w) NaN))
           | _, _ => Err AttributeError (* None.evals *)
           end
  | _ => Ok (Many (map t_best ts) (map t_worst ts))
  end.

(* core.py:2330-2395 Problem._get_best_and_worst (with stores_solution_stats on; the senses of
   the problem are those of its batches): new state and reported status *)
Definition get_best_and_worst (senses : list bool) (st : option (list track)) (b : batch)
  : option (list track) * result status :=
  let ts := match st with Some ts => ts | None => map init_track senses end in
  match track_all b 0 ts with
  | Ok ts' => (Some ts', report ts')
  | Err e => (Some ts, Err e)
  end.

(* core.py:2527-2566 Problem.evaluate, the part after the evaluation, over a history of batches *)
Definition track_history (senses : list bool) (hist : list batch) : option (list track) :=
  fold_left (fun st b => fst (get_best_and_worst senses st b)) hist None.

(* core.py:2397-2425 Problem.compare_solutions *)
Definition compare_solutions (senses : list bool) (a b : sol) (obj_index : option Z) : result fl :=
  bind (problem_normalize_obj_index (length senses) obj_index) (fun j =>
  let score := fun s : sol => nth (Z.to_nat j) (snd s) NaN in
  match nth_error senses (Z.to_nat j) with
  | Some true => Ok (fsub (score a) (score b))
  | Some false => Ok (fsub (score b) (score a))
  | None => Err IndexError
  end).
(* core.py:2427-2457 *)
Definition is_better senses a b obj := rmap (fun d => flt (Fin 0) d) (compare_solutions senses a b obj).
Definition is_worse senses a b obj := rmap (fun d => flt d (Fin 0)) (compare_solutions senses a b obj).

(* ------------------------------------------------------------------------- set_evals *)
(* The `evals` argument: 1-D, 2-D (rows, number of columns) or another number of dimensions. *)
Inductive ev_arg := E1 (xs : list fl) | E2 (rows : list (list fl)) (ncols : nat) | EOther.

(* self._evdata[solutions, :] = rows: the i-th addressed row gets the i-th new row *)
Definition put_rows (ev : list (list fl)) (idx : list nat) (f : nat -> list fl -> list fl) : list (list fl) :=
  fold_left (fun ev ki => match nth_error ev (snd ki) with
                          | Some old => upd ev (snd ki) (f (fst ki) old) | None => ev end)
            (combine (seq 0 (length idx)) idx) ev.

(* core.py:3952-4072 SolutionBatch.set_evals; idx are the row numbers addressed by `solutions`
   (all rows when it is None), eval_data = Some None stands for a tensor that is not 2-D *)
Definition set_evals (b : batch) (evals : ev_arg) (eval_data : option (option (list (list fl) * nat)))
  (idx : list nat) : result batch :=
  let nobj := num_objs b in
  bind (match evals with
        | E1 xs => if negb (Nat.eqb nobj 1) then Err ValueError else Ok (map (fun x => [x]) xs, 1)
        | E2 rows nc => Ok (rows, nc)
        | EOther => Err ValueError
        end) (fun rc =>
  let rows := fst rc in let ncols := snd rc in
  if negb (Nat.eqb (length rows) (length idx)) then Err ValueError else
  let put f := Ok (mkBatch (b_vals b) (put_rows (b_ev b) idx f) (b_desc b) (b_ndata b)) in
  match eval_data with
  | Some None => Err ValueError
  | Some (Some (data, dc)) =>
      if negb (Nat.eqb dc (b_ndata b)) then Err ValueError else
      if negb (Nat.eqb ncols nobj) then Err ValueError else
      if negb (Nat.eqb (length rows) (length data)) then Err ValueError else
      put (fun k _ => nth k rows [] ++ nth k data [])
  | None =>
      if Nat.eqb ncols nobj then
        put (fun k old => nth k rows [] ++ repeat NaN (length old - nobj))
      else if Nat.eqb ncols (eval_width b) then put (fun k _ => nth k rows [])
      else Err ValueError
  end).

(* core.py:4183-4191 SolutionBatch.forget_evals *)
Definition forget_evals (b : batch) (idx : list nat) : batch :=
  mkBatch (b_vals b) (put_rows (b_ev b) idx (fun _ old => repeat NaN (length old))) (b_desc b) (b_ndata b).

(* core.py:4929-4945 Solution.is_evaluated, for the row i of the batch *)
Definition is_evaluated (b : batch) (i : nat) : bool :=
  negb (existsb is_nan (firstn (num_objs b) (nth i (b_ev b) []))).

(* core.py:4194-4287 SolutionBatch.utility(obj_index) without a ranking method *)
Definition utility (b : batch) (check_nans : bool) (obj_index : Z) : result (list fl) :=
  bind (normalize_obj_index (num_objs b) obj_index) (fun j =>
  bind (column b j) (fun c =>
  if check_nans && existsb is_nan c then Err ValueError else
  bind (descending b j) (fun d => Ok (if d then c else map fneg c)))).
End Batch.
Arguments batch : clear implicits.
Arguments status : clear implicits.
Arguments track : clear implicits.

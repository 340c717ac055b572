(* Specification vocabulary for the genetic algorithms. *)
From Verif Require Import Prelude FloatLib BatchModel BatchSpec ParetoModel ParetoSpec GaModel.

(* b' is a legal batch for the same problem as b *)
Definition same_kind {V} (b b' : batch V) : Prop := wf b' /\ b_desc b' = b_desc b /\ b_ndata b' = b_ndata b.
(* what an operator has to guarantee when it succeeds *)
Definition legal {V} (op : operator V) : Prop :=
  match op with
  | Copying _ f => forall k b b', wf b -> f k b = Ok b' -> same_kind b b'
  | InPlace f => forall k b b', wf b -> f k b = Ok b' -> same_kind b b' /\ b_len b' = b_len b
  | Func _ => True
  end.
(* an operator which never fails and never produces an empty batch from a non-empty one *)
Definition productive {V} (op : operator V) : Prop :=
  match op with
  | Copying _ f | InPlace f => forall k b, wf b -> b_vals b <> [] -> exists b', f k b = Ok b' /\ b_vals b' <> []
  | Func g => forall k vs, vs <> [] -> exists vs', g k vs = Ok vs' /\ vs' <> []
  end.
(* evaluation gives one row of the right width per solution *)
Definition evaluates {V} (width : nat) (ev : nat -> list V -> list (list fl)) : Prop :=
  forall k vs, length (ev k vs) = length vs /\ Forall (fun r => length r = width) (ev k vs).
(* a deterministic problem: the evaluation of a solution depends on its values only *)
Definition deterministic {V} (f : V -> list fl) (ev : nat -> list V -> list (list fl)) : Prop :=
  forall k vs, ev k vs = map f vs.
(* x is at least as good as t *)
Definition at_least (maximize : bool) (t x : fl) : bool := negb (if maximize then flt x t else flt t x).
(* the number of solutions which are at least as good as t *)
Definition how_many {V} (maximize : bool) (f : V -> list fl) (t : fl) (vs : list V) : nat :=
  length (filter (fun v => at_least maximize t (nth 0 (f v) NaN)) vs).
(* no solution has a NaN fitness *)
Definition nan_free {V} (f : V -> list fl) : Prop := forall v, is_nan (nth 0 (f v) NaN) = false.
(* every solution of the batch carries the evaluations of its own decision values *)
Definition evaluated {V} (f : V -> list fl) (b : batch V) : Prop := b_ev b = map f (b_vals b).
Definition unevaluated {V} (b : batch V) : Prop := Forall (Forall (fun x => x = NaN)) (b_ev b).

(* ------------------------------------------------------------- the registry of SteadyStateGA *)
(* the operators given to use() before the first step *)
Fixpoint used_before_step {Op} (cs : list (call Op)) : list Op :=
  match cs with Use op :: cs' => op :: used_before_step cs' | _ => [] end.
Fixpoint stepped {Op} (cs : list (call Op)) : bool :=
  match cs with [] => false | Step :: _ => true | Use _ :: cs' => stepped cs' end.
Definition option_list {A} (o : option A) : list A := match o with Some x => [x] | None => [] end.
(* the answer to a call after the calls in `past`, for an instance constructed with the operators c0 *)
Definition expected {Op} (is_cross_over : Op -> bool) (c0 : list Op) (past : list (call Op)) (c : call Op) : answer :=
  match c with
  | Use op =>
      AUse (if stepped past then Err RuntimeError
            else match c0 with
                 | _ :: _ => Err RuntimeError
                 | [] => if existsb (fun o => Bool.eqb (is_cross_over o) (is_cross_over op)) (used_before_step past)
                         then Err ValueError else Ok tt
                 end)
  | Step =>
      AStep (match c0 with
             | _ :: _ => Ok c0
             | [] => match option_list (find is_cross_over (used_before_step past)) ++
                           option_list (find (fun o => negb (is_cross_over o)) (used_before_step past)) with
                     | [] => Err RuntimeError
                     | ops => Ok ops
                     end
             end)
  end.

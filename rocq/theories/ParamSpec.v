(* Specification of parameter vectors: a network is a list of parameters, each a flat list of numbers; a vector is cut into
   consecutive pieces, one per parameter. *)
From Verif Require Import Prelude ParamModel.
Open Scope nat_scope.

Section Spec.
Variable V : Type.

(* consecutive pieces of the given lengths *)
Fixpoint pieces (lens : list nat) (v : list V) : list (list V) :=
  match lens with [] => [] | n :: t => firstn n v :: pieces t (skipn n v) end.

(* a usable network: every reference is valid, every tensor has as many elements as its shape says and is contiguous;
   the names on each level are different *)
Definition tensor_ok (p : ptensor V) : Prop := length (p_data p) = numel p /\ p_contig p = true.
Definition net_ok (m : pmod) (h : pheap V) : Prop :=
  Forall (fun s => snd s < length h /\ tensor_ok (hget h (snd s))) (slots [] m) /\ NoDup (map fst (slots [] m)).

(* parameter i is found in the module under the given path: as an own parameter, or within a submodule *)
Inductive at_path : pmod -> path -> nat -> Prop :=
| at_own own kids n i : In (n, i) own -> at_path (PMod own kids) [n] i
| at_kid own kids k m p i : In (k, m) kids -> at_path m p i -> at_path (PMod own kids) (k :: p) i.
(* the elements of the parameters, in order *)
Definition contents (m : pmod) (h : pheap V) : list (list V) := map (fun i => p_data (hget h i)) (parameters m).
End Spec.
Arguments pieces {V} _ _.
Arguments tensor_ok {V} _.
Arguments net_ok {V} _ _.
Arguments contents {V} _ _.

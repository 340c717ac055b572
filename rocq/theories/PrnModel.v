(* Model of tools/recursiveprintable.py: the texts of ImmutableList, ImmutableSet, ImmutableDict and ObjectArray.
   Objects are numbers; `heap` tells what an object is.  Simplifications: repr of objects which are no such containers is a given
   string (they do not print the containers in turn); max_depth is a natural number (negative limits behave as 0). *)
From Coq Require Import Ascii String.
From Verif Require Import Prelude.
Open Scope string_scope.

(* Leaf: anything else, with its repr; Seq: an Iterable which is no Mapping; Map: a Mapping.  The class name comes first. *)
Inductive node := Leaf (repr : string) | Seq (cls : string) (items : list nat) | Map (cls : string) (items : list (nat * nat)).
Section PRINT.
Variable heap : nat -> node.
(* recursiveprintable.py:57-63, 67-72: ", " before every item but the first *)
Fixpoint puts_items (first_one : bool) (texts : list string) : string :=
  match texts with [] => "" | t :: r => (if first_one then "" else ", ") ++ t ++ puts_items false r end.
(* recursiveprintable.py:33-78 to_string, 37-41 item_repr (which calls to_string of items with the limit reduced by one) *)
Fixpoint item_repr (max_depth : nat) (x : nat) : string :=
  match heap x with
  | Leaf s => s
  | Seq cls l =>
      match max_depth with
      | O => "<...>"
      | S d => cls ++ "([" ++ puts_items true (map (item_repr d) l) ++ "])"
      end
  | Map cls l =>
      match max_depth with
      | O => "<...>"
      | S d => cls ++ "({" ++ puts_items true (map (fun kv => item_repr d (fst kv) ++ ": " ++ item_repr d (snd kv)) l) ++ "})"
      end
  end.
(* x.to_string(max_depth=...) of a container; str(x) and repr(x) have max_depth = 10 (recursiveprintable.py:80-84) *)
Definition to_string (max_depth x : nat) : string := item_repr max_depth x.
Definition str (x : nat) : string := to_string 10 x.
End PRINT.

(* What copying an object graph should mean. *)
From Verif Require Import Prelude CloneModel.

Section H.
Variable h : heap.
(* one object is among the contents of another; objects within reach of a value *)
Definition edge (a c : nat) : Prop := exists n, nth_error h a = Some n /\ In (VRef c) (n_items n).
Inductive reach : nat -> nat -> Prop := reach_refl a : reach a a | reach_step a b c : reach a b -> edge b c -> reach a c.
Definition within (v : val) (a : nat) : Prop := match v with VAtom _ => False | VRef r => reach r a end.
(* every reference points to an object *)
Definition wf_heap : Prop := forall a n c, nth_error h a = Some n -> In (VRef c) (n_items n) -> c < length h.
Definition wf_val (v : val) : Prop := match v with VAtom _ => True | VRef a => a < length h end.
(* no object of the given kind within reach of itself through its contents *)
Definition no_cycle_through (k : kind) (v : val) : Prop :=
  forall a n b, within v a -> nth_error h a = Some n -> n_kind n = k -> edge a b -> ~ reach b a.
End H.

Definition related (B : nat -> nat -> Prop) (v w : val) : Prop :=
  match v, w with VAtom x, VAtom y => x = y | VRef a, VRef b => B a b | _, _ => False end.
(* The object graph at v in h looks like the one at w in h': there is a one-to-one correspondence between their objects (so that what is
   shared or cyclic in one is so in the other), corresponding objects have the same data, keys, number and order of contents, and kinds
   which correspond to each other. *)
Definition isomorphic (kinds : kind -> kind) (h : heap) (v : val) (h' : heap) (w : val) : Prop :=
  exists B : nat -> nat -> Prop,
    related B v w /\
    (forall a b b', B a b -> B a b' -> b = b') /\ (forall a a' b, B a b -> B a' b -> a = a') /\
    (forall a b, B a b -> exists n n', nth_error h a = Some n /\ nth_error h' b = Some n' /\
       n_kind n' = kinds (n_kind n) /\ n_data n' = n_data n /\ n_keys n' = n_keys n /\ Forall2 (related B) (n_items n) (n_items n')).
(* the objects of h are still there, unchanged *)
Definition untouched (h h' : heap) : Prop := forall a, a < length h -> nth_error h' a = nth_error h a.
(* the kinds of objects which cannot be changed through their interface *)
Definition immutable_kind (k : kind) : bool :=
  match k with
  | KBytes | KReadOnlyTensor | KArray false | KObjectArray true | KImmutableList | KImmutableSet | KImmutableDict => true
  | _ => false
  end.
(* the immutable counterpart, and the mutable counterpart of a kind *)
Definition frozen (k : kind) : kind :=
  match k with
  | KTensor => KReadOnlyTensor | KArray _ => KArray false | KDict => KImmutableDict | KSet => KImmutableSet | KList | KTup => KImmutableList
  | k => k
  end.
Definition thawed (k : kind) : kind :=
  match k with
  | KReadOnlyTensor => KTensor | KArray _ => KArray true | KImmutableDict => KDict | KImmutableSet => KSet
  | KImmutableList => KList | KTup => KList
  | k => k
  end.

(* objects without contents of their own *)
Definition leaf (k : kind) : bool :=
  match k with KBytes | KTensor | KReadOnlyTensor | KArray _ | KUnknown => true | _ => false end.
Definition all_within (h : heap) (v : val) (P : node -> Prop) : Prop := forall a n, within h v a -> nth_error h a = Some n -> P n.
(* What deep_clone can copy faithfully: no numpy arrays of objects, no read-only ObjectArrays, no ObjectArray directly within another one;
   objects of unrecognized types only if the user has said what to do with them. *)
Definition clonable (reject_unknown : bool) (h : heap) (v : val) : Prop :=
  all_within h v (fun n =>
    n_kind n <> KObjectNdarray /\ n_kind n <> KObjectArray true /\ (reject_unknown = true -> n_kind n <> KUnknown) /\
    (leaf (n_kind n) = true -> n_items n = []) /\
    (forall ro c x, n_kind n = KObjectArray ro -> In (VRef c) (n_items n) -> nth_error h c = Some x -> forall ro', n_kind x <> KObjectArray ro')).
(* What as_immutable accepts: tensors, numeric arrays, lists, tuples, sets of scalars and tensors, dictionaries with plain keys, and what
   is immutable already (which contains immutable objects only). *)
Inductive plain_key : key -> Prop :=
  | plain_int z : plain_key (KInt z) | plain_str z : plain_key (KStr z) | plain_tuple l : Forall plain_key l -> plain_key (KTuple l).
Definition freezable (h : heap) (v : val) : Prop :=
  all_within h v (fun n =>
    match n_kind n with
    | KTensor | KReadOnlyTensor | KArray _ => n_items n = []
    | KList | KTup => True
    | KDict => Forall plain_key (n_keys n)
    | KSet => forall c x, In (VRef c) (n_items n) -> nth_error h c = Some x -> n_kind x = KTensor \/ n_kind x = KReadOnlyTensor
    | KImmutableList | KImmutableSet | KImmutableDict | KObjectArray true =>
        forall c x, In (VRef c) (n_items n) -> nth_error h c = Some x -> immutable_kind (n_kind x) = true
    | _ => False
    end).
Definition no_tuple_keys (h : heap) (v : val) : Prop := all_within h v (fun n => forall l, ~ In (KTuple l) (n_keys n)).
Definition no_object_arrays (h : heap) (v : val) : Prop := all_within h v (fun n => forall ro, n_kind n <> KObjectArray ro).

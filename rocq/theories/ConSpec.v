(* What the attribute of a container, and the cast copy of a container should be. *)
From Verif Require Import Prelude CloneModel CloneSpec.

(* the first two data of a tensor are its dtype and its device *)
Definition has_dtype (d : Z) (n : node) : Prop := nth_error (n_data n) 0 = Some d.
Definition has_device (d : Z) (n : node) : Prop := nth_error (n_data n) 1 = Some d.

Section H.
Variable h : heap.
Variable v : val.
(* the tensors and the objects of unrecognized types within reach *)
Definition tensor_within (n : node) : Prop := exists a, within h v a /\ nth_error h a = Some n /\ (n_kind n = KTensor \/ n_kind n = KReadOnlyTensor).
Definition stranger_within : Prop := exists a n, within h v a /\ nth_error h a = Some n /\ (n_kind n = KUnknown \/ exists c, n_kind n = KClonable c).
(* tensors have a dtype and a device; tensors and bytes do not contain other objects *)
Definition well_formed : Prop := all_within h v (fun n =>
  match n_kind n with KTensor | KReadOnlyTensor => 2 <= length (n_data n) /\ n_items n = [] | KBytes => n_items n = [] | _ => True end).
(* r says which dtype (or device) the tensors within reach have *)
Definition tells (has : Z -> node -> Prop) (r : option Z) : Prop :=
  match r with None => forall n, ~ tensor_within n | Some d => (exists n, tensor_within n) /\ forall n, tensor_within n -> has d n end.
Definition mismatch (has : Z -> node -> Prop) : Prop := exists n1 n2 d1 d2, tensor_within n1 /\ tensor_within n2 /\ has d1 n1 /\ has d2 n2 /\ d1 <> d2.
End H.

(* The graph at w in h' is like the one at v in h: a one-to-one correspondence of their objects, under which the contents correspond, and
   corresponding objects are related by R *)
Definition alike (R : node -> node -> Prop) (h : heap) (v : val) (h' : heap) (w : val) : Prop :=
  exists B : nat -> nat -> Prop,
    related B v w /\
    (forall a b b', B a b -> B a b' -> b = b') /\ (forall a a' b, B a b -> B a' b -> a = a') /\
    (forall a b, B a b -> within h v a /\ exists n n', nth_error h a = Some n /\ nth_error h' b = Some n' /\ R n n' /\ Forall2 (related B) (n_items n) (n_items n')).

(* an object in a cast copy: a tensor with the dtype and the device asked for; any other object has the same data and keys, and the same
   kind, except that immutable lists and dictionaries become mutable *)
Definition cast_of (conv : Z -> Z -> list Z -> list Z) (dtype device : option Z) (n n' : node) : Prop :=
  match n_kind n with
  | KTensor =>
      exists d v l, (n_data n = d :: v :: l)%Z /\ n_kind n' = KTensor /\ n_keys n' = n_keys n /\
        exists d' v', d' = match dtype with Some x => x | None => d end /\ v' = match device with Some x => x | None => v end /\
          n_data n' = d' :: v' :: (if Z.eq_dec d d' then l else conv d d' l)
  | k => n_data n' = n_data n /\ n_keys n' = n_keys n /\ n_kind n' = match k with KImmutableList => KList | KImmutableDict => KDict | k => k end
  end.
(* what can be cast: tensors (with a dtype and a device), bytes, lists, tuples, sets, dictionaries, immutable lists and dictionaries *)
Definition castable (h : heap) (v : val) : Prop :=
  all_within h v (fun n => match n_kind n with
    | KTensor => 2 <= length (n_data n) /\ n_items n = []
    | KBytes => n_items n = []
    | KList | KTup | KSet | KDict | KImmutableList | KImmutableDict => True
    | _ => False end).

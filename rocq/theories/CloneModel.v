(* Model of tools/cloning.py (deep_clone), tools/immutable.py (as_immutable, mutable_copy, the immutable containers) over a heap of objects.
   An object is a node with a kind, numeric data (for arrays and bytes), keys (for dictionaries) and contents; ids are addresses. None,
   numbers and strings are values without identity. The three functions share their traversal, [walk]: a memo from ids to copies, which is
   looked at first; what they do with each kind of object are the functions [deep_clone_visit], [as_immutable_visit] and [mutable_copy_visit].
   Simplifications: containers do not have further attributes; instances of Clonable classes are cloned field by field; objects of
   unrecognized types have no contents; hashing and equality of keys: keys are values which are equal to their clones; the private list or
   dictionary inside an immutable container is not an object of its own; ObjectArrays which contain themselves are not modelled;
   as_immutable on numpy arrays of dtype object and mutable_copy on ObjectArrays are not
   modelled here (NotImplementedError stands for "not modelled"). *)
From Verif Require Import Prelude.

Inductive val := VAtom (z : Z) | VRef (a : nat).
Inductive key := KInt (z : Z) | KStr (z : Z) | KTuple (l : list key) | KOther (z : Z).
Inductive kind :=
  | KBytes | KTensor | KReadOnlyTensor | KArray (writeable : bool) | KObjectNdarray | KObjectArray (read_only : bool)
  | KList | KTup | KSet | KDict | KImmutableList | KImmutableSet | KImmutableDict
  | KClonable (cls : nat) | KUnknown.
Record node := Node { n_kind : kind; n_data : list Z; n_keys : list key; n_items : list val }.
Definition heap := list node.
Definition memo := list (nat * nat).
Fixpoint mlookup (m : memo) (a : nat) : option nat := match m with [] => None | (x, b) :: t => if x =? a then Some b else mlookup t a end.

(* what to do with an object which is not in the memo *)
Inductive action :=
  | Keep                    (* the result is the object itself, nothing is put into the memo *)
  | Copy (n : node)         (* a new object; its contents are those of n *)
  | Fill (k : kind)         (* an empty new object of this kind is put into the memo and then filled with copies of the contents *)
  | FillTuple               (* a list is put into the memo and filled; then a tuple is made of it, and put into the memo *)
  | Fail (e : exn).

Section WALK.
Variable visit : heap -> node -> action.
(* filling of the object at address b: append, add, and assignment of items *)
Definition add_item (h : heap) (b : nat) (v : val) : heap :=
  match nth_error h b with Some n => upd h b (Node (n_kind n) (n_data n) (n_keys n) (n_items n ++ [v])) | None => h end.
Section ITEMS.
Variable w : heap -> memo -> val -> result (heap * memo * val).
Fixpoint walk_items (h : heap) (m : memo) (b : nat) (l : list val) : result (heap * memo) :=
  match l with
  | [] => Ok (h, m)
  | v :: t => bind (w h m v) (fun r => let '(h1, m1, v1) := r in walk_items (add_item h1 b v1) m1 b t)
  end.
End ITEMS.
Fixpoint walk (fuel : nat) (h : heap) (m : memo) (v : val) : result (heap * memo * val) :=
  match v with
  | VAtom _ => Ok (h, m, v)
  | VRef a =>
    match mlookup m a with
    | Some b => Ok (h, m, VRef b)
    | None =>
      match fuel with
      | O => Err OutOfFuel
      | S f =>
        match nth_error h a with
        | None => Err RuntimeError
        | Some n =>
          match visit h n with
          | Keep => Ok (h, m, v)
          | Copy n1 => Ok (h ++ [n1], (a, length h) :: m, VRef (length h))
          | Fill k => bind (walk_items (walk f) (h ++ [Node k (n_data n) (n_keys n) []]) ((a, length h) :: m) (length h) (n_items n)) (fun r =>
                      let '(h1, m1) := r in Ok (h1, m1, VRef (length h)))
          | FillTuple => bind (walk_items (walk f) (h ++ [Node KList [] [] []]) ((a, length h) :: m) (length h) (n_items n)) (fun r =>
                         let '(h1, m1) := r in
                         let items := match nth_error h1 (length h) with Some l => n_items l | None => [] end in
                         Ok (h1 ++ [Node KTup (n_data n) (n_keys n) items], (a, length h1) :: m1, VRef (length h1)))
          | Fail e => Err e
          end
        end
      end
    end
  end.
End WALK.

Definition kind_of (h : heap) (v : val) : option kind := match v with VAtom _ => None | VRef a => option_map n_kind (nth_error h a) end.

(* cloning.py:25-199, the cases in their order; with objectarray.py:404-438 (the clone of an ObjectArray is filled by set_item, which calls
   as_immutable on the cloned items) and cloning.py:202-254, 288-339 for Clonable and immutable objects *)
Inductive fallback := OtherwiseDeepcopy | OtherwiseReturn | OtherwiseFail.
Definition is_object_array (k : option kind) : bool := match k with Some (KObjectArray _) => true | _ => false end.
Definition deep_clone_visit (fb : fallback) (h : heap) (n : node) : action :=
  match n_kind n with
  | KBytes => Keep
  | KArray _ | KObjectNdarray => Copy n
  | KObjectArray _ => if existsb (fun v => is_object_array (kind_of h v)) (n_items n) then Fail AttributeError else Fill (KObjectArray false)
  | KImmutableList => Fill KImmutableList
  | KImmutableSet => Fill KImmutableSet
  | KImmutableDict => Fill KImmutableDict
  | KReadOnlyTensor => Copy n
  | KTensor => Copy n
  | KClonable c => Fill (KClonable c)
  | KDict => Fill KDict
  | KList => Fill KList
  | KSet => Fill KSet
  | KTup => FillTuple
  | KUnknown => match fb with OtherwiseDeepcopy => Copy n | OtherwiseReturn => Keep | OtherwiseFail => Fail TypeError end
  end.
(* cloning.py:95-121: the flags *)
Definition fallback_of (deepcopy return_ fail : bool) : result fallback :=
  match deepcopy, return_, fail with
  | true, false, false => Ok OtherwiseDeepcopy
  | false, true, false => Ok OtherwiseReturn
  | false, false, true => Ok OtherwiseFail
  | _, _, _ => Err ValueError
  end.
Definition deep_clone (deepcopy return_ fail : bool) (fuel : nat) (h : heap) (v : val) : result (heap * val) :=
  bind (fallback_of deepcopy return_ fail) (fun fb => rmap (fun r => (fst (fst r), snd r)) (walk (deep_clone_visit fb) fuel h [] v)).

(* immutable.py:221-239 *)
Fixpoint acceptable_key (k : key) : bool :=
  match k with KInt _ | KStr _ => true | KTuple l => forallb acceptable_key l | KOther _ => false end.
(* immutable.py:50-96, with 150-184, 187-218 and 242-263 for the constructors; immutable lists and sets define __eq__ and are not hashable,
   so that they cannot be elements of a set (205) *)
Definition becomes_unhashable (k : option kind) : bool :=
  match k with
  | None => false
  | Some k => match k with KTensor | KReadOnlyTensor => false | _ => true end
  end.
Definition as_immutable_visit (h : heap) (n : node) : action :=
  match n_kind n with
  | KImmutableList | KImmutableSet | KImmutableDict | KReadOnlyTensor | KArray false | KObjectArray true => Keep
  | KTensor => Copy (Node KReadOnlyTensor (n_data n) (n_keys n) (n_items n))
  | KObjectArray false => Fail AttributeError          (* x.clone() is a numpy array, without get_read_only_view *)
  | KObjectNdarray => Fail NotImplementedError
  | KArray true => Copy (Node (KArray false) (n_data n) (n_keys n) (n_items n))
  | KDict => if forallb acceptable_key (n_keys n) then Fill KImmutableDict else Fail TypeError
  | KSet => if existsb (fun v => becomes_unhashable (kind_of h v)) (n_items n) then Fail TypeError else Fill KImmutableSet
  | KList | KTup => Fill KImmutableList
  | KBytes => Copy (Node KImmutableList [] [] (map VAtom (n_data n)))
  | KClonable _ | KUnknown => Fail TypeError
  end.
Definition as_immutable (fuel : nat) (h : heap) (v : val) : result (heap * val) :=
  rmap (fun r => (fst (fst r), snd r)) (walk as_immutable_visit fuel h [] v).

(* immutable.py:99-126, with 188-193, 213-218 and 273-281; the keys are passed to mutable_copy too, which does not
   know tuples *)
Definition mutable_copy_visit (h : heap) (n : node) : action :=
  match n_kind n with
  | KReadOnlyTensor => Copy (Node KTensor (n_data n) (n_keys n) (n_items n))
  | KObjectArray _ => Fail NotImplementedError         (* not modelled: it is converted with a memo of its own *)
  | KArray _ => Copy (Node (KArray true) (n_data n) (n_keys n) (n_items n))
  | KObjectNdarray => Copy n
  | KTensor => Copy n
  | KImmutableList => Fill KList
  | KImmutableSet => Fill KSet
  | KImmutableDict => if existsb (fun k => match k with KTuple _ => true | _ => false end) (n_keys n) then Fail TypeError else Fill KDict
  | KBytes | KList | KTup | KSet | KDict | KClonable _ | KUnknown => Fail TypeError
  end.
Definition mutable_copy (fuel : nat) (h : heap) (v : val) : result (heap * val) :=
  rmap (fun r => (fst (fst r), snd r)) (walk mutable_copy_visit fuel h [] v).

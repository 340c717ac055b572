(* Model of ==, != , `in` and unpickling of the immutable containers (tools/immutable.py), on values.
   Values: None, numbers, strings (lists of characters), and the Python lists, tuples, sets and dictionaries and the immutable lists, sets and
   dictionaries made of them.  Keys and elements of sets are numbers and strings.  Objects have no identity here: Python's lists and dictionaries
   skip the comparison of an object with itself; this matters only where such a comparison is not true.  Sharing and cycles are the
   subject of CloneModel.  Tensors and arrays inside of containers (whose == is elementwise) are left out. *)
From Verif Require Import Prelude.

Inductive atom := ANum (z : Z) | AStr (s : list nat).
Inductive pv :=
  | PNone | PNum (z : Z) | PStr (s : list nat)
  | PList (l : list pv) | PTup (l : list pv) | PSet (l : list atom) | PDict (d : list (atom * pv))
  | IList (l : list pv) | ISet (l : list atom) | IDict (d : list (atom * pv)).
Definition of_atom (a : atom) : pv := match a with ANum z => PNum z | AStr s => PStr s end.
Definition atom_eqb (a b : atom) : bool :=
  match a, b with ANum x, ANum y => Z.eqb x y | AStr x, AStr y => if list_eq_dec Nat.eq_dec x y then true else false | _, _ => false end.
Definition member (a : atom) (l : list atom) : bool := existsb (atom_eqb a) l.
Fixpoint lookup (k : atom) (d : list (atom * pv)) : option pv :=
  match d with [] => None | (k', v) :: t => if atom_eqb k' k then Some v else lookup k t end.

(* immutable.py:50-96 *)
Fixpoint as_immutable (x : pv) : pv :=
  match x with
  | PList l | PTup l => IList (map as_immutable l)
  | PSet l => ISet l
  | PDict d => IDict (map (fun kv => (fst kv, as_immutable (snd kv))) d)
  | x => x
  end.

(* enumerate(x); None: not iterable *)
Definition iterate (x : pv) : option (list pv) :=
  match x with
  | PNone | PNum _ => None
  | PStr s => Some (map (fun c => PStr [c]) s)
  | PList l | PTup l | IList l => Some l
  | PSet l | ISet l => Some (map of_atom l)
  | PDict d | IDict d => Some (map (fun kv => of_atom (fst kv)) d)
  end.
Section COMPARE.
Variable eq : pv -> pv -> result bool.
(* immutable.py:171-184 ImmutableSequence.__eq__; __ne__ is its negation *)
Fixpoint sequence_eq (l : list pv) (other : list pv) : result bool :=
  match other with
  | [] => Ok (match l with [] => true | _ => false end)
  | y :: k => match l with
              | [] => Ok false
              | x :: l => bind (eq x y) (fun b => if b then sequence_eq l k else Ok false)
              end
  end.
(* lists and tuples of Python: lengths first, then up to the first difference *)
Definition python_list_eq (l k : list pv) : result bool := if length l =? length k then sequence_eq l k else Ok false.
(* dictionaries of Python *)
Fixpoint items_eq (d e : list (atom * pv)) : result bool :=
  match d with
  | [] => Ok true
  | (k, v) :: d => match lookup k e with None => Ok false | Some w => bind (eq v w) (fun b => if b then items_eq d e else Ok false) end
  end.
Definition python_dict_eq (d e : list (atom * pv)) : result bool := if length d =? length e then items_eq d e else Ok false.
End COMPARE.
(* sets of Python, and collections.abc.Set.__eq__: equal sizes, and every element of the one is in the other *)
Definition set_eq (l k : list atom) : bool := (length l =? length k) && forallb (fun a => member a k) l.
(* x == y.  Python's types answer NotImplemented to an immutable container, whose method is then asked; collections.abc.Mapping.__eq__ compares
   dict(self.items()) with dict(other.items()) *)
Fixpoint py_eq (fuel : nat) (x y : pv) : result bool :=
  match fuel with
  | O => Err OutOfFuel
  | S f =>
    match x, y with
    | IList l, _ => match iterate y with None => Err TypeError | Some k => sequence_eq (py_eq f) l k end
    | _, IList l => match iterate x with None => Err TypeError | Some k => sequence_eq (py_eq f) l k end
    | IDict d, PDict e | IDict d, IDict e => python_dict_eq (py_eq f) d e
    | PDict e, IDict d => python_dict_eq (py_eq f) d e
    | PDict d, PDict e => python_dict_eq (py_eq f) d e
    | ISet l, PSet k | ISet l, ISet k | PSet l, PSet k => Ok (set_eq l k)
    | PSet k, ISet l => Ok (set_eq l k)
    | PList l, PList k | PTup l, PTup k => python_list_eq (py_eq f) l k
    | PNone, PNone => Ok true
    | PNum a, PNum b => Ok (Z.eqb a b)
    | PStr a, PStr b => Ok (if list_eq_dec Nat.eq_dec a b then true else false)
    | _, _ => Ok false
    end
  end.
Fixpoint size (x : pv) : nat :=
  match x with
  | PList l | PTup l | IList l => S (list_sum (map size l))
  | PDict d | IDict d => S (list_sum (map (fun kv => size (snd kv)) d))
  | _ => 1
  end.
Definition equals (x y : pv) : result bool := py_eq (S (size x + size y)) x y.

(* immutable.py:203-204 ImmutableSet.__contains__; immutable lists, sets and dictionaries are not hashable *)
Definition contains (l : list atom) (x : pv) : result bool :=
  match as_immutable x with
  | PNum z => Ok (member (ANum z) l)
  | PStr s => Ok (member (AStr s) l)
  | PNone => Ok false
  | _ => Err TypeError
  end.

(* pickle.loads(pickle.dumps(x)): contents first, then __setstate__ (immutable.py:133-147) of the immutable containers *)
Fixpoint unpickled (x : pv) : result pv :=
  match x with
  | PList l => rmap PList (sequence (map unpickled l))
  | PTup l => rmap PTup (sequence (map unpickled l))
  | PDict d => rmap PDict (sequence (map (fun kv => rmap (pair (fst kv)) (unpickled (snd kv))) d))
  | IList l => rmap IList (sequence (map unpickled l))
  | IDict d => rmap IDict (sequence (map (fun kv => rmap (pair (fst kv)) (unpickled (snd kv))) d))
  | ISet _ => Err NotImplementedError
  | x => Ok x
  end.

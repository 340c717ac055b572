(* Model of tools/objectarray.py: ObjectArray, its slices, views, copies and assignments.
   An ObjectArray is a list of indices into a list of objects (its store), which it may share with other ObjectArrays. Arrays are
   numbered by handles. Values given by the user are converted by as_immutable, which is an argument here ([freeze]; see CloneModel for
   a model of it); ids of objects decide what its memo finds. Simplifications: values are ObjectArrays or contain no ObjectArrays; sequences (other than ObjectArrays)
   do not contain themselves; devices, pickling and the conversion to numpy (numpy(), clone() without preserve_read_only) are left out;
   indices are integers, slices and lists of integers (boolean masks amount to lists of integers). *)
From Verif Require Import Prelude.

Section OBJ.
Variable X : Type.                       (* values of the user *)
Variable E : Type.                       (* immutable objects *)
Variable freeze : X -> result E.         (* as_immutable *)
Variable kept : X -> bool.               (* already immutable: as_immutable does not put these into the memo (immutable.py:62-64) *)

Inductive elem := ENone | EVal (e : E) | EArr (h : nat).
Inductive input := IVal (id : nat) (x : X) | IArr (h : nat).
Record arr := Arr { a_indices : list nat; a_store : nat; a_ro : bool }.
Record state := St { stores : list (list elem); arrs : list arr }.
Inductive index := At (i : Z) | Slice (start stop step : option Z) | Fancy (l : list Z).
Inductive out := OUnit | OElem (e : elem) | OHandle (h : nat).

(* indexing of the one-dimensional tensor of indices by an integer *)
Definition int_index (n : nat) (i : Z) : result nat :=
  if (i <? - Z.of_nat n)%Z || (Z.of_nat n <=? i)%Z then Err IndexError else Ok (Z.to_nat (if (i <? 0)%Z then i + Z.of_nat n else i)%Z).
(* ... and by a slice: bounds are clipped; torch wants positive steps *)
Definition clip_bound (n : nat) (z : Z) : Z := Z.max 0 (Z.min (Z.of_nat n) (if (z <? 0)%Z then z + Z.of_nat n else z)%Z).
Definition slice_positions (n : nat) (start stop step : option Z) : result (list nat) :=
  let a := match start with None => 0%Z | Some z => clip_bound n z end in
  let b := match stop with None => Z.of_nat n | Some z => clip_bound n z end in
  let s := match step with None => 1%Z | Some z => z end in
  if (s <=? 0)%Z then Err ValueError
  else Ok (map (fun k => Z.to_nat (a + Z.of_nat k * s)) (seq 0 (Z.to_nat ((b - a + s - 1) / s)))).
(* _indices[i] for slices and lists *)
Definition positions (n : nat) (i : index) : result (list nat) :=
  match i with
  | At z => rmap (fun p => [p]) (int_index n z)
  | Slice a b s => slice_positions n a b s
  | Fancy l => sequence (map (int_index n) l)
  end.
Definition select (l : list nat) (ps : list nat) : list nat := map (fun p => nth p l 0) ps.

(* objectarray.py:168-178: an array of the given length, filled with None *)
Definition new_array (n : nat) (ro : bool) (st : state) : state * nat :=
  (St (stores st ++ [repeat ENone n]) (arrs st ++ [Arr (seq 0 n) (length (stores st)) ro]), length (arrs st)).

Definition fetch (st : state) (s i : nat) : result elem :=
  match nth_error (stores st) s with Some l => match nth_error l i with Some e => Ok e | None => Err IndexError end | None => Err IndexError end.
(* 318-321 *)
Definition get_int (st : state) (h : nat) (i : Z) : result elem :=
  match nth_error (arrs st) h with
  | None => Err RuntimeError
  | Some a => bind (int_index (length (a_indices a)) i) (fun p => fetch st (a_store a) (nth p (a_indices a) 0))
  end.
(* 322-339: a slice has the storage of the original, so that the store is shared; a selection by a list is a copy *)
Definition get_many (st : state) (h : nat) (i : index) : state * result out :=
  match nth_error (arrs st) h with
  | None => (st, Err RuntimeError)
  | Some a =>
    match positions (length (a_indices a)) i with
    | Err e => (st, Err e)
    | Ok ps =>
      let indices := select (a_indices a) ps in
      match i with
      | Fancy _ =>
        match sequence (map (fetch st (a_store a)) indices) with
        | Err e => (st, Err e)
        | Ok es => (St (stores st ++ [es]) (arrs st ++ [Arr (seq 0 (length indices)) (length (stores st)) (a_ro a)]), Ok (OHandle (length (arrs st))))
        end
      | _ => (St (stores st) (arrs st ++ [Arr indices (a_store a) (a_ro a)]), Ok (OHandle (length (arrs st))))
      end
    end
  end.
(* immutable.py:50-96 on an item, with the memo of set_item: the array itself is in the memo (objectarray.py:362) *)
Definition item_memo := list (nat * E).
Fixpoint ilookup (m : item_memo) (id : nat) : option E := match m with [] => None | (x, e) :: t => if x =? id then Some e else ilookup t id end.
Definition as_item (st : state) (self : nat) (m : item_memo) (x : input) : result (item_memo * elem) :=
  match x with
  | IArr h => if h =? self then Ok (m, EArr self)
              else match nth_error (arrs st) h with
                   | Some a => if a_ro a then Ok (m, EArr h) else Err AttributeError      (* x.clone() is a numpy array *)
                   | None => Err RuntimeError
                   end
  | IVal id x => match ilookup m id with
                 | Some e => Ok (m, EVal e)
                 | None => rmap (fun e => (if kept x then m else (id, e) :: m, EVal e)) (freeze x)
                 end
  end.
Definition put (st : state) (s i : nat) (e : elem) : state :=
  match nth_error (stores st) s with Some l => St (upd (stores st) s (upd l i e)) (arrs st) | None => st end.
(* 344-395; the items are written one after the other, so that an exception leaves the first ones written *)
Fixpoint put_items (st : state) (self s : nat) (m : item_memo) (indices : list nat) (xs : list input) : state * result out :=
  match indices, xs with
  | i :: is, x :: t =>
    match as_item st self m x with
    | Ok (m1, e) => put_items (put st s i e) self s m1 is t
    | Err e => (st, Err e)
    end
  | _, _ => (st, Ok OUnit)
  end.
Definition set_int (st : state) (h : nat) (i : Z) (x : input) : state * result out :=
  match nth_error (arrs st) h with
  | None => (st, Err RuntimeError)
  | Some a =>
    if a_ro a then (st, Err ValueError)
    else match int_index (length (a_indices a)) i with
         | Err e => (st, Err e)
         | Ok p => match as_item st h [] x with
                   | Ok (_, e) => (put st (a_store a) (nth p (a_indices a) 0) e, Ok OUnit)
                   | Err e => (st, Err e)
                   end
         end
  end.
Definition set_many (st : state) (h : nat) (i : index) (xs : list input) : state * result out :=
  match nth_error (arrs st) h with
  | None => (st, Err RuntimeError)
  | Some a =>
    if a_ro a then (st, Err ValueError)
    else match positions (length (a_indices a)) i with
         | Err e => (st, Err e)
         | Ok ps => if length xs =? length ps then put_items st h (a_store a) [] (select (a_indices a) ps) xs else (st, Err TypeError)
         end
  end.
(* 344-395 when an ObjectArray is assigned to a slice: it is iterated over (400-402) while the items are written, so that each of its items is read
   just before it is written.  The array itself and, if the whole array is assigned to, the given array are in the memo (362, 380-382) *)
Definition as_given (st : state) (self src : nat) (whole : bool) (e : elem) : result elem :=
  match e with
  | EArr h => if h =? self then Ok e else if whole && (h =? src) then Ok (EArr self)
              else match nth_error (arrs st) h with Some a => if a_ro a then Ok e else Err AttributeError | None => Err RuntimeError end
  | e => Ok e
  end.
Fixpoint copy_items (st : state) (self s src : nat) (whole : bool) (q : nat) (indices : list nat) : state * result out :=
  match indices with
  | [] => (st, Ok OUnit)
  | i :: is =>
    match get_int st src (Z.of_nat q) with
    | Err e => (st, Err e)
    | Ok e => match as_given st self src whole e with
              | Ok e1 => copy_items (put st s i e1) self s src whole (S q) is
              | Err x => (st, Err x)
              end
    end
  end.
Definition set_from (st : state) (h : nat) (i : index) (src : nat) : state * result out :=
  match nth_error (arrs st) h with
  | None => (st, Err RuntimeError)
  | Some a =>
    if a_ro a then (st, Err ValueError)
    else match positions (length (a_indices a)) i with
         | Err e => (st, Err e)
         | Ok ps =>
           match nth_error (arrs st) src with
           | None => (st, Err RuntimeError)
           | Some b => let indices := select (a_indices a) ps in
                       if length (a_indices b) =? length indices
                       then copy_items st h (a_store a) src (if list_eq_dec Nat.eq_dec indices (a_indices a) then true else false) 0 indices
                       else (st, Err TypeError)
           end
         end
  end.
(* 464-470 *)
Definition read_only_view (st : state) (h : nat) : state * result out :=
  match get_many st h (Slice None None None) with
  | (st1, Ok (OHandle v)) =>
    (match nth_error (arrs st1) v with Some a => St (stores st1) (upd (arrs st1) v (Arr (a_indices a) (a_store a) true)) | None => st1 end, Ok (OHandle v))
  | r => r
  end.
(* the elements of an array, as it is iterated over (400-402) *)
Definition elements (st : state) (h : nat) : result (list elem) :=
  match nth_error (arrs st) h with
  | None => Err RuntimeError
  | Some a => sequence (map (fetch st (a_store a)) (a_indices a))
  end.
(* elements put into an array at consecutive places: each result[i] = e is a set_item with a memo of its own *)
Definition as_own (st : state) (self : nat) (e : elem) : result elem :=
  match e with
  | EArr h => if h =? self then Ok e else match nth_error (arrs st) h with Some a => if a_ro a then Ok e else Err AttributeError | None => Err RuntimeError end
  | e => Ok e
  end.
Fixpoint put_elems (st : state) (self s i : nat) (es : list elem) : state * result out :=
  match es with
  | [] => (st, Ok (OHandle self))
  | e :: t => match as_own st self e with
              | Ok e1 => put_elems (put st s i e1) self s (S i) t
              | Err x => (st, Err x)
              end
  end.
(* 404-438 with preserve_read_only: the array itself, as an element, becomes the new array; the clone of another ObjectArray is not read-only *)
Definition clone_elem (h new : nat) (e : elem) : result elem :=
  match e with EArr x => if x =? h then Ok (EArr new) else Err AttributeError | e => Ok e end.
Definition clone (st : state) (h : nat) : state * result out :=
  match elements st h with
  | Err e => (st, Err e)
  | Ok es => let '(st1, new) := new_array (length es) false st in
             match sequence (map (clone_elem h new) es) with
             | Err e => (st1, Err e)
             | Ok es1 => put_elems st1 new (length (stores st)) 0 es1
             end
  end.
(* 244-296: the argument is an integer or a tuple *)
Inductive sizes := SInt (n : nat) | STuple (l : list nat).
Fixpoint cycle (es all : list elem) (n : nat) : list elem :=
  match n with
  | O => []
  | S k => match es with [] => match all with [] => [] | a :: t => a :: cycle t all k end | e :: t => e :: cycle t all k end
  end.
Definition repeat_array (st : state) (h : nat) (sz : sizes) : state * result out :=
  match sz with
  | SInt _ => (st, Err TypeError)                                  (* 286: sizes[0] of an integer *)
  | STuple [] => (st, Err IndexError)
  | STuple (n :: _) =>
    match elements st h with
    | Err e => (st, Err e)
    | Ok es => let '(st1, new) := new_array (n * length es) false st in put_elems st1 new (length (stores st)) 0 (cycle es es (n * length es))
    end
  end.
(* 511-534 *)
Fixpoint put_each (st : state) (self s i : nat) (xs : list input) : state * result out :=
  match xs with
  | [] => (st, Ok (OHandle self))
  | x :: t => match as_item st self [] x with
              | Ok (_, e) => put_each (put st s i e) self s (S i) t
              | Err e => (st, Err e)
              end
  end.
Definition from_numpy (st : state) (xs : list input) : state * result out :=
  let '(st1, new) := new_array (length xs) false st in put_each st1 new (length (stores st)) 0 xs.

Inductive op :=
  | New (n : nat) | Get (h : nat) (i : index) | Set_ (h : nat) (i : index) (xs : list input) | View (h : nat) | Clone (h : nat)
  | Repeat (h : nat) (sz : sizes) | FromNumpy (xs : list input) | SetFrom (h : nat) (i : index) (src : nat).
Definition step (st : state) (o : op) : state * result out :=
  match o with
  | New n => let '(st1, h) := new_array n false st in (st1, Ok (OHandle h))
  | Get h (At i) => (st, rmap OElem (get_int st h i))
  | Get h i => get_many st h i
  | Set_ h (At i) [x] => set_int st h i x
  | Set_ h (At i) _ => (st, Err TypeError)
  | Set_ h i xs => set_many st h i xs
  | View h => read_only_view st h
  | Clone h => clone st h
  | Repeat h sz => repeat_array st h sz
  | FromNumpy xs => from_numpy st xs
  | SetFrom h (At i) src => set_int st h i (IArr src)
  | SetFrom h i src => set_from st h i src
  end.
End OBJ.
Arguments ENone {E}. Arguments EVal {E} e. Arguments EArr {E} h.
Arguments IVal {X} id x. Arguments IArr {X} h.
Arguments OUnit {E}. Arguments OElem {E} e. Arguments OHandle {E} h.
Arguments St {E} stores arrs. Arguments stores {E} s. Arguments arrs {E} s.
Arguments get_int {E} st h i. Arguments fetch {E} st s i. Arguments elements {E} st h.
Arguments New {X} n. Arguments Get {X} h i. Arguments Set_ {X} h i xs. Arguments View {X} h. Arguments Clone {X} h. Arguments Repeat {X} h sz. Arguments FromNumpy {X} xs. Arguments SetFrom {X} h i src.
Arguments step {X E} freeze kept st o.

(* Model of neuroevolution/net/misc.py (fill_parameters, parameter_vector, count_parameters) and of
   neuroevolution/net/functional.py (ModuleExpectingFlatParameters).
   Simplifications: devices, dtypes and autograd are not modelled; buffers are constants hidden in the forward function;
   dotted parameter names are lists of strings (torch forbids dots inside the parts). *)
From Coq Require Import String.
From Verif Require Import Prelude.
Open Scope nat_scope.

Section Param.
Variable V : Type.            (* tensor elements *)

(* A parameter tensor: its shape, whether it is contiguous in memory, its elements in row-major order. *)
Record ptensor := { p_shape : list nat; p_contig : bool; p_data : list V }.
(* functional.py:29-43 _shape_length; also Tensor.numel *)
Definition shape_length (shape : list nat) : nat := fold_left (fun acc k => acc * k) shape 1.
Definition numel (p : ptensor) : nat := shape_length (p_shape p).

(* A module: its own parameters and its submodules, by name. A parameter is a reference into the heap, so that two slots can
   refer to the same parameter (tied weights). *)
Definition path := list string.
Inductive pmod := PMod (own : list (string * nat)) (kids : list (string * pmod)).
Definition pheap := list ptensor.
Definition dummy : ptensor := {| p_shape := [0]; p_contig := true; p_data := [] |}.
Definition hget (h : pheap) (i : nat) : ptensor := nth i h dummy.

(* All parameter slots, in the order in which torch walks over them (a module before its submodules). *)
Fixpoint slots (prefix : path) (m : pmod) : list (path * nat) :=
  match m with PMod own kids =>
    map (fun s => (prefix ++ [fst s], snd s)) own ++
    (fix go (l : list (string * pmod)) := match l with
                                          | [] => []
                                          | s :: t => slots (prefix ++ [fst s]) (snd s) ++ go t
                                          end) kids
  end.
(* torch's Module.named_parameters(): every parameter once, under the first name under which it is met *)
Fixpoint first_names (seen : list nat) (l : list (path * nat)) : list (path * nat) :=
  match l with
  | [] => []
  | (n, i) :: t => if existsb (Nat.eqb i) seen then first_names seen t else (n, i) :: first_names (i :: seen) t
  end.
Definition named_parameters (m : pmod) : list (path * nat) := first_names [] (slots [] m).
Definition parameters (m : pmod) : list nat := map snd (named_parameters m).

(* p.data.view(-1): fails for a tensor which is not contiguous *)
Definition view_flat (p : ptensor) : result (list V) := if p_contig p then Ok (p_data p) else Err RuntimeError.
(* d[:] = src for one-dimensional d and src: equal lengths, or one element which is repeated *)
Definition assign_all (n : nat) (src : list V) : result (list V) :=
  if length src =? n then Ok src
  else match src with [x] => Ok (repeat x n) | _ => Err RuntimeError end.
(* vector[address : address + n] *)
Definition take_slice (v : list V) (i j : nat) : list V := firstn (j - i) (skipn i v).

Definition with_pdata (p : ptensor) (d : list V) : ptensor := {| p_shape := p_shape p; p_contig := p_contig p; p_data := d |}.

(* net/misc.py:38-43, the loop of fill_parameters; the heap is returned also when an exception is raised *)
Fixpoint fill_loop (ids : list nat) (v : list V) (address : nat) (h : pheap) : pheap * result nat :=
  match ids with
  | [] => (h, Ok address)
  | i :: t =>
    match view_flat (hget h i) with
    | Err e => (h, Err e)
    | Ok d =>
      let n := length d in
      match assign_all n (take_slice v address (address + n)) with
      | Err e => (h, Err e)
      | Ok d' => fill_loop t v (address + n) (upd h i (with_pdata (hget h i) d'))
      end
    end
  end.
(* net/misc.py:26-46 *)
Definition fill_parameters (m : pmod) (v : list V) (h : pheap) : pheap * result unit :=
  match fill_loop (parameters m) v 0 h with
  | (h', Err e) => (h', Err e)
  | (h', Ok address) => (h', if negb (address =? length v) then Err IndexError else Ok tt)
  end.
(* net/misc.py:50-70; torch.cat refuses an empty list *)
Definition parameter_vector (m : pmod) (h : pheap) : result (list V) :=
  bind (sequence (map (fun i => view_flat (hget h i)) (parameters m)))
       (fun all_vectors => match all_vectors with [] => Err RuntimeError | _ => Ok (concat all_vectors) end).
(* net/misc.py:73-88 *)
Definition count_parameters (m : pmod) (h : pheap) : nat :=
  fold_left (fun count i => count + numel (hget h i)) (parameters m) 0.

(* What the forward computation of a module sees: for each slot a shape and elements. *)
Definition pvalue := (list nat * list V)%type.
Definition value_of (p : ptensor) : pvalue := (p_shape p, p_data p).

(* functional.py:108-137 *)
Record flat_module := {
  f_names : list path; f_shapes : list (list nat); f_length : nat; f_slices : list (nat * nat); f_net : pmod
}.
(* functional.py:116-131, the loop over net.named_parameters() *)
Fixpoint flat_loop (h : pheap) (l : list (path * nat)) (i len : nat) (acc : list (path * list nat * (nat * nat)))
  : nat * list (path * list nat * (nat * nat)) :=
  match l with
  | [] => (len, acc)
  | (n, p) :: t =>
    let shape := p_shape (hget h p) in
    let length := shape_length shape in
    let j := i + length in
    flat_loop h t j (len + length) (acc ++ [(n, shape, (i, j))])
  end.
Definition make_flat (m : pmod) (h : pheap) : flat_module :=
  let '(len, rows) := flat_loop h (named_parameters m) 0 0 [] in
  {| f_names := map (fun r => fst (fst r)) rows; f_shapes := map (fun r => snd (fst r)) rows; f_length := len;
     f_slices := map snd rows; f_net := m |}.

(* functional.py:182-187 *)
Definition reshape (d : list V) (shape : list nat) : result pvalue :=
  if length d =? shape_length shape then Ok (shape, d) else Err RuntimeError.
Definition flat_params (f : flat_module) (v : list V) : result (list (path * pvalue)) :=
  sequence (map3 (fun name slice shape => rmap (fun t => (name, t)) (reshape (take_slice v (fst slice) (snd slice)) shape))
                 (f_names f) (f_slices f) (f_shapes f)).

Definition path_eqb (p q : path) : bool := if list_eq_dec string_dec p q then true else false.
Definition dict_get (d : list (path * pvalue)) (n : path) : option pvalue :=
  option_map snd (find (fun e => path_eqb (fst e) n) d).
(* torch.func.functional_call(net, dict, ...) with tie_weights=True: a slot gets the value given under any of the names of its
   parameter; a slot without a value would use the "meta" copy, on which nothing can be computed. *)
Definition slot_value (all : list (path * nat)) (d : list (path * pvalue)) (i : nat) : result pvalue :=
  match find (fun s => (snd s =? i) && match dict_get d (fst s) with Some _ => true | None => false end) all with
  | Some s => match dict_get d (fst s) with Some t => Ok t | None => Err RuntimeError end
  | None => Err RuntimeError
  end.

Section Forward.
Variables X Y : Type.
Variable fwd : list (path * pvalue) -> X -> result Y.     (* the user's forward function, given the values of all slots *)

(* calling the module itself *)
Definition module_call (m : pmod) (h : pheap) (x : X) : result Y :=
  fwd (map (fun s => (fst s, value_of (hget h (snd s)))) (slots [] m)) x.
(* functional.py:158-200 with a one-dimensional parameter vector *)
Definition flat_call (f : flat_module) (v : list V) (x : X) : result Y :=
  if negb (length v =? f_length f) then Err ValueError
  else bind (flat_params f v) (fun d =>
       let all := slots [] (f_net f) in
       bind (sequence (map (fun s => rmap (fun t => (fst s, t)) (slot_value all d (snd s))) all)) (fun env => fwd env x)).
End Forward.
End Param.

Arguments p_shape {V} _.
Arguments p_contig {V} _.
Arguments p_data {V} _.
Arguments numel {V} _.
Arguments hget {V} _ _.
Arguments dummy {V}.
Arguments view_flat {V} _.
Arguments assign_all {V} _ _.
Arguments take_slice {V} _ _ _.
Arguments with_pdata {V} _ _.
Arguments fill_loop {V} _ _ _ _.
Arguments fill_parameters {V} _ _ _.
Arguments parameter_vector {V} _ _.
Arguments count_parameters {V} _ _.
Arguments value_of {V} _.
Arguments flat_loop {V} _ _ _ _ _.
Arguments make_flat {V} _ _.
Arguments reshape {V} _ _.
Arguments flat_params {V} _ _.
Arguments dict_get {V} _ _.
Arguments slot_value {V} _ _ _.
Arguments module_call {V X Y} _ _ _ _.
Arguments flat_call {V X Y} _ _ _ _.

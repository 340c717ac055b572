(* Model of read-only tensors (tools/readonlytensor.py) within programs that call methods and torch functions.  The memory is a list of
   storages; a tensor or numpy array is a handle on cells of a storage.  What a torch function computes (whether it works in place, the new
   values, which results are fresh and which are views) is part of each call; shapes, dtypes and devices are not modelled, and
   ObjectArrays are left out.  Variables are positions in a list; an exception leaves the state as it was. *)
From Coq Require Import String Ascii.
From Verif Require Import Prelude.
Open Scope nat_scope.

(* tensors: regular or ReadOnlyTensor; numpy arrays: with the flag WRITEABLE or without *)
Inductive kind := Plain | ReadOnly | NpWrite | NpRead.
Record handle := Handle { h_kind : kind; h_store : nat; h_cells : list nat }.
Record state := State { heap : list (list Z); vars : list handle }.
Inductive outarg := NoOut | Out (v : nat) | OutTuple (l : list nat).
(* a result of a torch function: newly allocated, or a view on the storage of the k-th argument; [array]: a numpy array *)
Inductive raw := Fresh (array : bool) (data : list Z) | View (array : bool) (k : nat) (cells : list nat).
Record call := Call {
  f_name : string; f_inplace : bool; f_args : list nat; f_out : outarg; f_new : list (list Z); f_res : list raw }.
Inductive op :=
| Function (c : call)                      (* torch.name(args), torch.Tensor.name(args) *)
| Method (v : nat) (c : call)              (* v.name(args) and the operators of v *)
| Augmented (v : nat) (c : call)           (* v op= args *)
| CloneRO (v : nat) (preserve : bool)      (* v.clone(preserve_read_only=preserve) *)
| MakeRO (v : nat) (converted : bool)      (* read_only_tensor(v) or as_read_only_tensor(v); a conversion of dtype or device needed *)
| MakeROData (data : list Z)               (* the same, on a Python sequence *)
| NewTensor (data : list Z)
| AsTensor (v : nat)                       (* v.as_subclass(torch.Tensor) *)
| FromNumpy (v : nat)                      (* torch.from_numpy(v) *)
| NumpyView (v : nat) (cells : list nat)   (* slicing a numpy array *)
| NumpyWrite (v : nat) (new : list Z).     (* v[:] = new *)

Definition is_ro (h : handle) : bool := match h_kind h with ReadOnly => true | _ => false end.
Definition is_tensor (h : handle) : bool := match h_kind h with Plain | ReadOnly => true | _ => false end.

Fixpoint ends_with (suffix s : string) : bool :=
  (String.eqb s suffix || match s with EmptyString => false | String _ r => ends_with suffix r end)%bool.
(* readonlytensor.py:45-56 *)
Definition blocked (name : string) : bool :=
  ends_with "_" name && negb (prefix "__" name && ends_with "__" name).
(* readonlytensor.py:58-75 *)
Definition disabled : list string :=
  ["__setitem__"; "__iadd__"; "__iand__"; "__idiv__"; "__ifloordiv__"; "__ilshift__"; "__imatmul__"; "__imod__"; "__imul__"; "__ior__";
   "__ipow__"; "__irshift__"; "__isub__"; "__itruediv__"; "__ixor__"]%string.
Definition is_disabled (name : string) : bool := existsb (String.eqb name) disabled.

Definition get (st : state) (v : nat) : result handle :=
  match nth_error (vars st) v with Some h => Ok h | None => Err KeyError end.
Definition get_all (st : state) (l : list nat) : result (list handle) := sequence (map (get st) l).
Definition outs_of (o : outarg) : list nat := match o with NoOut => [] | Out v => [v] | OutTuple l => l end.

(* the contents of a storage after new values for some cells *)
Fixpoint write_cells (s : list Z) (cells : list nat) (new : list Z) : list Z :=
  match cells, new with c :: cs, x :: xs => write_cells (upd s c x) cs xs | _, _ => s end.
Definition write (m : list (list Z)) (h : handle) (new : list Z) : list (list Z) :=
  match nth_error m (h_store h) with Some s => upd m (h_store h) (write_cells s (h_cells h) new) | None => m end.
Fixpoint write_all (m : list (list Z)) (targets : list handle) (new : list (list Z)) : list (list Z) :=
  match targets, new with h :: hs, x :: xs => write_all (write m h x) hs xs | _, _ => m end.
Definition read (st : state) (h : handle) : list Z :=
  match nth_error (heap st) (h_store h) with Some s => map (fun c => nth c s 0%Z) (h_cells h) | None => [] end.

(* the kind of a result: torch's default __torch_function__ converts tensors into the subclass when it was called *)
Definition result_kind (array ro : bool) : kind := if array then NpWrite else if ro then ReadOnly else Plain.
Fixpoint allocate (m : list (list Z)) (args : list handle) (ro : bool) (res : list raw) : result (list (list Z) * list handle) :=
  match res with
  | [] => Ok (m, [])
  | Fresh array data :: rest =>
      bind (allocate (m ++ [data]) args ro rest) (fun r =>
        Ok (fst r, Handle (result_kind array ro) (length m) (seq 0 (length data)) :: snd r))
  | View array k cells :: rest =>
      match nth_error args k with
      | None => Err IndexError
      | Some h => bind (allocate m args ro rest) (fun r => Ok (fst r, Handle (result_kind array ro) (h_store h) cells :: snd r))
      end
  end.
(* A torch function called on handles.  readonlytensor.py:131-142 (__torch_function__, called when an argument, [out] included, is a
   ReadOnlyTensor: only [out] itself is examined) *)
Definition call_torch (m : list (list Z)) (args : list handle) (c : call) (outs : list handle) : result (list (list Z) * list handle) :=
  if negb (forallb is_tensor (args ++ outs)) then Err TypeError else
  bind (match f_out c, outs with
  | Out _, [o] => if is_ro o then Err TypeError else Ok tt
  | _, _ => Ok tt
  end) (fun _ =>
    let targets := (if f_inplace c then firstn 1 args else []) ++ outs in
    allocate (write_all m targets (f_new c)) (args ++ outs) (existsb is_ro (args ++ outs)) (f_res c)).

(* readonlytensor.py:92-96 *)
Definition clone_ro (st : state) (h : handle) (preserve : bool) : list (list Z) * list handle :=
  let data := read st h in
  (heap st ++ [data], [Handle (if preserve then ReadOnly else Plain) (length (heap st)) (seq 0 (length data))]).
(* readonlytensor.py:98-105 *)
Definition mutable_if_independent (self other : handle) : handle :=
  if Nat.eqb (h_store self) (h_store other) then other else Handle (if is_ro other then Plain else h_kind other) (h_store other) (h_cells other).
(* readonlytensor.py:115-123 (numpy, __array__) *)
Definition not_writeable (h : handle) : handle :=
  Handle (match h_kind h with NpWrite => NpRead | k => k end) (h_store h) (h_cells h).
(* The call of a method: looking up the attribute, then the overriding method of ReadOnlyTensor if there is one, else that of torch.Tensor.
   readonlytensor.py:45-75 (__getattribute__, __cannot_modify), 107-113 (__getitem__, reshape), 115-123, 125-129 (__copy__, __deepcopy__) *)
Definition call_method (st : state) (self : handle) (c : call) (args outs : list handle) : result (list (list Z) * list handle) :=
  let torch_call := call_torch (heap st) (self :: args) c outs in
  let name := f_name c in
  if negb (is_ro self) then torch_call
  else if blocked name then Err AttributeError
  else if is_disabled name then Err TypeError
  else if String.eqb name "clone" then Ok (clone_ro st self false)
  else if String.eqb name "__getitem__" || String.eqb name "reshape" then
    rmap (fun r => (fst r, map (mutable_if_independent self) (snd r))) torch_call
  else if String.eqb name "numpy" || String.eqb name "__array__" then
    rmap (fun r => (fst r, map not_writeable (snd r))) torch_call
  else if String.eqb name "__copy__" || String.eqb name "__deepcopy__" then Ok (clone_ro st self true)
  else torch_call.
(* readonlytensor.py:154-186 (read_only_tensor), 189-225 (as_read_only_tensor): torch.as_tensor returns a tensor on the same memory
   unless it has to convert *)
Definition make_ro (st : state) (h : handle) (converted : bool) : list (list Z) * list handle :=
  if converted then clone_ro st h true
  else (heap st, [Handle ReadOnly (h_store h) (h_cells h)]).

(* results are bound to new variables *)
Definition bound_to_new (st : state) (r : list (list Z) * list handle) : state := State (fst r) (vars st ++ snd r).
Definition step (st : state) (o : op) : result state :=
  match o with
  | Function c =>
      bind (get_all st (f_args c)) (fun args => bind (get_all st (outs_of (f_out c))) (fun outs =>
        rmap (bound_to_new st) (call_torch (heap st) args c outs)))
  | Method v c =>
      bind (get st v) (fun self => bind (get_all st (f_args c)) (fun args => bind (get_all st (outs_of (f_out c))) (fun outs =>
        rmap (bound_to_new st) (call_method st self c args outs))))
  | Augmented v c =>
      bind (get st v) (fun self => bind (get_all st (f_args c)) (fun args =>
        bind (call_method st self (Call (f_name c) true (f_args c) NoOut (f_new c) [View false 0 (h_cells self)]) args []) (fun r =>
          match snd r with h :: _ => Ok (State (fst r) (upd (vars st) v h)) | [] => Err RuntimeError end)))
  | CloneRO v preserve =>
      bind (get st v) (fun self => if is_ro self then Ok (bound_to_new st (clone_ro st self preserve)) else Err TypeError)
  | MakeRO v converted => bind (get st v) (fun self => Ok (bound_to_new st (make_ro st self converted)))
  | MakeROData data =>
      Ok (State (heap st ++ [data]) (vars st ++ [Handle ReadOnly (length (heap st)) (seq 0 (length data))]))
  | NewTensor data =>
      Ok (State (heap st ++ [data]) (vars st ++ [Handle Plain (length (heap st)) (seq 0 (length data))]))
  | AsTensor v =>
      bind (get st v) (fun self =>
        if is_tensor self then Ok (State (heap st) (vars st ++ [Handle Plain (h_store self) (h_cells self)])) else Err AttributeError)
  | FromNumpy v =>
      bind (get st v) (fun self =>
        if is_tensor self then Err TypeError else Ok (State (heap st) (vars st ++ [Handle Plain (h_store self) (h_cells self)])))
  | NumpyView v cells =>
      bind (get st v) (fun self =>
        if is_tensor self then Err TypeError else Ok (State (heap st) (vars st ++ [Handle (h_kind self) (h_store self) cells])))
  | NumpyWrite v new =>
      bind (get st v) (fun self =>
        match h_kind self with
        | NpWrite => Ok (State (write (heap st) self new) (vars st))
        | NpRead => Err ValueError
        | _ => Err TypeError
        end)
  end.
(* a program in which every exception is caught *)
Definition after (st : state) (o : op) : state := match step st o with Ok st' => st' | Err _ => st end.
Fixpoint run (st : state) (p : list op) : state := match p with [] => st | o :: rest => run (after st o) rest end.

(* Vocabulary for the properties of read-only tensors. *)
From Coq Require Import String.
From Verif Require Import Prelude RoModel.

(* PyTorch's naming convention: what works in place is called base_ (base not ending with an underscore), or is an augmented assignment or
   the assignment of items *)
Definition in_place_name (name : string) : Prop :=
  (exists base, name = (base ++ "_")%string /\ ~ exists b, base = (b ++ "_")%string) \/
  name = "__setitem__"%string \/
  exists o, In o ["add"; "sub"; "mul"; "div"; "truediv"; "floordiv"; "mod"; "pow"; "matmul"; "and"; "or"; "xor"; "lshift"; "rshift"]%string /\
    name = ("__i" ++ o ++ "__")%string.
(* what PyTorch guarantees of a call: only what is called so works in place; numpy arrays on the memory of a tensor come from numpy and
   __array__; slicing and reshaping give views on the sliced or reshaped tensor only *)
Definition honest_call (c : call) : Prop :=
  (f_inplace c = true -> in_place_name (f_name c)) /\
  (forall k cells, In (View true k cells) (f_res c) -> k = 0 /\ (f_name c = "numpy"%string \/ f_name c = "__array__"%string)) /\
  (f_name c = "__getitem__"%string \/ f_name c = "reshape"%string -> forall a k cells, In (View a k cells) (f_res c) -> k = 0).
Definition honest (o : op) : Prop :=
  match o with
  | Function c | Method _ c => honest_call c
  | Augmented _ c => in_place_name (f_name c)
  | _ => True
  end.

Definition reads_only (st : state) (v : nat) : Prop := exists h, nth_error (vars st) v = Some h /\ h_kind h = ReadOnly.
(* the ways round the protection: a function (not a method) that works in place or gives a numpy array, a tuple of outputs, the cast to
   torch.Tensor, a tensor made from a numpy array that is not writeable *)
Definition no_output_in_tuple (st : state) (c : call) : Prop :=
  forall l v, f_out c = OutTuple l -> In v l -> ~ reads_only st v.
Definition allowed (st : state) (o : op) : Prop :=
  match o with
  | Function c =>
      no_output_in_tuple st c /\
      (f_inplace c = true -> forall v rest, f_args c = v :: rest -> ~ reads_only st v) /\
      (f_name c = "numpy"%string \/ f_name c = "__array__"%string -> forall v, In v (f_args c) -> ~ reads_only st v)
  | Method _ c => no_output_in_tuple st c
  | AsTensor v => ~ reads_only st v
  | FromNumpy v => forall h, nth_error (vars st) v = Some h -> h_kind h <> NpRead
  | _ => True
  end.
Fixpoint allowed_run (st : state) (p : list op) : Prop :=
  match p with [] => True | o :: rest => allowed st o /\ allowed_run (after st o) rest end.

(* a storage to which all variables refer read-only *)
Definition guarded (s : nat) (st : state) : Prop :=
  s < length (heap st) /\
  forall v h, nth_error (vars st) v = Some h -> h_store h = s -> h_kind h = ReadOnly \/ h_kind h = NpRead.
(* every variable refers to distinct existing cells of an existing storage *)
Definition sound_handle (m : list (list Z)) (h : handle) : Prop :=
  NoDup (h_cells h) /\ exists s, nth_error m (h_store h) = Some s /\ Forall (fun c => c < length s) (h_cells h).
Definition sound (st : state) : Prop := Forall (sound_handle (heap st)) (vars st).

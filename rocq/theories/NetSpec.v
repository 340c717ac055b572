(* Specification of layered networks and of network strings. A network is a list of layers; running it over a sequence of inputs
   means: the first layer, alone, turns the sequence of inputs into a sequence of outputs, keeping its own hidden state from one
   time step to the next; the second layer does the same with this sequence; and so on. *)
From Coq Require Import String.
From Verif Require Import Prelude NetModel.
Open Scope nat_scope.

Section Spec.
Variables T O : Type.
Notation val := (val T O).
Notation module := (module T O).
Definition layer := (val -> option val -> result val)%type.

(* one call of one layer with its hidden state (VNone: none yet): the output and the next hidden state *)
Definition call_layer (f : layer) (x h : val) : result (val * val) :=
  match f x (hidden_arg h) with
  | Err e => Err e
  | Ok (VTuple [y; h']) => Ok (y, h')
  | Ok (VTuple _) => Err ValueError
  | Ok (VTensor t) => Ok (VTensor t, VNone)
  | Ok _ => Err TypeError
  end.
(* one layer alone over a sequence of inputs *)
Fixpoint run_layer (f : layer) (h : val) (xs : list val) : result (list val) :=
  match xs with
  | [] => Ok []
  | x :: t => bind (call_layer f x h) (fun yh => rmap (cons (fst yh)) (run_layer f (snd yh) t))
  end.
(* the layers, one after another, each over the whole sequence *)
Definition layerwise (fs : list layer) (xs : list val) : result (list val) :=
  fold_left (fun acc f => bind acc (run_layer f VNone)) fs (Ok xs).

(* the layers of a module made of (nested) MultiLayered modules, in order *)
Fixpoint layers_of (m : module) : list layer :=
  match m with
  | Layer f => [f]
  | Sequential l => []
  | MultiLayered l => flat_map layers_of l
  end.
(* no torch Sequential inside *)
Fixpoint no_sequential (m : module) : Prop :=
  match m with
  | Layer _ => True
  | Sequential _ => False
  | MultiLayered l => (fix go (l : list module) := match l with [] => True | m :: t => no_sequential m /\ go t end) l
  end.
(* a layer whose outputs are tensors, or pairs of a tensor and a hidden state; it may also raise, or return nonsense *)
Definition proper (f : layer) : Prop := forall x h y h', f x h = Ok (VTuple [y; h']) -> exists t, y = VTensor t.
(* a layer which never returns nonsense *)
Definition strict (f : layer) : Prop := forall x h r, f x h = Ok r -> (exists t, r = VTensor t) \/ exists t h', r = VTuple [VTensor t; h'].
Definition is_tensor (v : val) : Prop := exists t, v = VTensor t.

(* network strings: the calls in a tree of `>>` from left to right *)
Variable L : Type.
Inductive shift_tree : anode L -> Prop :=
| st_call f a k : shift_tree (ACall f a k)
| st_shift l r : shift_tree l -> shift_tree r -> shift_tree (ABin RShift l r).
Fixpoint calls (e : anode L) : list (anode L) :=
  match e with ABin RShift l r => calls l ++ calls r | _ => [e] end.
(* every call names a class directly (`Linear(...)`, not `nn.Linear(...)`) and has no `**` argument *)
Fixpoint plain_calls (e : anode L) : Prop :=
  match e with
  | ACall (AName _) _ k => Forall (fun kw => fst kw <> None) k
  | ACall _ _ _ => False
  | ABin _ l r => plain_calls l /\ plain_calls r
  | _ => True
  end.
End Spec.
Arguments call_layer {T O} _ _ _.
Arguments run_layer {T O} _ _ _.
Arguments layerwise {T O} _ _.
Arguments layers_of {T O} _.
Arguments no_sequential {T O} _.
Arguments proper {T O} _.
Arguments strict {T O} _.
Arguments plain_calls {L} _.
Arguments is_tensor {T O} _.
Arguments shift_tree {L} _.
Arguments calls {L} _.

(* Model of neuroevolution/net/multilayered.py, net/statefulmodule.py and net/parser.py.
   Layers are arbitrary functions; values passed between layers are untyped, as in Python. *)
From Coq Require Import String.
From Verif Require Import Prelude.
Open Scope nat_scope.

Section Net.
Variable T : Type.        (* tensors *)
Variable O : Type.        (* any other Python object *)

(* Python values which travel between layers: tensors, None, tuples, dictionaries with integer keys (hidden states of
   MultiLayered), anything else *)
Inductive val := VTensor (t : T) | VNone | VTuple (l : list val) | VDict (l : list (nat * val)) | VOther (o : O).
(* d.get(i, None) *)
Definition vget (d : list (nat * val)) (i : nat) : val :=
  match find (fun e => fst e =? i) d with Some e => snd e | None => VNone end.

(* A module: a layer whose forward function is arbitrary (the second argument is absent when the layer is called with one
   argument), torch's Sequential, or MultiLayered. *)
Inductive module :=
| Layer (f : val -> option val -> result val)
| Sequential (l : list module)
| MultiLayered (l : list module).

(* multilayered.py:33-57, one turn of the loop: the result of the layer number i becomes the next input, its hidden state is kept *)
Definition layer_result (i : nat) (r : val) (new_h : list (nat * val)) : result (val * list (nat * val)) :=
  match r with
  | VTuple [x; layer_new_h] => Ok (x, match layer_new_h with VNone => new_h | h => new_h ++ [(i, h)] end)
  | VTuple _ => Err ValueError
  | VTensor t => Ok (VTensor t, new_h)
  | _ => Err TypeError
  end.
(* calling a layer with its hidden state, or without one: multilayered.py:33-37, statefulmodule.py:57-63 *)
Definition hidden_arg (h : val) : option val := match h with VNone => None | _ => Some h end.

(* multilayered.py:26-62 (MultiLayered.forward); torch's Sequential.forward takes exactly one argument and hands the result of
   each submodule, whatever it is, to the next one *)
Fixpoint forward (m : module) (x : val) (h : option val) {struct m} : result val :=
  match m with
  | Layer f => f x h
  | Sequential l =>
    match h with
    | Some _ => Err TypeError
    | None => (fix go (l : list module) (x : val) := match l with
                                                     | [] => Ok x
                                                     | m :: t => bind (forward m x None) (fun y => go t y)
                                                     end) l x
    end
  | MultiLayered l =>
    bind (match h with
          | None | Some VNone => Ok []
          | Some (VDict d) => Ok d
          | Some _ => match l with [] => Ok [] | _ => Err AttributeError end
          end) (fun d =>
    (fix go (l : list module) (i : nat) (x : val) (new_h : list (nat * val)) :=
       match l with
       | [] => Ok (match new_h with [] => x | _ => VTuple [x; VDict new_h] end)
       | m :: t => bind (forward m x (hidden_arg (vget d i))) (fun r =>
                   bind (layer_result i r new_h) (fun xn => go t (S i) (fst xn) (snd xn)))
       end) l 0 x [])
  end.

(* statefulmodule.py:41-86: the stored hidden state and the wrapped module *)
Record stateful := { s_hidden : val; s_net : module }.
Definition make_stateful (m : module) : stateful := {| s_hidden := VNone; s_net := m |}.
(* statefulmodule.py:56-80; unpacking a tuple of a length other than 2 raises ValueError. An exception leaves the state alone. *)
Definition stateful_forward (s : stateful) (x : val) : stateful * result val :=
  match forward (s_net s) x (hidden_arg (s_hidden s)) with
  | Err e => (s, Err e)
  | Ok (VTuple [y; h]) => ({| s_hidden := h; s_net := s_net s |}, Ok y)
  | Ok (VTuple _) => (s, Err ValueError)
  | Ok y => ({| s_hidden := VNone; s_net := s_net s |}, Ok y)
  end.
(* statefulmodule.py:82-86 *)
Definition stateful_reset (s : stateful) : stateful := make_stateful (s_net s).

(* feeding a sequence of inputs; stops at the first exception *)
Fixpoint stateful_run (s : stateful) (xs : list val) : stateful * result (list val) :=
  match xs with
  | [] => (s, Ok [])
  | x :: t => match stateful_forward s x with
              | (s', Err e) => (s', Err e)
              | (s', Ok y) => let '(s2, r) := stateful_run s' t in (s2, rmap (cons y) r)
              end
  end.

(* ---- parser.py ---- *)
(* parser.py:88-92 *)
Definition submodules (a : module) : list module :=
  match a with Sequential l => l | MultiLayered l => l | Layer _ => [a] end.
(* parser.py:95-97 *)
Definition concat_modules (a b : module) : module := MultiLayered (submodules a ++ submodules b).

(* Python's syntax trees, as far as the parser looks at them. [ALit] stands for every other kind of expression. *)
Variable L : Type.            (* literal expressions *)
Variable A : Type.            (* values of arguments and constants *)
Inductive binop := RShift | OtherOp.
Inductive anode :=
| AName (n : string)
| AConstant (l : L)
| ALit (l : L)
| ASubscript (value index : anode)
| AAttribute (value : anode) (n : string)
| ACall (func : anode) (args : list anode) (keywords : list (option string * anode))
| ABin (op : binop) (left right : anode).

Variable literal_eval : anode -> result A.              (* ast.literal_eval *)
Variable index_value : A -> A -> result A.              (* cnst[index] *)
Variable cls : Type.                                     (* classes *)
Variables in_layers in_nn : string -> option cls.        (* the two namespaces *)
Variable W : Type.                                       (* the state of the world (random generators) *)
Variable instantiate : cls -> list A -> list (string * A) -> W -> result module * W.
Definition constants := list (string * A).

Definition wrap {B} (r : result B) : result B := match r with Ok b => Ok b | Err _ => Err NetParsingError end.
(* parser.py:136-142 *)
Definition get_constant (cs : constants) (n : string) : result A :=
  match find (fun e => String.eqb (fst e) n) cs with Some e => Ok (snd e) | None => Err NetParsingError end.
(* parser.py:109-188 *)
Definition eval_with_constants (cs : constants) (node : anode) : result A :=
  match node with
  | AName n => get_constant cs n
  | ASubscript value index =>
    match value with
    | AName n =>
      match index with
      | AConstant _ => bind (wrap (literal_eval index)) (fun i => bind (get_constant cs n) (fun c => wrap (index_value c i)))
      | _ => Err NetParsingError
      end
    | _ => Err NetParsingError
    end
  | _ => wrap (literal_eval node)
  end.
(* parser.py:100-106 *)
Definition get_nn_module (name : string) : result cls :=
  match in_layers name with
  | Some c => Ok c
  | None => match in_nn name with Some c => Ok c | None => Err NetParsingError end
  end.
(* keyword names: `**x` has the name None, which no call accepts *)
Definition keyword_names (kws : list (option string * A)) : result (list (string * A)) :=
  sequence (map (fun k => match fst k with Some n => Ok (n, snd k) | None => Err TypeError end) kws).
(* parser.py:191-202 *)
Definition process_call (cs : constants) (func : anode) (args : list anode) (kws : list (option string * anode)) (w : W) : result module * W :=
  match sequence (map (eval_with_constants cs) args) with
  | Err e => (Err e, w)
  | Ok a =>
    match sequence (map (fun k => rmap (fun v => (fst k, v)) (eval_with_constants cs (snd k))) kws) with
    | Err e => (Err e, w)
    | Ok k =>
      match func with
      | AName n => match bind (get_nn_module n) (fun c => rmap (fun kk => (c, kk)) (keyword_names k)) with
                   | Err e => (Err e, w)
                   | Ok (c, kk) => instantiate c a kk w
                   end
      | _ => (Err AttributeError, w)
      end
    end
  end.
(* parser.py:205-219 *)
Fixpoint process_expr (cs : constants) (node : anode) (w : W) : result module * W :=
  match node with
  | ACall f a k => process_call cs f a k w
  | ABin RShift l r =>
    match process_expr cs l w with
    | (Err e, w1) => (Err e, w1)
    | (Ok ml, w1) => match process_expr cs r w1 with
                     | (Err e, w2) => (Err e, w2)
                     | (Ok mr, w2) => (Ok (concat_modules ml mr), w2)
                     end
    end
  | ABin OtherOp _ _ => (Err NetParsingError, w)
  | _ => (Err NetParsingError, w)
  end.
End Net.

Arguments VTensor {T O} t.
Arguments VNone {T O}.
Arguments VTuple {T O} l.
Arguments VDict {T O} l.
Arguments VOther {T O} o.
Arguments vget {T O} _ _.
Arguments Layer {T O} f.
Arguments Sequential {T O} l.
Arguments MultiLayered {T O} l.
Arguments layer_result {T O} _ _ _.
Arguments hidden_arg {T O} _.
Arguments forward {T O} _ _ _.
Arguments s_hidden {T O} _.
Arguments s_net {T O} _.
Arguments make_stateful {T O} _.
Arguments stateful_forward {T O} _ _.
Arguments stateful_reset {T O} _.
Arguments stateful_run {T O} _ _.
Arguments submodules {T O} _.
Arguments concat_modules {T O} _ _.
Arguments AName {L} n.
Arguments AConstant {L} l.
Arguments ALit {L} l.
Arguments ASubscript {L} _ _.
Arguments AAttribute {L} _ _.
Arguments ACall {L} _ _ _.
Arguments ABin {L} _ _ _.
Arguments get_constant {A} _ _.
Arguments eval_with_constants {L A} _ _ _ _.
Arguments get_nn_module {cls} _ _ _.
Arguments keyword_names {A} _.
Arguments process_call {T O L A} _ _ {cls} _ _ {W} _ _ _ _ _ _.
Arguments process_expr {T O L A} _ _ {cls} _ _ {W} _ _ _ _.

(* Model of neuroevolution/net/layers.py: the small modules Clip, Bin and Round, and the networks FeedForwardNet,
   StructuredControlNet and LocomotorNet, with their parameters read from one flat vector (net/misc.py, fill_parameters), and of
   how a rollout resets a network (net/statefulmodule.py, gymne.py).
   Real arithmetic. An input is one vector (a batch of inputs is not modelled). torch.round is rounding to the nearest integer,
   ties to the even one. The constants of torch's SELU are the decimal numbers of its documentation. An activation function that
   is itself a module with parameters is not modelled. The layers are a list instead of attributes with numbered names. *)
From Coq Require Import Reals String.
From Verif Require Import Prelude.
Close Scope R_scope.
Open Scope nat_scope.

(* torch.round *)
Definition rne (x : R) : R :=
  let f := Int_part x in
  let d := (x - IZR f)%R in
  match total_order_T d (/ 2)%R with
  | inleft (left _) => IZR f
  | inleft (right _) => if Z.even f then IZR f else IZR (f + 1)
  | inright _ => IZR (f + 1)
  end.
(* torch.sign *)
Definition rsign (x : R) : R :=
  match total_order_T x 0 with inleft (left _) => (-1)%R | inleft (right _) => 0%R | inright _ => 1%R end.

(* layers.py:38-39 (Clip.forward): torch.clamp, the upper bound wins *)
Definition clip (lb ub x : R) : R := Rmin (Rmax x lb) ub.
(* layers.py:62-74 (Bin); None: lb = ub, a division by zero (infinite or NaN, not modelled) *)
Definition bin (lb ub x : R) : option R :=
  let interval_size := (ub - lb)%R in
  let shrink := (interval_size / 2)%R in
  let shift := ((ub + lb) / 2)%R in
  if Req_EM_T shrink 0 then None
  else
    let x := (x - shift)%R in
    let x := (x / shrink)%R in
    let x := rsign x in
    let x := (x * shrink)%R in
    Some (x + shift)%R.
(* layers.py:104-113 (Round) *)
Definition round (ndigits : Z) (x : R) : R :=
  let q := powerRZ 10 ndigits in
  let x := (x * q)%R in
  let x := rne x in
  (x / q)%R.

(* torch's activation modules *)
Definition relu (x : R) : R := if Rlt_dec 0 x then x else 0%R.
Definition elu (x : R) : R := if Rlt_dec 0 x then x else (exp x - 1)%R.
Definition selu (x : R) : R :=
  let scale := (10507009873554804934193349852946 / 10000000000000000000000000000000)%R in
  let alpha := (16732632423543772848170429916717 / 10000000000000000000000000000000)%R in
  if Rlt_dec 0 x then (scale * x)%R else (scale * (alpha * (exp x - 1)))%R.
Definition hardtanh (x : R) : R := clip (-1) 1 x.
Definition sigmoid (x : R) : R := (/ (1 + exp (- x)))%R.

(* layers.py:311-330: an activation function is None, a name, or a callable *)
Inductive actspec := ANone | AName (n : string) | AFun (f : list R -> list R).
(* a tuple of two, of three, or of another number of elements *)
Inductive layer_spec := L2 (size : nat) (a : actspec) | L3 (size : nat) (a : actspec) (bias : bool) | LBad.

(* layers.py:345-363 *)
Definition resolve (a : actspec) : result (option (list R -> list R)) :=
  match a with
  | ANone => Ok None
  | AFun f => Ok (Some f)
  | AName n =>
      if String.eqb n "relu" then Ok (Some (map relu))
      else if String.eqb n "selu" then Ok (Some (map selu))
      else if String.eqb n "elu" then Ok (Some (map elu))
      else if String.eqb n "tanh" then Ok (Some (map tanh))
      else if String.eqb n "hardtanh" then Ok (Some (map hardtanh))
      else if String.eqb n "sigmoid" then Ok (Some (map sigmoid))
      else if String.eqb n "round" then Ok (Some (map (round 0)))
      else Err ValueError
  end.

(* nn.Linear(in, out, bias) and the activation function behind it *)
Record shape := { s_in : nat; s_out : nat; s_bias : bool; s_act : option (list R -> list R) }.

(* layers.py:311-363 (FeedForwardNet.__init__) *)
Fixpoint ffn_build (input_size : nat) (layers : list layer_spec) : result (list shape) :=
  match layers with
  | [] => Ok []
  | layer :: rest =>
      bind (match layer with
            | L2 size a => Ok (size, a, true)
            | L3 size a bias => Ok (size, a, bias)
            | LBad => Err AssertionError
            end) (fun sab =>
      let '(size, a, bias) := sab in
      bind (resolve a) (fun f =>
      rmap (cons {| s_in := input_size; s_out := size; s_bias := bias; s_act := f |}) (ffn_build size rest)))
  end.

(* the number of parameters of nn.Linear: a weight of shape (out, in), and a bias of length out *)
Definition linear_count (nin nout : nat) (bias : bool) : nat := nout * nin + (if bias then nout else 0).
(* net/misc.py:73-88 (count_parameters) *)
Fixpoint ffn_count (l : list shape) : nat :=
  match l with [] => 0 | s :: t => linear_count (s_in s) (s_out s) (s_bias s) + ffn_count t end.

(* the rows of a tensor of shape (n, w) stored flat *)
Fixpoint chunks (n w : nat) (v : list R) : list (list R) :=
  match n with 0 => [] | S n => firstn w v :: chunks n w (skipn w v) end.
Definition dot (a b : list R) : R := fold_right Rplus 0%R (map2 Rmult a b).
(* torch.nn.functional.linear with the parameters at the beginning of [v]: the weight, then the bias *)
Definition linear (nin nout : nat) (bias : bool) (v x : list R) : result (list R) :=
  if length x =? nin then
    let y := map (fun row => dot row x) (chunks nout nin (firstn (nout * nin) v)) in
    Ok (if bias then map2 Rplus y (firstn nout (skipn (nout * nin) v)) else y)
  else Err RuntimeError.

(* layers.py:366-374 (FeedForwardNet.forward) *)
Fixpoint ffn_forward (l : list shape) (v x : list R) : result (list R) :=
  match l with
  | [] => Ok x
  | s :: t =>
      bind (linear (s_in s) (s_out s) (s_bias s) v x) (fun y =>
      ffn_forward t (skipn (linear_count (s_in s) (s_out s) (s_bias s)) v) (match s_act s with None => y | Some f => f y end))
  end.

(* net/misc.py:26-46 (fill_parameters): a vector that is too long raises IndexError. One that is too short is refused here by a
   RuntimeError; ParamModel tells which short vectors are accepted by broadcasting. *)
Definition fill {A} (count : nat) (v : list R) (k : result A) : result A :=
  if length v =? count then k else if count <? length v then Err IndexError else Err RuntimeError.

(* FeedForwardNet(input_size, layers) with the parameter vector v, applied to x *)
Definition ffn (input_size : nat) (layers : list layer_spec) (v x : list R) : result (list R) :=
  bind (ffn_build input_size layers) (fun l => fill (ffn_count l) v (ffn_forward l v x)).

(* layers.py:392-437 (StructuredControlNet): the parameters of the linear component come first *)
Definition scn_layers (num_layers hidden out : nat) (a : actspec) : list layer_spec :=
  repeat (L2 hidden a) num_layers ++ [L2 out a].
Definition scn_build (nin out num_layers hidden : nat) (a : actspec) : result (list shape) :=
  ffn_build nin (scn_layers num_layers hidden out a).
Definition scn_count (nin out : nat) (bias : bool) (l : list shape) : nat := linear_count nin out bias + ffn_count l.
Definition scn_forward (nin out : nat) (bias : bool) (l : list shape) (v x : list R) : result (list R) :=
  bind (linear nin out bias v x) (fun a =>
  rmap (map2 Rplus a) (ffn_forward l (skipn (linear_count nin out bias) v) x)).
Definition scn (nin out num_layers hidden : nat) (bias : bool) (a : actspec) (v x : list R) : result (list R) :=
  bind (scn_build nin out num_layers hidden a) (fun l => fill (scn_count nin out bias l) v (scn_forward nin out bias l v x)).

(* layers.py:494-568 (LocomotorNet). The parameters: the linear component, all amplitudes, all frequencies, all phases *)
Record loco := { lo_in : nat; lo_out : nat; lo_bias : bool; lo_n : nat; lo_v : list R; lo_t : nat }.
Definition loco_count (nin out : nat) (bias : bool) (n : nat) : nat := linear_count nin out bias + 3 * (n * out).
Definition with_t (s : loco) (t : nat) : loco :=
  {| lo_in := lo_in s; lo_out := lo_out s; lo_bias := lo_bias s; lo_n := lo_n s; lo_v := lo_v s; lo_t := t |}.
Definition with_v (s : loco) (v : list R) : loco :=
  {| lo_in := lo_in s; lo_out := lo_out s; lo_bias := lo_bias s; lo_n := lo_n s; lo_v := v; lo_t := lo_t s |}.
(* layers.py:494-523, with the parameter vector v *)
Definition new_loco (nin out : nat) (bias : bool) (n : nat) (v : list R) : loco :=
  {| lo_in := nin; lo_out := out; lo_bias := bias; lo_n := n; lo_v := v; lo_t := 0 |}.
(* layers.py:525-527 (reset) *)
Definition loco_reset (s : loco) : loco := with_t s 0.
(* layers.py:558-564: the sum of the waves *)
Definition wave (t : nat) (A w phi : list R) : list R :=
  map3 (fun A w phi => (A * sin (w * INR t + phi))%R) A w phi.
Definition waves (out t : nat) (As ws phis : list (list R)) : list R :=
  fold_left (fun u awp => map2 Rplus u (let '(A, w, phi) := awp in wave t A w phi))
    (combine (combine As ws) phis) (repeat 0%R out).
(* layers.py:554-568 (forward); an input of another length raises before the timestep is incremented *)
Definition loco_forward (s : loco) (x : list R) : loco * result (list R) :=
  match linear (lo_in s) (lo_out s) (lo_bias s) (lo_v s) x with
  | Err e => (s, Err e)
  | Ok u_linear =>
      let t := lo_t s in
      let rest := skipn (linear_count (lo_in s) (lo_out s) (lo_bias s)) (lo_v s) in
      let size := lo_n s * lo_out s in
      let u_nonlinear := waves (lo_out s) t (chunks (lo_n s) (lo_out s) rest)
                           (chunks (lo_n s) (lo_out s) (skipn size rest))
                           (chunks (lo_n s) (lo_out s) (skipn (2 * size) rest)) in
      (with_t s (S t), Ok (map2 Rplus u_linear u_nonlinear))
  end.

(* what a user does with the network; the results of the forward passes *)
Inductive lop := LReset | LForward (x : list R).
Fixpoint loco_run (s : loco) (ops : list lop) : loco * list (result (list R)) :=
  match ops with
  | [] => (s, [])
  | LReset :: t => loco_run (loco_reset s) t
  | LForward x :: t => let '(s1, y) := loco_forward s x in let '(s2, ys) := loco_run s1 t in (s2, y :: ys)
  end.

(* gymne.py:371-372, statefulmodule.py:41-86: a rollout wraps the network into a StatefulModule, whose reset() only forgets the
   hidden state of the wrapper. LocomotorNet returns no hidden state, so the wrapper calls it with the input alone. *)
Definition wrapper_reset (s : loco) : loco := s.
Fixpoint feed (s : loco) (xs : list (list R)) : loco * list (result (list R)) :=
  match xs with
  | [] => (s, [])
  | x :: t => let '(s1, y) := loco_forward s x in let '(s2, ys) := feed s1 t in (s2, y :: ys)
  end.
Definition rollout (s : loco) (xs : list (list R)) : loco * list (result (list R)) := feed (wrapper_reset s) xs.
(* neproblem.py:342-363, gymne.py:636-644: the problem keeps one network, fills it with the parameters of each solution, and
   performs the episodes one after the other. The observations of each episode are given. *)
Fixpoint episodes (s : loco) (xss : list (list (list R))) : loco * list (list (result (list R))) :=
  match xss with
  | [] => (s, [])
  | xs :: t => let '(s1, y) := rollout s xs in let '(s2, ys) := episodes s1 t in (s2, y :: ys)
  end.
Fixpoint evaluations (s : loco) (sols : list (list R * list (list (list R)))) : loco * list (list (list (result (list R)))) :=
  match sols with
  | [] => (s, [])
  | (v, xss) :: t => let '(s1, y) := episodes (with_v s v) xss in let '(s2, ys) := evaluations s1 t in (s2, y :: ys)
  end.

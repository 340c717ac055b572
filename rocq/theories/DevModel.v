(* Model of how fitness functions declare the device they want (decorators.py), of how a Problem
   chooses the device for evaluations, and of reading and writing fields of the problem stored by a
   remote actor (core.py). *)
From Coq Require Import Ascii String.
From Verif Require Import Prelude.

(* ---------------------------------------------------------------- decorators *)
Inductive device := Cpu | Cuda (index : option nat).
Definition device_eqb (a b : device) : bool :=
  match a, b with
  | Cpu, Cpu => true
  | Cuda None, Cuda None => true
  | Cuda (Some i), Cuda (Some j) => Nat.eqb i j
  | _, _ => false
  end.
(* A callable: its attribute __evotorch_on_aux_device__, its attribute device, and what it computes
   (which no decorator of this model changes). *)
Record fn := mkF { f_aux : bool; f_device : option device; f_code : nat }.

(* What can be written behind the name of a decorator: a callable (usage without parentheses) or an index. *)
Inductive darg := DFn (f : fn) | DIndex (i : Z).
(* What a decorator returns: the decorated function, or the inner decorator (usage with parentheses). *)
Inductive dres := Decorated (f : fn) | Inner (d : fn -> fn).

(* decorators.py:321-327 on_device: the inner decorator *)
Definition set_device (d : device) (f : fn) : fn := mkF (f_aux f) (Some d) (f_code f).
(* decorators.py:31-164 _simple_decorator("__evotorch_on_aux_device__", args), used by on_aux_device *)
Definition set_aux (f : fn) : fn := mkF true (f_device f) (f_code f).
Definition on_aux_device (args : list darg) : result dres :=
  match args with
  | [] => Ok (Inner set_aux)
  | [DFn f] => Ok (Decorated (set_aux f))
  | [DIndex _] => Err AttributeError                       (* setattr on an int *)
  | _ => Err TypeError
  end.
(* torch.device("cuda:" + str(index)) *)
Definition cuda_device (i : Z) : result device := if (i <? 0)%Z then Err RuntimeError else Ok (Cuda (Some (Z.to_nat i))).
(* decorators.py:330-441 on_cuda *)
Definition on_cuda (args : list darg) : result dres :=
  match args with
  | [] => Ok (Inner (set_device (Cuda None)))
  | [DFn f] => Ok (Decorated (set_device (Cuda None) f))
  | [DIndex i] => rmap (fun d => Inner (set_device d)) (cuda_device i)
  | _ => Err TypeError
  end.
(* the two ways of using a decorator on f: @dec and @dec(args) *)
Definition bare (dec : list darg -> result dres) (f : fn) : result fn :=
  bind (dec [DFn f]) (fun r => match r with Decorated g => Ok g | Inner _ => Err TypeError end).
Definition called (dec : list darg -> result dres) (args : list darg) (f : fn) : result fn :=
  bind (dec args) (fun r => match r with Inner d => Ok (d f) | Decorated g => Ok g end).

(* ---------------------------------------------------------------- the device of the fitness function *)
(* A Problem: main device, whether cuda is available, num_gpus_per_actor = "all", and the index of the
   actor on which this instance lives (None: the main process). *)
Record prob := mkPr { p_dev : device; p_cuda : bool; p_all : bool; p_actor : option nat }.

(* core.py:1652-1689 Problem.aux_device *)
Definition aux_device (p : prob) : device :=
  if device_eqb (p_dev p) Cpu then
    if p_cuda p then
      match p_all p, p_actor p with
      | true, Some i => Cuda (Some i)
      | _, _ => Cuda None
      end
    else Cpu
  else p_dev p.

(* An attribute of a Python object: a method of the class, bound anew by every access, or an object
   stored in the instance. *)
Inductive attribute := Method (f : fn) | Stored (id : nat) (f : fn).
Inductive ident := FreshId (n : nat) | FixedId (n : nat).
Definition ident_eqb (a b : ident) : bool :=
  match a, b with FreshId m, FreshId n => Nat.eqb m n | FixedId m, FixedId n => Nat.eqb m n | _, _ => false end.
(* reading an attribute; n counts the bound methods made so far *)
Definition access (a : attribute) (n : nat) : (ident * fn) * nat :=
  match a with Method f => ((FreshId n, f), S n) | Stored id f => ((FixedId id, f), n) end.

(* core.py:2498-2507 device_of_fn *)
Definition device_of_fn (p : prob) (f : fn) : option device := if f_aux f then Some (aux_device p) else f_device f.

(* core.py:2509-2525: the loop, for the candidates already read; evaluate_all is read again at every device found *)
Fixpoint device_loop (p : prob) (evaluate_all : attribute) (cands : list (ident * fn)) (n : nat) : result (option device) :=
  match cands with
  | [] => Ok None
  | (i, f) :: r =>
      match device_of_fn p f with
      | Some d =>
          let '((j, _), _) := access evaluate_all n in
          if ident_eqb i j then Err RuntimeError else Ok (Some d)
      | None => device_loop p evaluate_all r n
      end
  end.
(* core.py:2497-2525 Problem._device_of_fitness_function; the objective function is stored in the instance, or None *)
Definition device_of_fitness_function (p : prob) (objective : option (nat * fn)) (evaluate_all evaluate_batch evaluate : attribute)
  : result (option device) :=
  let '(a, n1) := access evaluate_all 0 in
  let '(b, n2) := access evaluate_batch n1 in
  let '(e, n3) := access evaluate n2 in
  device_loop p evaluate_all
    (match objective with Some (id, f) => [(FixedId id, f)] | None => [] end ++ [a; b; e]) n3.

(* ---------------------------------------------------------------- fields of remote problems *)
(* Python objects: attributes whose values are references to objects or other values. *)
Inductive pval := Ref (o : nat) | Val (z : Z).
Definition heap := nat -> string -> option pval.
Definition hset (h : heap) (o : nat) (a : string) (v : pval) : heap :=
  fun o' a' => if Nat.eqb o o' then if String.eqb a a' then Some v else h o' a' else h o' a'.

Definition getattr (h : heap) (v : pval) (a : string) : result pval :=
  match v with
  | Ref o => match h o a with Some x => Ok x | None => Err AttributeError end
  | Val _ => Err AttributeError
  end.
(* field.split(".") *)
Fixpoint split_dots (s : string) : list string :=
  match s with
  | EmptyString => [EmptyString]
  | String c r => if Ascii.eqb c "."%char then EmptyString :: split_dots r
                  else match split_dots r with [] => [String c EmptyString] | x :: t => String c x :: t end
  end.
Inductive field := Dotted (s : string) | Names (l : list string).
Definition names (f : field) : list string := match f with Dotted s => split_dots s | Names l => l end.

Fixpoint walk (h : heap) (v : pval) (l : list string) : result pval :=
  match l with [] => Ok v | a :: r => bind (getattr h v a) (fun w => walk h w r) end.
(* core.py:189-212 EvaluationActor.get; object 0 is the problem *)
Definition actor_get (h : heap) (f : field) : result pval := walk h (Ref 0) (names f).
(* core.py:214-245 EvaluationActor.set *)
Fixpoint set_loop (h : heap) (v : pval) (l : list string) (x : pval) : result heap :=
  match l with
  | [] => Ok h
  | [a] => match v with Ref o => Ok (hset h o a x) | Val _ => Err AttributeError end
  | a :: r => bind (getattr h v a) (fun w => set_loop h w r x)
  end.
Definition actor_set (h : heap) (f : field) (x : pval) : result heap := set_loop h (Ref 0) (names f) x.

(* Model of supervised neuroevolution: neuroevolution/supervisedne.py (SupervisedNE).
   Simplifications: the batches of a data loader are values other than None; the k-th iterator made in a process delivers the list
   [epoch k] (torch's DataLoader, user-defined loaders and their random numbers are oracles); moving a batch to a device is the identity;
   the loss of a network on a minibatch is a function to Q; the parameterisation of the network is in NeModel.v. *)
From Coq Require Import QArith.
From Verif Require Import Prelude.
Close Scope Q_scope.
Open Scope nat_scope.

Section SUP.
Variables B N : Type.
Variable loss : N -> B -> Q.                        (* supervisedne.py:253-267, 288-306 *)
Variable epoch : nat -> list B.
Variable num_minibatches : nat.                     (* supervisedne.py:214 *)
Variable common_minibatch : bool.

(* dataloader (made or not), dataloader_iterator with the batches it will still deliver, how many iterators were made, whether
   _start_preparations was run (core.py:2467-2477) *)
Record sup := { s_loader : bool; s_iter : option (list B); s_made : nat; s_prepared : bool }.
(* supervisedne.py:210-217 *)
Definition new_sup : sup := {| s_loader := false; s_iter := None; s_made := 0; s_prepared := false |}.
(* supervisedne.py:308-309: a new data loader; an iterator over the old one stays in use *)
Definition sup_prepare (s : sup) : sup := {| s_loader := true; s_iter := s_iter s; s_made := s_made s; s_prepared := s_prepared s |}.
(* iter(self.dataloader) *)
Definition new_iterator (s : sup) : sup :=
  {| s_loader := s_loader s; s_iter := Some (epoch (s_made s)); s_made := S (s_made s); s_prepared := s_prepared s |}.
Definition set_iter (s : sup) (l : list B) : sup := {| s_loader := s_loader s; s_iter := Some l; s_made := s_made s; s_prepared := s_prepared s |}.
(* supervisedne.py:311-332 get_minibatch *)
Definition get_minibatch (s : sup) : sup * result B :=
  let s1 := if s_loader s then s else sup_prepare s in
  let s2 := match s_iter s1 with None => new_iterator s1 | Some _ => s1 end in
  match s_iter s2 with
  | Some (b :: t) => (set_iter s2 t, Ok b)
  | _ => let s3 := new_iterator s2 in
         match s_iter s3 with
         | Some (b :: t) => (set_iter s3 t, Ok b)
         | _ => (s3, Err StopIteration)
         end
  end.
(* [get_minibatch() for _ in range(n)], supervisedne.py:347 *)
Fixpoint get_minibatches (s : sup) (n : nat) : sup * result (list B) :=
  match n with
  | O => (s, Ok [])
  | S n' => match get_minibatch s with
            | (s1, Err e) => (s1, Err e)
            | (s1, Ok b) => let '(s2, r) := get_minibatches s1 n' in (s2, rmap (cons b) r)
            end
  end.
(* supervisedne.py:334-342 _evaluate_network; [current] is _current_minibatches; the loop over [todo] remaining minibatches *)
Fixpoint eval_loop (current : list B) (net : N) (s : sup) (i todo : nat) (acc : Q) : sup * result Q :=
  match todo with
  | O => (s, Ok acc)
  | S k =>
    match (if common_minibatch then (s, match nth_error current i with Some b => Ok b | None => Err IndexError end) else get_minibatch s) with
    | (s1, Err e) => (s1, Err e)
    | (s1, Ok b) => eval_loop current net s1 (S i) k (acc + loss net b / inject_Z (Z.of_nat num_minibatches))%Q
    end
  end.
Definition evaluate_network (current : list B) (s : sup) (net : N) : sup * result Q := eval_loop current net s 0 num_minibatches 0%Q.
Fixpoint evaluate_nets (current : list B) (s : sup) (nets : list N) : sup * result (list Q) :=
  match nets with
  | [] => (s, Ok [])
  | net :: t => match evaluate_network current s net with
                | (s1, Err e) => (s1, Err e)
                | (s1, Ok q) => let '(s2, r) := evaluate_nets current s1 t in (s2, rmap (cons q) r)
                end
  end.
(* supervisedne.py:344-348 _evaluate_batch *)
Definition sup_evaluate_batch (s : sup) (nets : list N) : sup * result (list Q) :=
  if common_minibatch then
    match get_minibatches s num_minibatches with
    | (s1, Err e) => (s1, Err e)
    | (s1, Ok bs) => evaluate_nets bs s1 nets
    end
  else evaluate_nets [] s nets.
(* evaluate() within one process: core.py:2545-2557 with 2467-2477 *)
Definition sup_start (s : sup) : sup :=
  if s_prepared s then s
  else let s1 := sup_prepare s in {| s_loader := s_loader s1; s_iter := s_iter s1; s_made := s_made s1; s_prepared := true |}.
Definition sup_evaluate (s : sup) (nets : list N) : sup * result (list Q) := sup_evaluate_batch (sup_start s) nets.

Inductive sup_op := GetMinibatch | Evaluate (nets : list N).
Inductive sup_out := OutBatch (r : result B) | OutLosses (r : result (list Q)).
Definition sup_step (s : sup) (op : sup_op) : sup * sup_out :=
  match op with
  | GetMinibatch => let '(s1, r) := get_minibatch s in (s1, OutBatch r)
  | Evaluate nets => let '(s1, r) := sup_evaluate s nets in (s1, OutLosses r)
  end.
Fixpoint sup_run (s : sup) (ops : list sup_op) : sup * list sup_out :=
  match ops with
  | [] => (s, [])
  | op :: t => let '(s1, o) := sup_step s op in let '(s2, os) := sup_run s1 t in (s2, o :: os)
  end.
End SUP.

(* several processes: each piece of the population is evaluated by the problem object of its actor, with its own data loader
   (core.py:2580-2595); [epochs k] are the epochs in actor k *)
Section ACTORS.
Variables B N : Type.
Variable loss : N -> B -> Q.
Variable epochs : nat -> nat -> list B.
Variable num_minibatches : nat.
Variable common_minibatch : bool.
Fixpoint sup_evaluate_pieces (acts : list (sup B)) (pieces : list (nat * list N)) : list (sup B) * result (list Q) :=
  match pieces with
  | [] => (acts, Ok [])
  | (k, nets) :: t =>
    match nth_error acts k with
    | None => (acts, Err RuntimeError)
    | Some a => match sup_evaluate B N loss (epochs k) num_minibatches common_minibatch a nets with
                | (a1, Err e) => (upd acts k a1, Err e)
                | (a1, Ok qs) => let '(acts2, r) := sup_evaluate_pieces (upd acts k a1) t in (acts2, rmap (app qs) r)
                end
    end
  end.
End ACTORS.

(* supervisedne.py:250-251: DataLoader(dataset, shuffle=True, batch_size=minibatch_size), with the permutation of each epoch as an oracle;
   the batches are the consecutive chunks, the last one may be smaller (torch: drop_last=False) *)
Fixpoint chunks {A} (fuel bs : nat) (l : list A) : list (list A) :=
  match fuel, l with
  | O, _ | _, [] => []
  | S f, _ => firstn bs l :: chunks f bs (skipn bs l)
  end.
Definition shuffled_epoch {A} (dataset : list A) (bs : nat) (perm : nat -> list nat) (k : nat) : list (list A) :=
  chunks (length dataset) bs (flat_map (fun i => match nth_error dataset i with Some x => [x] | None => [] end) (perm k)).
Arguments GetMinibatch {N}.
Arguments Evaluate {N} nets.
Arguments OutBatch {B} r.
Arguments OutLosses {B} r.
Arguments new_sup {B}.
Arguments sup_evaluate {B N} _ _ _ _ _ _.
Arguments sup_evaluate_pieces {B N} _ _ _ _ _ _.
Arguments sup_run {B N} _ _ _ _ _ _.

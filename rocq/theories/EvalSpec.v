(* What evaluating solutions and calling an evaluator should mean. *)
From Verif Require Import Prelude FloatLib BatchModel BatchSpec WorkModel WorkSpec EvalModel.

(* The verdict of a fitness function about a solution: evaluations and optional extra data. *)
Definition verdict := (list fl * option (list fl))%type.

(* An acceptable verdict: one number per objective (and, if given, the declared amount of extra
   data), or everything in one vector. *)
Definition acceptable (nobj ndata : nat) (w : verdict) : Prop :=
  match snd w with
  | Some d => length (fst w) = nobj /\ length d = ndata
  | None => length (fst w) = nobj \/ length (fst w) = nobj + ndata
  end.

(* What is to be found in the evaluations of the solution afterwards. *)
Definition recorded (nobj ndata : nat) (w : verdict) : list fl :=
  match snd w with
  | Some d => fst w ++ d
  | None => if Nat.eqb (length (fst w)) nobj then fst w ++ repeat NaN ndata else fst w
  end.

(* The result of a fitness function for a single solution expresses this verdict. *)
Definition says_one (o : one_out) (w : verdict) : Prop :=
  (match fst o with S0 x => fst w = [x] | S1 xs => fst w = xs | SMore => False end) /\
  (match snd o with None => snd w = None | Some (Some d) => snd w = Some d | Some None => False end).

(* The result of a vectorized fitness function expresses these verdicts, in an admissible shape. *)
Definition says_many (nobj ndata : nat) (o : many_out) (ws : list verdict) : Prop :=
  match fst o, snd o with
  | E1 xs, None => nobj = 1 /\ map (fun x => ([x], None)) xs = ws
  | E1 xs, Some (Some (d, dc)) =>
      nobj = 1 /\ dc = ndata /\ length d = length xs /\ map2 (fun x e => ([x], Some e)) xs d = ws
  | E2 rows nc, None => (nc = nobj \/ nc = nobj + ndata) /\ Forall (fun r => length r = nc) rows /\
                        map (fun r => (r, None)) rows = ws
  | E2 rows nc, Some (Some (d, dc)) =>
      nc = nobj /\ dc = ndata /\ length d = length rows /\ Forall (fun r => length r = nc) rows /\
      map2 (fun r e => (r, Some e)) rows d = ws
  | _, _ => False
  end.

(* A fitness function which gives the verdict h v about every solution v. *)
Definition computes {V} (nobj ndata : nat) (fit : fitness V) (h : V -> verdict) : Prop :=
  match fit with
  | Scalar f => forall v, exists o, f v = Ok o /\ says_one o (h v)
  | Vectorized F => forall vs, exists o, F vs = Ok o /\ says_many nobj ndata o (map h vs)
  end.

(* Sensible settings: at least one actor, positive sizes, and every piece arrives once. *)
Definition sensible (g : setting) (n : nat) : Prop :=
  match g_actors g with
  | None => True
  | Some a => 1 <= a /\ (forall k, g_nsub g = Some k -> 1 <= k) /\ (forall m, g_subsize g = Some m -> 1 <= m) /\
              Permutation (g_order g) (seq 0 (num_pieces (g_nsub g) (g_subsize g) a n))
  end.

(* ------------------------------------------------------------------------- tensors *)
Fixpoint numel (shape : list nat) : nat := match shape with [] => 1 | d :: s => d * numel s end.
Definition proper {B} (t : nd B) : Prop := length (nd_data t) = numel (nd_shape t).
(* position of the element with the given multi-index *)
Fixpoint position (shape idx : list nat) : nat :=
  match shape, idx with
  | _ :: s, i :: is' => i * numel s + position s is'
  | _, _ => 0
  end.
Definition inside (shape idx : list nat) : Prop := Forall2 (fun d i => i < d) shape idx.
Definition element {B} (t : nd B) (idx : list nat) : option B := nth_error (nd_data t) (position (nd_shape t) idx).
(* the vector at the given batch index: the elements t[idx, 0], ..., t[idx, L-1] *)
Definition is_vector {B} (t : nd B) (idx : list nat) (L : nat) (v : list B) : Prop :=
  length v = L /\ forall k, k < L -> element t (idx ++ [k]) = nth_error v k.

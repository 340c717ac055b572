(* Model of the storage sharing of SolutionBatch objects: views, copies, mutable value handles
   and evaluations (core.py).  A cell is one row of the storage: decision values and evaluations.
   Basic slicing shares the storage of both tensors; indexing by a list copies both. *)
From Verif Require Import Prelude FloatLib.

Section Stale.
Context {V : Type}.
Variable f : V -> list fl.     (* the evaluation of one solution: objectives and extra data *)
Variable nobj ndata : nat.

Definition cell := (V * list fl)%type.
Record state := mkState { heap : list cell; batches : list (list nat); handles : list (list nat) }.

Inductive op :=
| New (vs : list V)                                    (* core.py:3744-3770 *)
| SetValues (b : nat) (rows : list nat) (vs : list V)  (* core.py:3936-3949 *)
| Access (b : nat) (keep_evals : bool)                 (* core.py:4152-4180 *)
| Write (h : nat) (k : nat) (v : V)                    (* in-place write into a returned tensor *)
| Slice (b : nat) (lo hi : nat)                        (* core.py:3643-3683, 4417-4419; also Solution *)
| Take (b : nat) (rows : list nat)                     (* core.py:4377-4389 *)
| Concat (bs : list nat)                               (* core.py:3699-3742, 4357-4375 *)
| Evaluate (b : nat)                                   (* core.py:2527-2595 *)
| Forget (b : nat) (rows : list nat).                  (* core.py:4183-4191 *)

Definition nans : list fl := repeat NaN (nobj + ndata).
Definition set_cell (h : list cell) (a : nat) (c : cell -> cell) : list cell :=
  match nth_error h a with Some x => upd h a (c x) | None => h end.
Definition get_batch (s : state) (b : nat) : list nat := nth b (batches s) [].
(* addresses of the chosen rows of a batch *)
Definition pick (addrs rows : list nat) : list nat :=
  flat_map (fun r => match nth_error addrs r with Some a => [a] | None => [] end) rows.
Definition alloc (s : state) (cs : list cell) : state :=
  mkState (heap s ++ cs) (batches s ++ [seq (length (heap s)) (length cs)]) (handles s).
Definition read (s : state) (addrs : list nat) : list cell :=
  flat_map (fun a => match nth_error (heap s) a with Some c => [c] | None => [] end) addrs.
Definition forget (h : list cell) (addrs : list nat) : list cell :=
  fold_left (fun h a => set_cell h a (fun c => (fst c, nans))) addrs h.

Definition step (s : state) (o : op) : state :=
  match o with
  | New vs => alloc s (map (fun v => (v, nans)) vs)
  | SetValues b rows vs =>
      (* self._data[solutions] = values; self._evdata[solutions] = nan *)
      let h1 := fold_left (fun h av => set_cell h (fst av) (fun c => (snd av, snd c)))
                          (combine (pick (get_batch s b) rows) vs) (heap s) in
      mkState (forget h1 (pick (get_batch s b) rows)) (batches s) (handles s)
  | Access b keep =>
      mkState (if keep then heap s else forget (heap s) (get_batch s b))
              (batches s) (handles s ++ [get_batch s b])
  | Write h k v =>
      match nth_error (nth h (handles s) []) k with
      | Some a => mkState (set_cell (heap s) a (fun c => (v, snd c))) (batches s) (handles s)
      | None => s
      end
  | Slice b lo hi =>
      mkState (heap s) (batches s ++ [firstn (hi - lo) (skipn lo (get_batch s b))]) (handles s)
  | Take b rows => alloc s (read s (pick (get_batch s b) rows))
  | Concat bs => alloc s (read s (flat_map (get_batch s) bs))
  | Evaluate b =>
      mkState (fold_left (fun h a => set_cell h a (fun c => (fst c, f (fst c)))) (get_batch s b) (heap s))
              (batches s) (handles s)
  | Forget b rows => mkState (forget (heap s) (pick (get_batch s b) rows)) (batches s) (handles s)
  end.
Definition run (s : state) (ops : list op) : state := fold_left step ops s.
Definition init : state := mkState [] [] [].

(* core.py:4929-4945 Solution.is_evaluated *)
Definition evaluated (c : cell) : bool := negb (existsb is_nan (firstn nobj (snd c))).

(* Bookkeeping of which handle elements may still be written: those obtained without keep_evals
   and whose solution has not been evaluated since. *)
Fixpoint safe_after (s : state) (safe : list (list nat)) (ops : list op) : list (list nat) :=
  match ops with
  | [] => safe
  | o :: ops' =>
      let safe' :=
        match o with
        | Access b keep => safe ++ [if keep then [] else get_batch s b]
        | Evaluate b => map (filter (fun a => negb (existsb (Nat.eqb a) (get_batch s b)))) safe
        | _ => safe
        end in
      safe_after (step s o) safe' ops'
  end.
(* every write through a handle hits an element that may still be written *)
Fixpoint disciplined (s : state) (safe : list (list nat)) (ops : list op) : Prop :=
  match ops with
  | [] => True
  | o :: ops' =>
      match o with
      | Write h k _ => forall a, nth_error (nth h (handles s) []) k = Some a -> In a (nth h safe [])
      | _ => True
      end /\ disciplined (step s o) (safe_after s safe [o]) ops'
  end.
End Stale.

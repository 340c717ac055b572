(* Model of neuroevolution/net/vecrl.py: class Policy and reset_tensors.
   Tensors live in a heap, because set_parameters and reset can write into tensors which the caller holds. A cell is either a tensor without a
   batch dimension (Single) or a tensor seen as the list of its rows along the leftmost dimension (Batch); the contents of a row are abstract
   (type row), zero r is r with all its elements set to 0. Tensors which overlap in memory without being the same tensor are not modelled. *)
From Verif Require Import Prelude.

(* containers as seen by reset_tensors: tensors; str, bytes, bytearray; Mappings (their values); other iterables; anything else *)
Inductive tree (A : Type) := Tensor (a : A) | Text | Mapping (l : list (tree A)) | Iter (l : list (tree A)) | Other.
Arguments Tensor {A}. Arguments Text {A}. Arguments Mapping {A}. Arguments Iter {A}. Arguments Other {A}.
Fixpoint tmap {A B} (f : A -> B) (t : tree A) : tree B :=
  match t with Tensor a => Tensor (f a) | Text => Text | Mapping l => Mapping (map (tmap f) l) | Iter l => Iter (map (tmap f) l) | Other => Other end.
(* the tensors in it, in the order in which they are visited *)
Fixpoint leaves {A} (t : tree A) : list A :=
  match t with Tensor a => [a] | Mapping l | Iter l => flat_map leaves l | Text | Other => [] end.
(* nothing but tensors and containers: what torch.vmap can handle *)
Fixpoint tensors_only {A} (t : tree A) : bool :=
  match t with Tensor _ => true | Mapping l | Iter l => forallb tensors_only l | Text | Other => false end.

(* MaskOrIndices: a list or tensor of integers, a list or tensor of booleans, a tuple of integers *)
Inductive sel := Ints (l : list Z) | Mask (l : list bool) | Tup (l : list Z).
Definition int_index (n : nat) (i : Z) : result nat :=
  if ((- Z.of_nat n <=? i) && (i <? Z.of_nat n))%Z then Ok (Z.to_nat (if i <? 0 then i + Z.of_nat n else i)%Z) else Err IndexError.
Fixpoint trues (k : nat) (l : list bool) : list nat :=
  match l with [] => [] | true :: t => k :: trues (S k) t | false :: t => trues (S k) t end.
(* the rows which x[indices] addresses, x having n rows; a tuple with one item is that row, a tuple with more items addresses a part of a row *)
Definition resolve (n : nat) (s : sel) : result (list nat) :=
  match s with
  | Ints l => sequence (map (int_index n) l)
  | Mask l => if length l =? n then Ok (trues 0 l) else Err IndexError
  | Tup [] => Ok (seq 0 n)
  | Tup (i :: _) => rmap (fun k => [k]) (int_index n i)
  end.

Section Pol.
  Context {row : Type}.
  Variable zero : row -> row.
  (* r[l] = 0 for the part of a row which is addressed by the rest of a tuple *)
  Variable poke : list Z -> row -> result row.
  (* x[indices] = 0 for a tensor x without batch dimension *)
  Variable poke_single : sel -> row -> result row.

  Inductive cell := Single (r : row) | Batch (l : list row).
  Definition heap := list cell.

  (* x[indices] = 0 *)
  Definition cell_reset (s : sel) (c : cell) : result cell :=
    match c with
    | Single r => rmap Single (poke_single s r)
    | Batch rows =>
      bind (resolve (length rows) s) (fun pos =>
      match s, pos with
      | Tup (_ :: ((_ :: _) as rest)), [k] =>
        match nth_error rows k with
        | Some r => rmap (fun r => Batch (upd rows k r)) (poke rest r)
        | None => Err IndexError
        end
      | _, _ => Ok (Batch (fold_left (fun rs k => match nth_error rs k with Some r => upd rs k (zero r) | None => rs end) pos rows))
      end)
    end.
  (* vecrl.py:997-1016; an exception leaves the tensors visited before it changed *)
  Fixpoint reset_tensors (s : sel) (t : tree nat) (h : heap) : heap * result unit :=
    match t with
    | Tensor a =>
      match nth_error h a with
      | Some c => match cell_reset s c with Ok c => (upd h a c, Ok tt) | Err e => (h, Err e) end
      | None => (h, Err KeyError)       (* no such tensor; does not occur *)
      end
    | Text | Other => (h, Ok tt)
    | Mapping l | Iter l =>
      (fix go (l : list (tree nat)) (h : heap) : heap * result unit :=
         match l with
         | [] => (h, Ok tt)
         | x :: r => match reset_tensors s x h with (h, Ok _) => go r h | (h, Err e) => (h, Err e) end
         end) l h
    end.
  (* copy.deepcopy of a state: every tensor in it is copied once *)
  Fixpoint index_of (a : nat) (l : list nat) : nat :=
    match l with [] => 0 | b :: t => if a =? b then 0 else S (index_of a t) end.
  Definition deepcopy (t : tree nat) (h : heap) : heap * tree nat :=
    let l := nodup Nat.eq_dec (leaves t) in
    (h ++ flat_map (fun a => match nth_error h a with Some c => [c] | None => [] end) l, tmap (fun a => length h + index_of a l) t).

  (* The wrapped network in its functional form (net/functional.py): called with parameters, an observation and (not at first, and not if it
     is not recurrent) the hidden state, it computes some tensors; which of them is the output, and how the new hidden state is made of them
     (None: only the output is returned), does not depend on the values. A tensor can be both the output and a part of the hidden state. *)
  Record module := Module { compute : row -> row -> option (tree row) -> list row; out_ix : nat; skel : option (tree nat) }.
  Record policy := Policy { params : option nat; state : option (tree nat) }.

  (* 1317-1322 *)
  Definition reset (p : policy) (s : option sel) (copy : bool) (h : heap) : heap * policy * result unit :=
    match s with
    | None => (h, Policy (params p) None, Ok tt)
    | Some s =>
      match state p with
      | None => (h, p, Ok tt)
      | Some t =>
        let (h, t) := if copy then deepcopy t h else (h, t) in
        let (h, r) := reset_tensors s t h in (h, Policy (params p) (Some t), r)
      end
    end.
  (* parameters[indices] = values *)
  Definition broadcast (v : cell) (k : nat) : result (list row) :=
    match v with
    | Single r => Ok (repeat r k)
    | Batch [r] => Ok (repeat r k)
    | Batch l => if length l =? k then Ok l else Err RuntimeError
    end.
  Definition assign (s : sel) (v : cell) (c : cell) : result cell :=
    match c with
    | Single _ => Err RuntimeError      (* elements of a parameter vector: not modelled *)
    | Batch rows =>
      match s with
      | Tup (_ :: _ :: _) => Err RuntimeError      (* the parts of a row addressed by such a tuple are smaller than a row *)
      | _ => bind (resolve (length rows) s) (fun pos => bind (broadcast v (length pos)) (fun vs =>
             Ok (Batch (fold_left (fun rs kv => upd rs (fst kv) (snd kv)) (combine pos vs) rows))))
      end
    end.
  (* 1219-1235 *)
  Definition set_parameters (p : policy) (v : nat) (s : option sel) (do_reset : bool) (h : heap) : heap * policy * result unit :=
    let next h p := if do_reset then reset p s true h else (h, p, Ok tt) in
    match s, params p with
    | None, _ => next h (Policy (Some v) (state p))
    | Some _, None => (h, p, Err ValueError)
    | Some s, Some a =>
      match nth_error h a, nth_error h v with
      | Some c, Some v => match assign s v c with Ok c => next (upd h a c) p | Err e => (h, p, Err e) end
      | _, _ => (h, p, Err KeyError)    (* no such tensor; does not occur *)
      end
    end.
  Definition single_row (h : heap) (a : nat) : result row := match nth_error h a with Some (Single r) => Ok r | _ => Err ValueError end.
  Definition batch_rows (h : heap) (n : nat) (a : nat) : result (list row) :=
    match nth_error h a with Some (Batch l) => if length l =? n then Ok l else Err ValueError | _ => Err ValueError end.
  Fixpoint tsequence {A} (t : tree (result A)) : result (tree A) :=
    match t with
    | Tensor (Ok a) => Ok (Tensor a)
    | Tensor (Err e) => Err e
    | Text => Ok Text
    | Other => Ok Other
    | Mapping l => rmap Mapping (sequence (map tsequence l))
    | Iter l => rmap Iter (sequence (map tsequence l))
    end.
  Definition osequence {A} (t : option (tree (result A))) : result (option (tree A)) :=
    match t with None => Ok None | Some t => rmap Some (tsequence t) end.
  (* the rows number k of some tensors: what one network returned; all networks return the same number of tensors *)
  Fixpoint transpose (w : nat) (l : list (list row)) : list (list row) :=
    match l with [] => repeat [] w | x :: t => map2 cons x (transpose w t) end.
  (* new tensors are allocated for the results *)
  Definition store (m : module) (p : policy) (cells : list cell) (h : heap) : heap * policy * result nat :=
    (h ++ cells,
     Policy (params p) (match skel m with None => state p | Some t => Some (tmap (fun k => length h + k) t) end),
     if out_ix m <? length cells then Ok (length h + out_ix m) else Err IndexError).
  (* 1253-1279: for parameters given by a vector, a direct call; for a matrix, vmap: the first dimension of everything is the number of networks *)
  Definition call (m : module) (p : policy) (x : nat) (h : heap) : heap * policy * result nat :=
    match params p with
    | None => (h, p, Err ValueError)
    | Some a =>
      match nth_error h a with
      | Some (Single ps) =>
        match single_row h x, osequence (option_map (tmap (single_row h)) (state p)) with
        | Ok xr, Ok st => store m p (map Single (compute m ps xr st)) h
        | Err e, _ | _, Err e => (h, p, Err e)
        end
      | Some (Batch ps) =>
        let n := length ps in
        match batch_rows h n x, osequence (option_map (tmap (batch_rows h n)) (state p)) with
        | Ok xs, Ok st =>
          if match state p with Some t => tensors_only t | None => true end && match skel m with Some t => tensors_only t | None => true end then
            let per_net := map (fun i => match nth_error ps i, nth_error xs i with
                                         | Some q, Some x => compute m q x (option_map (tmap (fun l => nth i l q)) st)   (* q: not used, lengths agree *)
                                         | _, _ => []
                                         end) (seq 0 n) in
            store m p (map Batch (transpose (length (hd [] per_net)) per_net)) h
          else (h, p, Err ValueError)
        | Err e, _ | _, Err e => (h, p, Err e)
        end
      | None => (h, p, Err KeyError)    (* no such tensor; does not occur *)
      end
    end.
End Pol.
Arguments cell : clear implicits.
Arguments heap : clear implicits.
Arguments module : clear implicits.

(* ---- recurrent networks: neuroevolution/net/layers.py ----
   Rows are vectors over some scalars; the parameters are one flat vector, in the order in which the nn.Parameters are created. *)
Section Layers.
  Context {K : Type}.
  Variable k0 : K.
  Variables add mul : K -> K -> K.
  Variables act tanh sigm : K -> K.
  Variables input_size hidden_size : nat.
  Definition zero_vec (r : list K) : list K := map (fun _ => k0) r.
  Definition dot (a b : list K) : K := fold_left add (map2 mul a b) k0.
  (* the row number i of a matrix with c columns which begins at the place off of the parameter vector; the element number i of a vector there *)
  Definition mrow (q : list K) (off c i : nat) : list K := firstn c (skipn (off + i * c) q).
  Definition velem (q : list K) (off i : nat) : K := nth (off + i) q k0.
  (* layers.py:161-204 (RNN): W1, W2, b1, b2 *)
  Definition rnn_cell (q x h : list K) : list K :=
    let W1 := 0 in let W2 := hidden_size * input_size in let b1 := W2 + hidden_size * hidden_size in let b2 := b1 + hidden_size in
    map (fun i => act (add (add (dot (mrow q W1 input_size i) x) (velem q b1 i)) (add (dot (mrow q W2 hidden_size i) h) (velem q b2 i)))) (seq 0 hidden_size).
  Definition rnn : module (list K) :=
    Module (fun q x st =>
              [rnn_cell q x (match st with Some (Tensor h) => h | _ => repeat k0 hidden_size end)])
           0 (Some (Tensor 0)).
  (* layers.py:210-272 (LSTM): W_ii W_if W_ig W_io W_hi W_hf W_hg W_ho b_ii b_if b_ig b_io b_hi b_hf b_hg b_ho; gates 0..3 are i, f, g, o *)
  Definition gate (q x h : list K) (k : nat) (i : nat) : K :=
    let wi := hidden_size * input_size in let wh := hidden_size * hidden_size in
    let Wi := k * wi in let Wh := 4 * wi + k * wh in let bi := 4 * wi + 4 * wh + k * hidden_size in let bh := bi + 4 * hidden_size in
    add (add (add (dot (mrow q Wi input_size i) x) (velem q bi i)) (dot (mrow q Wh hidden_size i) h)) (velem q bh i).
  Definition lstm_cell (q x h c : list K) : list K * list K :=
    let c_t := map (fun i => add (mul (sigm (gate q x h 1 i)) (nth i c k0)) (mul (sigm (gate q x h 0 i)) (tanh (gate q x h 2 i)))) (seq 0 hidden_size) in
    let h_t := map (fun i => mul (sigm (gate q x h 3 i)) (tanh (nth i c_t k0))) (seq 0 hidden_size) in
    (h_t, c_t).
  Definition lstm : module (list K) :=
    Module (fun q x st =>
              let '(h, c) := match st with Some (Iter [Tensor h; Tensor c]) => (h, c) | _ => (repeat k0 hidden_size, repeat k0 hidden_size) end in
              let '(h, c) := lstm_cell q x h c in [h; c])
           0 (Some (Iter [Tensor 0; Tensor 1])).
End Layers.

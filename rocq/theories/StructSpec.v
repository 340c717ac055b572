(* Specifications for the structures: what a user expects, stated on plain lists and functions.
   Only the datatypes of operations and outputs are shared with the model. *)
From Verif Require Import Prelude StructModel.
Open Scope Z_scope.

(* Python's list index rule: which position of a list of length n does index k mean? *)
Definition py_index (n : nat) (k : Z) : option nat :=
  if (0 <=? k) && (k <? Z.of_nat n) then Some (Z.to_nat k)
  else if (- Z.of_nat n <=? k) && (k <? 0) then Some (Z.to_nat (Z.of_nat n + k))
  else None.

(* Per batch item argument / mask. *)
Definition arg_of {A} (n : nat) (b : barg A) : list A := match b with Sc a => repeat a n | Ba l => l end.
Definition mask_of (n : nat) (w : option (list bool)) : list bool :=
  match w with None => repeat true n | Some l => l end.

(* What the arithmetic methods mean on the addressed element. *)
Definition meth_meaning {V} (D : dops V) (mt : meth) (old v : V) : V :=
  match mt with
  | MSet => v
  | MAdd => d_add D old v
  | MSub => d_add D old (d_neg D v)
  | MMul => d_mul D old v
  | MDiv => d_mul D old (d_inv D v)
  end.

(* All lanes succeed, or the whole operation fails. *)
Fixpoint all_some {A} (l : list (option A)) : option (list A) :=
  match l with
  | [] => Some []
  | Some a :: t => option_map (cons a) (all_some t)
  | None :: _ => None
  end.

Definition commit {A O} (e : exn) (old : list A) (new : list (option A)) (out : O) : list A * result O :=
  match all_some new with Some l => (l, Ok out) | None => (old, Err e) end.

(* ------------------------------------------------- bounded double-ended queues *)
Section Deque.
Context {V : Type} (D : dops V) (M : nat) (fallback : V).

Definition q_append (q : list V) (v : V) (b : bool) : option (list V) :=
  if b then if Nat.ltb (length q) M then Some (q ++ [v]) else None else Some q.
Definition q_appendleft (q : list V) (v : V) (b : bool) : option (list V) :=
  if b then if Nat.ltb (length q) M then Some (v :: q) else None else Some q.
Definition q_pop (q : list V) (b : bool) : option (list V) :=
  if b then match q with [] => None | _ => Some (removelast q) end else Some q.
Definition q_popleft (q : list V) (b : bool) : option (list V) :=
  if b then match q with [] => None | _ :: t => Some t end else Some q.
Definition q_modify (mt : meth) (q : list V) (k : Z) (v : V) (b : bool) : option (list V) :=
  if b then match py_index (length q) k with
            | None => None
            | Some i => match nth_error q i with
                        | Some old => Some (upd q i (meth_meaning D mt old v))
                        | None => None
                        end
            end
  else Some q.
Definition q_get (q : list V) (k : Z) : option V :=
  match py_index (length q) k with None => None | Some i => nth_error q i end.

(* One operation on a batch of queues.  clear(where) is not part of this specification. *)
Definition q_step (qs : list (list V)) (o : cl_op (V := V)) : list (list V) * result (cl_out (V := V)) :=
  let n := length qs in
  match o with
  | ClAppend v w => commit IndexError qs (map3 q_append qs (arg_of n v) (mask_of n w)) COUnit
  | ClAppendLeft v w => commit IndexError qs (map3 q_appendleft qs (arg_of n v) (mask_of n w)) COUnit
  | ClPop w => commit IndexError qs (map2 q_pop qs (mask_of n w))
                 (COVals (map (fun q => match q_get q (-1) with Some v => v | None => fallback end) qs))
  | ClPopLeft w => commit IndexError qs (map2 q_popleft qs (mask_of n w))
                 (COVals (map (fun q => match q_get q 0 with Some v => v | None => fallback end) qs))
  | ClApply mt k v w =>
      commit IndexError qs
        (map2 (fun q kvb => q_modify mt q (fst kvb) (fst (snd kvb)) (snd (snd kvb))) qs
              (combine (arg_of n k) (combine (arg_of n v) (mask_of n w)))) COUnit
  | ClGet k None =>
      match all_some (map2 q_get qs (arg_of n k)) with
      | Some vs => (qs, Ok (COVals vs)) | None => (qs, Err IndexError) end
  | ClGet k (Some d) =>
      (qs, Ok (COVals (map3 (fun q k d => match q_get q k with Some v => v | None => d end)
                            qs (arg_of n k) (arg_of n d))))
  | ClLength => (qs, Ok (COLens (map (fun q => Z.of_nat (length q)) qs)))
  | ClClear _ => (map (fun _ => []) qs, Ok COUnit)
  end.

(* Requests covered by the specification: arguments shaped like the batch, list indices in
   -max_length .. max_length-1, whole-list clear, and multiplication/division only with a
   mask (or on boolean lists) -- the excluded cases are treated by the refutations. *)
Definition shaped {A} (n : nat) (b : barg A) : bool :=
  match b with Sc _ => true | Ba l => Nat.eqb (length l) n end.
Definition mask_shaped (n : nat) (w : option (list bool)) : bool :=
  match w with None => true | Some l => Nat.eqb (length l) n end.
Definition scales (mt : meth) : bool := match mt with MMul | MDiv => true | _ => false end.
Definition meth_ok (mt : meth) (w : option (list bool)) : bool :=
  negb (scales mt) || d_isbool D || match w with Some _ => true | None => false end.
Definition key_in_capacity (k : Z) : bool := (- Z.of_nat M <=? k) && (k <? Z.of_nat M).
Definition op_covered (n : nat) (o : cl_op (V := V)) : bool :=
  match o with
  | ClAppend v w | ClAppendLeft v w => shaped n v && mask_shaped n w
  | ClPop w | ClPopLeft w => mask_shaped n w
  | ClApply mt k v w => shaped n k && forallb key_in_capacity (arg_of n k) && shaped n v
                        && mask_shaped n w && meth_ok mt w
  | ClGet k d => shaped n k && forallb key_in_capacity (arg_of n k)
                 && match d with Some d => shaped n d | None => true end
  | ClLength => true
  | ClClear w => match w with None => true | Some _ => false end
  end.

(* x + 0 = x and x * 1 = x: what the masked arithmetic of the library relies on. *)
Definition unit_laws : Prop :=
  (forall x, d_add D x (d_zero D) = x) /\ (forall x, d_mul D x (d_one D) = x).
End Deque.

(* ------------------------------------------------- cells and finite maps *)
Section Cells.
Context {V : Type} (D : dops V).

(* A memory holds one value per batch item and key; nothing is said about layout. *)
Definition cells := nat -> Z -> V.
Definition in_range (off : Z) (nkeys : nat) (k : Z) : bool := (off <=? k) && (k <? off + Z.of_nat nkeys).

(* Every selected batch item's key is in range. *)
Definition keys_in_range (off : Z) (nkeys : nat) (ks : list Z) (bs : list bool) : bool :=
  forallb (fun kb => negb (snd kb) || in_range off nkeys (fst kb)) (combine ks bs).

(* Write f old value into the selected cells. *)
Definition write (f : V -> V -> V) (c : cells) (ks : list Z) (vs : list V) (bs : list bool) : cells :=
  fun i k => match nth_error ks i, nth_error vs i, nth_error bs i with
             | Some ki, Some v, Some true => if ki =? k then f (c i k) v else c i k
             | _, _, _ => c i k
             end.

Definition mem_step (n : nat) (off : Z) (nkeys : nat) (c : cells) (o : cm_op (V := V)) : cells * result (list V) :=
  match o with
  | CmGet k =>
      (c, if keys_in_range off nkeys (arg_of n k) (repeat true n)
          then Ok (map2 (fun i k => c i k) (seq 0 n) (arg_of n k)) else Err KeyError)
  | CmApply mt k v w =>
      if keys_in_range off nkeys (arg_of n k) (mask_of n w)
      then (write (meth_meaning D mt) c (arg_of n k) (arg_of n v) (mask_of n w), Ok [])
      else (c, Err KeyError)
  | CmCirc k v md w =>
      if keys_in_range off nkeys (arg_of n k) (mask_of n w)
      then if d_isbool D then (c, Err ValueError)
           else (write (fun old v => d_mod D (d_add D old v) md) c (arg_of n k) (arg_of n v) (mask_of n w), Ok [])
      else (c, Err KeyError)
  end.

(* Requests covered: arguments shaped like the batch; multiplication/division only with a
   mask or on booleans; keys of masked-out items at most one key-range below the first key
   (such a key is never used but is still handed to torch's indexing). *)
Definition mem_key_ok (off : Z) (nkeys : nat) (k : Z) (b : bool) : bool :=
  b || ((off - Z.of_nat nkeys <=? k) && (k <? off + Z.of_nat nkeys)).
Definition mem_covered (n : nat) (off : Z) (nkeys : nat) (o : cm_op (V := V)) : bool :=
  match o with
  | CmGet k => shaped n k
  | CmApply mt k v w => shaped n k && shaped n v && mask_shaped n w && meth_ok D mt w
                        && forallb (fun kb => mem_key_ok off nkeys (fst kb) (snd kb)) (combine (arg_of n k) (mask_of n w))
  | CmCirc k v md w => shaped n k && shaped n v && mask_shaped n w
                        && forallb (fun kb => mem_key_ok off nkeys (fst kb) (snd kb)) (combine (arg_of n k) (mask_of n w))
  end.

(* Finite maps with defaults: a cell may be missing.  Output of a read without default on a
   missing key is unspecified (None). *)
Definition maps := nat -> Z -> option V.
Inductive dict_out := DVals (l : list (option V)) | DBools (l : list bool) | DUnit.
Definition dict_set (c : maps) (ks : list Z) (vs : list V) (bs : list bool) : maps :=
  fun i k => match nth_error ks i, nth_error vs i, nth_error bs i with
             | Some ki, Some v, Some true => if ki =? k then Some v else c i k
             | _, _, _ => c i k
             end.
Definition dict_change (f : V -> V -> V) (c : maps) (ks : list Z) (vs : list V) (bs : list bool) : maps :=
  fun i k => match nth_error ks i, nth_error vs i, nth_error bs i with
             | Some ki, Some v, Some true =>
                 if ki =? k then option_map (fun old => f old v) (c i k) else c i k
             | _, _, _ => c i k
             end.
Definition dict_step (n : nat) (off : Z) (nkeys : nat) (c : maps) (o : cd_op (V := V)) : maps * result dict_out :=
  match o with
  | CdGet k d =>
      (c, if keys_in_range off nkeys (arg_of n k) (repeat true n)
          then Ok (DVals (match d with
                   | None => map2 (fun i k => c i k) (seq 0 n) (arg_of n k)
                   | Some d => map3 (fun i k d => match c i k with Some v => Some v | None => Some d end)
                                 (seq 0 n) (arg_of n k) (arg_of n d)
                   end))
          else Err KeyError)
  | CdContains k =>
      (c, if keys_in_range off nkeys (arg_of n k) (repeat true n)
          then Ok (DBools (map2 (fun i k => match c i k with Some _ => true | None => false end)
                                (seq 0 n) (arg_of n k)))
          else Err KeyError)
  | CdApply mt k v w =>
      if keys_in_range off nkeys (arg_of n k) (mask_of n w)
      then (match mt with
            | MSet => dict_set c (arg_of n k) (arg_of n v) (mask_of n w)
            | _ => dict_change (meth_meaning D mt) c (arg_of n k) (arg_of n v) (mask_of n w)
            end, Ok DUnit)
      else (c, Err KeyError)
  | CdClear _ => (fun _ _ => None, Ok DUnit)
  end.
Definition dict_covered (n : nat) (off : Z) (nkeys : nat) (o : cd_op (V := V)) : bool :=
  match o with
  | CdGet k d => shaped n k && match d with Some d => shaped n d | None => true end
  | CdContains k => shaped n k
  | CdApply mt k v w => mem_covered n off nkeys (CmApply mt k v w)
  | CdClear w => match w with None => true | Some _ => false end
  end.
(* An actual output is allowed by a specified one. *)
Definition dict_out_ok (r : result (cd_out (V := V))) (s : result dict_out) : Prop :=
  match r, s with
  | Ok (OutVals l), Ok (DVals ls) => Forall2 (fun v s => match s with Some x => v = x | None => True end) l ls
  | Ok (OutBools l), Ok (DBools ls) => l = ls
  | Ok OutUnit, Ok DUnit => True
  | Err e, Err e' => e = e'
  | _, _ => False
  end.
End Cells.
Arguments DVals {V}. Arguments DBools {V}. Arguments DUnit {V}.

(* ------------------------------------------------- one batch item on its own *)
Section OneLane.
Context {V : Type}.
(* The part of a batched argument / mask / operation that concerns batch item i. *)
Definition lane_arg {A} (i : nat) (b : barg A) : barg A :=
  match b with
  | Sc a => Sc a
  | Ba l => match nth_error l i with Some a => Ba [a] | None => Ba [] end
  end.
Definition lane_mask (i : nat) (w : option (list bool)) : option (list bool) :=
  match w with
  | None => None
  | Some l => match nth_error l i with Some b => Some [b] | None => Some [] end
  end.
Definition lane_op (i : nat) (o : cl_op (V := V)) : cl_op (V := V) :=
  match o with
  | ClAppend v w => ClAppend (lane_arg i v) (lane_mask i w)
  | ClAppendLeft v w => ClAppendLeft (lane_arg i v) (lane_mask i w)
  | ClPop w => ClPop (lane_mask i w)
  | ClPopLeft w => ClPopLeft (lane_mask i w)
  | ClApply mt k v w => ClApply mt (lane_arg i k) (lane_arg i v) (lane_mask i w)
  | ClGet k d => ClGet (lane_arg i k) (option_map (lane_arg i) d)
  | ClLength => ClLength
  | ClClear w => ClClear (lane_mask i w)
  end.
Definition lane_out (i : nat) (o : cl_out (V := V)) : cl_out (V := V) :=
  match o with
  | COVals l => match nth_error l i with Some a => COVals [a] | None => COVals [] end
  | COLens l => match nth_error l i with Some a => COLens [a] | None => COLens [] end
  | COUnit => COUnit
  end.
(* The mask given with an operation, if the operation takes one. *)
Definition op_mask (o : cl_op (V := V)) : option (list bool) :=
  match o with
  | ClAppend _ w | ClAppendLeft _ w | ClPop w | ClPopLeft w | ClApply _ _ _ w | ClClear w => w
  | ClGet _ _ | ClLength => None
  end.
End OneLane.

(* What a batch of bags should do: a monitor over the observable history. *)
From Verif Require Import Prelude StructModel StructSpec CBagModel.
Open Scope Z_scope.

Fixpoint remove_one (v : Z) (l : list Z) : option (list Z) :=
  match l with
  | [] => None
  | x :: t => if v =? x then Some t else option_map (cons x) (remove_one v t)
  end.

Section Monitor.
Variable M : nat.

(* Contents of the bags (as lists, order meaningless) and whether sampling has begun. *)
Definition bags := (bool * list (list Z))%type.

Definition push_one (bag : list Z) (v : Z) (b : bool) : option (list Z) :=
  if b then if Nat.ltb (length bag) M then Some (v :: bag) else None else Some bag.
Definition pop_one (bag : list Z) (v : Z) (b : bool) : option (list Z) :=
  if b then remove_one v bag else Some bag.
Definition wants_from_empty (bag : list Z) (b : bool) : bool := b && Nat.eqb (length bag) 0.

(* bag_check s o r: the state after observing that request o was answered with r,
   or None if a correct bag could not have answered so. *)
Definition bag_check (s : bags) (o : cb_op) (r : result (cl_out (V := Z))) : option bags :=
  let n := length (snd s) in
  match o, r with
  | CbPush v w, r =>
      if fst s then match r with Err RuntimeError => Some s | _ => None end
      else match all_some (map3 push_one (snd s) (arg_of n v) (mask_of n w)), r with
           | Some bs, Ok COUnit => Some (false, bs)
           | None, Err IndexError => Some s
           | _, _ => None
           end
  | CbPop _ w, Ok (COVals vs) =>
      if Nat.eqb (length vs) n
      then option_map (pair true) (all_some (map3 pop_one (snd s) vs (mask_of n w)))
      else None
  | CbPop _ w, Err IndexError =>
      if existsb (fun b => b) (map2 wants_from_empty (snd s) (mask_of n w)) then Some (true, snd s) else None
  | CbLength, Ok (COLens l) =>
      if list_eq_dec Z.eq_dec l (map (fun b => Z.of_nat (length b)) (snd s)) then Some s else None
  | CbClear, Ok COUnit => Some (false, map (fun _ => []) (snd s))
  | _, _ => None
  end.

Fixpoint bag_history (s : bags) (os : list cb_op) (rs : list (result (cl_out (V := Z)))) : option bags :=
  match os, rs with
  | [], [] => Some s
  | o :: os, r :: rs => match bag_check s o r with Some s' => bag_history s' os rs | None => None end
  | _, _ => None
  end.
End Monitor.

(* The ledger of bag i since its last clear: everything pushed, everything popped. *)
Definition ledger_step (n i : nat) (lg : list Z * list Z) (o : cb_op) (r : result (cl_out (V := Z))) : list Z * list Z :=
  match o, r with
  | CbPush v w, Ok _ =>
      match nth_error (arg_of n v) i, nth_error (mask_of n w) i with
      | Some x, Some true => (x :: fst lg, snd lg)
      | _, _ => lg
      end
  | CbPop _ w, Ok (COVals vs) =>
      match nth_error vs i, nth_error (mask_of n w) i with
      | Some x, Some true => (fst lg, x :: snd lg)
      | _, _ => lg
      end
  | CbClear, _ => ([], [])
  | _, _ => lg
  end.
Fixpoint ledger (n i : nat) (lg : list Z * list Z) (os : list cb_op) (rs : list (result (cl_out (V := Z)))) : list Z * list Z :=
  match os, rs with
  | o :: os, r :: rs => ledger n i (ledger_step n i lg o r) os rs
  | _, _ => lg
  end.

(* Requests covered: shaped arguments, pushed values inside the declared range, and one row of
   M non-negative noise numbers per bag from the generator. *)
Definition noise_ok (M n : nat) (noise : list (list Z)) : bool :=
  Nat.eqb (length noise) n && forallb (fun row => Nat.eqb (length row) M && forallb (fun z => 0 <=? z) row) noise.
Definition bag_covered (M n : nat) (low high : Z) (o : cb_op) : bool :=
  match o with
  | CbPush v w => shaped n v && mask_shaped n w && forallb (fun x => (low <=? x) && (x <? high)) (arg_of n v)
  | CbPop noise w => mask_shaped n w && noise_ok M n noise
  | CbLength | CbClear => true
  end.

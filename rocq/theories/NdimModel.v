(* Model of decorators.py: expects_ndim and rowwise.
   A tensor is its shape, a function from lists of indices to values, its dtype and its device. torch.func.vmap is modelled as running the
   function on every slice along dimension 0 and stacking the results; the result for an empty batch has the shape which the function gives
   on items of that form. Simplifications: the decorated function is deterministic and returns one tensor (or raises); the alternative call
   form expects_ndim(f, (2, 1)) is the decorator applied; numpy arrays are given as the tensors which torch.as_tensor makes of them. *)
From Verif Require Import Prelude.

Section NDIM.
Variables A Sc Obj : Type.                (* values in tensors, Python numbers, other objects *)
Variable cast : nat -> Sc -> A.           (* a number as a value of the given dtype *)
Variable is_bool : Sc -> bool.
Variable bool_dtype : nat.

Record tensor := T { shape : list nat; at_ : list nat -> A; dtype : nat; device : nat }.
Inductive arg := ATensor (t : tensor) | AScalar (s : Sc) | ANumpy (t : tensor) | AObject (o : Obj).
Definition func := list arg -> result tensor.

(* decorators.py:706-718: the tensors among the arguments. (Line 713 means to leave out those without declared number of dimensions, but looks at
   a variable of the loop at 787, which is not None when a scalar is converted.) *)
Definition seen (expected : list (option nat)) (args : list arg) : list tensor :=
  flat_map (fun p => match snd p with ATensor t => [t] | _ => [] end) (combine expected args).
(* 720-738: the only element of a set *)
Definition unique (l : list nat) : result nat :=
  match l with
  | [] => Err TypeError
  | x :: t => if forallb (Nat.eqb x) t then Ok x else Err TypeError
  end.
(* 740-779 *)
Definition convert_scalar (ts : list tensor) (s : Sc) : result tensor :=
  bind (unique (map device ts)) (fun dev =>
    if is_bool s then Ok (T [] (fun _ => cast bool_dtype s) bool_dtype dev)
    else bind (unique (map dtype ts)) (fun dt => Ok (T [] (fun _ => cast dt s) dt dev))).
(* 787-817 *)
Definition convert (allow_smaller : bool) (ts : list tensor) (expected : option nat) (a : arg) : result arg :=
  bind (match expected, a with
        | None, _ => Ok a
        | _, ATensor t => Ok a
        | _, AScalar s => rmap ATensor (convert_scalar ts s)
        | _, ANumpy t => Ok (ATensor t)
        | _, AObject _ => Err TypeError
        end)
       (fun a1 => match expected, a1 with
                  | Some n, ATensor t => if (length (shape t) <? n) && negb allow_smaller then Err ValueError else Ok a1
                  | _, _ => Ok a1
                  end).

(* torch.func.vmap with batch dimensions 0 (true) or None (false) *)
Definition size0 (a : arg) : nat := match a with ATensor t => match shape t with n :: _ => n | [] => 0 end | _ => 0 end.
Definition sizes (in_dims : list bool) (args : list arg) : list nat :=
  flat_map (fun p => if fst p : bool then [size0 (snd p)] else []) (combine in_dims args).
Definition slice (i : nat) (b : bool) (a : arg) : arg :=
  if b then match a with ATensor t => ATensor (T (tl (shape t)) (fun ix => at_ t (i :: ix)) (dtype t) (device t)) | _ => a end else a.
Definition vmap (f : func) (in_dims : list bool) : func := fun args =>
  match sizes in_dims args with
  | [] => Err ValueError
  | b :: t =>
    if forallb (Nat.eqb b) t
    then bind (f (map2 (slice 0) in_dims args)) (fun r0 =>
      Ok (T (b :: shape r0)
            (fun ix => match ix with
                       | [] => at_ r0 []
                       | i :: ix1 => match f (map2 (slice i) in_dims args) with Ok r => at_ r ix1 | Err _ => at_ r0 ix1 end
                       end) (dtype r0) (device r0)))
    else Err ValueError
  end.
(* 821-824 *)
Definition wrapped_ndims (expected : list (option nat)) (args : list arg) : list (option nat) :=
  map2 (fun e a => match e, a with Some _, ATensor t => Some (length (shape t)) | _, _ => None end) expected args.
Definition has_extra (e w : option nat) : bool := match e, w with Some e, Some w => e <? w | _, _ => false end.
(* 827-866 *)
Fixpoint wrap (fuel : nat) (expected wrapped : list (option nat)) (f : func) : result func :=
  match fuel with
  | 0 => Err OutOfFuel
  | S k =>
    let in_dims := map2 has_extra expected wrapped in
    if existsb (fun b => b) in_dims
    then wrap k expected (map2 (fun (b : bool) w => if b then option_map pred w else w) in_dims wrapped) (vmap f in_dims)
    else Ok f
  end.
Definition ndim_max (l : list (option nat)) : nat := fold_right (fun w m => Nat.max (match w with Some n => n | None => 0 end) m) 0 l.
(* 692-869 *)
Definition expects_ndim (expected : list (option nat)) (allow_smaller : bool) (f : func) : func := fun args =>
  bind (sequence (map2 (convert allow_smaller (seen expected args)) expected args)) (fun new_args =>
  let wrapped := wrapped_ndims expected new_args in
  bind (wrap (S (ndim_max wrapped)) expected wrapped f) (fun wrapped_fn => wrapped_fn new_args)).
(* 960-963 *)
Definition rowwise (f : func) : func := expects_ndim [Some 1] false f.
End NDIM.
Arguments T {A} shape at_ dtype device. Arguments shape {A} t. Arguments at_ {A} t. Arguments dtype {A} t. Arguments device {A} t.
Arguments ATensor {A Sc Obj} t. Arguments AScalar {A Sc Obj} s. Arguments ANumpy {A Sc Obj} t. Arguments AObject {A Sc Obj} o.
Arguments vmap {A Sc Obj} f in_dims args. Arguments slice {A Sc Obj} i b a. Arguments sizes {A Sc Obj} in_dims args. Arguments size0 {A Sc Obj} a.
Arguments wrap {A Sc Obj} fuel expected wrapped f. Arguments wrapped_ndims {A Sc Obj} expected args. Arguments seen {A Sc Obj} expected args.
Arguments expects_ndim {A Sc Obj} cast is_bool bool_dtype expected allow_smaller f args.
Arguments convert {A Sc Obj} cast is_bool bool_dtype allow_smaller ts expected a.
Arguments convert_scalar {A Sc} cast is_bool bool_dtype ts s.
Arguments rowwise {A Sc Obj} cast is_bool bool_dtype f args.

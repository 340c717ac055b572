(* Model of how the distribution-based searches take their starting point:
   /repo/src/evotorch/algorithms/cmaes.py:245-260, algorithms/distributed/gaussian.py:94-102 and
   tools/misc.py:655-671 (ensure_tensor_length_and_dtype with allow_scalar=False).
   A tensor is its shape and its elements in row-major order; dtypes and devices are left out. *)
From Verif Require Import Prelude.

Section Center.
Context {num : Type}.
Record tensor := mkT { t_shape : list nat; t_data : list num }.
(* the argument center_init: a Solution, or anything which can be made a tensor *)
Inductive center_init := ASolution (values : list num) | ATensor (t : tensor).

(* torch.Tensor.squeeze *)
Definition squeeze (t : tensor) : tensor := mkT (filter (fun n => negb (Nat.eqb n 1)) (t_shape t)) (t_data t).

(* cmaes.py:245-260; d is the solution length and `generated` are the values of problem.generate_values(1) *)
Definition cmaes_center (d : nat) (generated : list num) (center : option center_init) : result (list num) :=
  let t := match center with
           | None => mkT [1; d] generated
           | Some (ASolution v) => mkT [length v] v
           | Some (ATensor t) => t
           end in
  let m := squeeze t in
  match t_shape m with
  | [n] => if Nat.eqb n d then Ok (t_data m) else Err ValueError
  | _ => Err ValueError
  end.

(* gaussian.py:94-102 with misc.py:655-671 *)
Definition gaussian_center (d : nat) (generated : list num) (center : option tensor) : result (list num) :=
  match center with
  | None => Ok generated
  | Some t =>
      match t_shape t with
      | [] => Ok (concat (repeat (t_data t) d))
      | [n] => if Nat.eqb n d then Ok (t_data t) else Err ValueError
      | _ => Err ValueError
      end
  end.
End Center.
Arguments tensor : clear implicits.
Arguments center_init : clear implicits.

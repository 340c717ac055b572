(* What the dtypes and kinds of objects are. *)
From Coq Require Import String.
From Verif Require Import Prelude TyModel.
Open Scope string_scope.

(* the same numbers in PyTorch and numpy *)
Definition same_table : list (tdt * ndt) :=
  [(TF16, NF16); (TF32, NF32); (TF64, NF64); (TI8, NI8); (TI16, NI16); (TI32, NI32); (TI64, NI64); (TU8, NU8); (TBool, NBool)].
Definition same (t : tdt) (n : ndt) : Prop := In (t, n) same_table.

Definition torch_ints : list tdt := [TI8; TI16; TI32; TI64; TU8].
Definition torch_floats : list tdt := [TF16; TBF16; TF32; TF64].
Definition numpy_ints : list ndt := [NI8; NI16; NI32; NI64; NU8; NU16; NU32; NU64].
Definition numpy_floats : list ndt := [NF16; NF32; NF64].
(* single numbers: Python's, numpy's, and tensors and arrays without dimensions *)
Inductive integer : obj -> Prop :=
| int_python : integer OInt
| int_numpy n : In n numpy_ints -> integer (OScalar n)
| int_array n : In n numpy_ints -> integer (OArray [] n)
| int_tensor t : In t torch_ints -> integer (OTensor [] t).
Inductive floating : obj -> Prop :=
| float_python : floating OFloat
| float_numpy n : In n numpy_floats -> floating (OScalar n)
| float_array n : In n numpy_floats -> floating (OArray [] n)
| float_tensor t : In t torch_floats -> floating (OTensor [] t).
Inductive boolean : obj -> Prop :=
| bool_python : boolean OBool
| bool_numpy : boolean (OScalar NBool)
| bool_array : boolean (OArray [] NBool)
| bool_tensor : boolean (OTensor [] TBool).
Definition real (x : obj) : Prop := integer x \/ floating x.
(* the answer to a question is yes exactly for P *)
Definition answers (r : result bool) (P : Prop) : Prop := exists b, r = Ok b /\ (b = true <-> P).

(* what iterating over a vector gives *)
Definition items (x : obj) : list obj :=
  match x with
  | OTensor [n] t => repeat (OTensor [] t) n
  | OArray [n] d => repeat (OScalar d) n
  | OObjects l | OList l => l
  | OString c => repeat (OString 1) c
  | _ => []
  end.
Definition iterable (x : obj) : Prop := match x with OTensor [_] _ | OArray [_] _ | OObjects _ | OList _ | OString _ => True | _ => False end.
Definition no_bfloat16 (x : obj) : Prop := (forall s, x <> OTensor s TBF16) /\ forall y, In y (items x) -> y <> OTensor [] TBF16.

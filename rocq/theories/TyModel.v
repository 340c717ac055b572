(* Model of the questions about types and dtypes in tools/misc.py: to_torch_dtype, to_numpy_dtype, is_dtype_*, is_integer, is_real,
   is_bool and their vector versions, is_sequence, numpy_copy, dtype_of.
   Simplifications: the dtypes listed here (complex numbers, quantized and wide unsigned types of PyTorch are left out; numpy's
   other types are NOther); strings which are neither the name of a PyTorch dtype nor one of "object", "Any", "O" are given to
   numpy, what numpy makes of them is an oracle; iterators which are consumed by the question are left out. *)
From Coq Require Import String.
From Verif Require Import Prelude.
Open Scope string_scope.

Inductive tdt := TF16 | TBF16 | TF32 | TF64 | TI8 | TI16 | TI32 | TI64 | TU8 | TBool.
Inductive ndt := NF16 | NF32 | NF64 | NI8 | NI16 | NI32 | NI64 | NU8 | NU16 | NU32 | NU64 | NBool | NObject | NOther.
Inductive native := PyInt | PyFloat | PyBool | PyObject | TypingAny.
Inductive dt := DTorch (t : tdt) | DNumpy (n : ndt) | DName (s : string) | DNative (p : native).

(* getattr(torch, name) if it is a dtype *)
Definition torch_named (s : string) : option tdt :=
  if String.eqb s "float16" || String.eqb s "half" then Some TF16
  else if String.eqb s "bfloat16" then Some TBF16
  else if String.eqb s "float32" || String.eqb s "float" then Some TF32
  else if String.eqb s "float64" || String.eqb s "double" then Some TF64
  else if String.eqb s "int8" then Some TI8
  else if String.eqb s "int16" || String.eqb s "short" then Some TI16
  else if String.eqb s "int32" || String.eqb s "int" then Some TI32
  else if String.eqb s "int64" || String.eqb s "long" then Some TI64
  else if String.eqb s "uint8" then Some TU8
  else if String.eqb s "bool" then Some TBool
  else None.
Section Numpy.
Variable other_name : string -> option ndt.
(* numpy.dtype(name); None: TypeError *)
Definition numpy_named (s : string) : option ndt :=
  if String.eqb s "float16" || String.eqb s "half" then Some NF16
  else if String.eqb s "bfloat16" then None
  else if String.eqb s "float32" then Some NF32
  else if String.eqb s "float64" || String.eqb s "double" || String.eqb s "float" then Some NF64
  else if String.eqb s "int8" then Some NI8
  else if String.eqb s "int16" || String.eqb s "short" then Some NI16
  else if String.eqb s "int32" then Some NI32
  else if String.eqb s "int64" || String.eqb s "long" || String.eqb s "int" then Some NI64
  else if String.eqb s "uint8" then Some NU8
  else if String.eqb s "bool" then Some NBool
  else if String.eqb s "object" || String.eqb s "O" then Some NObject
  else if String.eqb s "Any" then None
  else other_name s.
Definition native_numpy (p : native) : result ndt :=
  match p with PyInt => Ok NI64 | PyFloat => Ok NF64 | PyBool => Ok NBool | PyObject => Ok NObject | TypingAny => Err TypeError end.
(* numpy.dtype(d) *)
Definition numpy_dtype (d : dt) : result ndt :=
  match d with
  | DTorch _ => Err TypeError
  | DNumpy n => Ok n
  | DName s => match numpy_named s with Some n => Ok n | None => Err TypeError end
  | DNative p => native_numpy p
  end.
(* torch.from_numpy: the supported dtypes *)
Definition from_numpy (n : ndt) : result tdt :=
  match n with
  | NF16 => Ok TF16 | NF32 => Ok TF32 | NF64 => Ok TF64 | NI8 => Ok TI8 | NI16 => Ok TI16 | NI32 => Ok TI32 | NI64 => Ok TI64
  | NU8 => Ok TU8 | NBool => Ok TBool | _ => Err TypeError
  end.
(* tensor.numpy(): there is no bfloat16 in numpy *)
Definition tensor_numpy (t : tdt) : result ndt :=
  match t with
  | TF16 => Ok NF16 | TF32 => Ok NF32 | TF64 => Ok NF64 | TI8 => Ok NI8 | TI16 => Ok NI16 | TI32 => Ok NI32 | TI64 => Ok NI64
  | TU8 => Ok NU8 | TBool => Ok NBool | TBF16 => Err TypeError
  end.
(* misc.py:75-96 to_torch_dtype *)
Definition to_torch_dtype (d : dt) : result tdt :=
  match match d with DName s => torch_named s | _ => None end with
  | Some t => Ok t
  | None =>
      match d with
      | DTorch t => Ok t
      | DNative TypingAny | DNative PyObject => Err TypeError
      | _ => bind (numpy_dtype d) from_numpy
      end
  end.
(* misc.py:118-131 is_dtype_object *)
Definition is_dtype_object (d : dt) : bool :=
  match d with
  | DName s => String.eqb s "object" || String.eqb s "Any" || String.eqb s "O"
  | DNative PyObject | DNative TypingAny => true
  | _ => false
  end.
(* misc.py:99-115 to_numpy_dtype *)
Definition to_numpy_dtype (d : dt) : result ndt :=
  match d with
  | DTorch t => tensor_numpy t
  | _ => if is_dtype_object d then Ok NObject else numpy_dtype d
  end.
(* numpy.dtype.kind *)
Inductive kind_ := KFloat | KInt | KUint | KBool | KObject | KOther.
Definition kind_of (n : ndt) : kind_ :=
  match n with
  | NF16 | NF32 | NF64 => KFloat | NI8 | NI16 | NI32 | NI64 => KInt | NU8 | NU16 | NU32 | NU64 => KUint
  | NBool => KBool | NObject => KObject | NOther => KOther
  end.
(* misc.py:155-166 is_dtype_integer *)
Definition is_dtype_integer (d : dt) : result bool := rmap (fun n => match kind_of n with KInt | KUint => true | _ => false end) (to_numpy_dtype d).
(* misc.py:169-180 is_dtype_float *)
Definition is_dtype_float (d : dt) : result bool := rmap (fun n => match kind_of n with KFloat => true | _ => false end) (to_numpy_dtype d).
(* misc.py:183-194 is_dtype_bool *)
Definition is_dtype_bool (d : dt) : result bool := rmap (fun n => match kind_of n with KBool => true | _ => false end) (to_numpy_dtype d).
(* misc.py:195-206 is_dtype_real *)
Definition is_dtype_real (d : dt) : result bool :=
  bind (is_dtype_float d) (fun b => if b then Ok true else is_dtype_integer d).

(* objects; numpy scalars are instances of numbers.Integral and numbers.Real according to their kind *)
Inductive obj :=
| OInt | OFloat | OBool | OScalar (n : ndt)          (* Python numbers, numpy scalars *)
| OTensor (shape : list nat) (t : tdt)
| OArray (shape : list nat) (n : ndt)
| OObjects (l : list obj)                            (* a one-dimensional numpy array with dtype object *)
| OList (l : list obj)                               (* lists, tuples and other iterables *)
| OString (characters : nat) | OOther.
(* misc.py:258-275 is_bool *)
Definition is_bool (x : obj) : result bool :=
  match x with
  | OBool | OScalar NBool => Ok true
  | OTensor [] t => is_dtype_bool (DTorch t)
  | OArray [] n => is_dtype_bool (DNumpy n)
  | _ => Ok false
  end.
(* misc.py:210-231 is_integer *)
Definition is_integer (x : obj) : result bool :=
  bind (is_bool x) (fun b => if b then Ok false else
    match x with
    | OInt => Ok true
    | OScalar n => Ok (match kind_of n with KInt | KUint => true | _ => false end)
    | OTensor [] t => is_dtype_integer (DTorch t)
    | OArray [] n => is_dtype_integer (DNumpy n)
    | _ => Ok false
    end).
(* misc.py:234-255 is_real *)
Definition is_real (x : obj) : result bool :=
  bind (is_bool x) (fun b => if b then Ok false else
    match x with
    | OInt | OFloat => Ok true
    | OScalar n => Ok (match kind_of n with KInt | KUint | KFloat => true | _ => false end)
    | OTensor [] t => is_dtype_real (DTorch t)
    | OArray [] n => is_dtype_real (DNumpy n)
    | _ => Ok false
    end).
(* for item in x: if not f(item): return False *)
Fixpoint all_items (f : obj -> result bool) (l : list obj) : result bool :=
  match l with [] => Ok true | x :: r => bind (f x) (fun b => if b then all_items f r else Ok false) end.
(* misc.py:278-298, 301-321, 324-344 is_integer_vector, is_bool_vector, is_real_vector; the items of a string are strings *)
Definition is_vector (of_dtype : dt -> result bool) (of_item : obj -> result bool) (x : obj) : result bool :=
  match x with
  | OTensor [_] t => of_dtype (DTorch t)
  | OArray [_] n => of_dtype (DNumpy n)
  | OObjects _ => of_dtype (DNumpy NObject)
  | OList l => all_items of_item l
  | OString c => all_items of_item (repeat (OString 1) c)
  | _ => Ok false
  end.
Definition is_integer_vector := is_vector is_dtype_integer is_integer.
Definition is_bool_vector := is_vector is_dtype_bool is_bool.
Definition is_real_vector := is_vector is_dtype_real is_real.
(* misc.py:134-152 is_sequence *)
Definition is_sequence (x : obj) : bool :=
  match x with
  | OString _ => false
  | OTensor s _ | OArray s _ => match s with [] => false | _ => true end
  | OObjects _ | OList _ => true
  | _ => false
  end.

(* misc.py:1051-1079 numpy_copy: the dtype of the result; ObjectArray: `objects`.  The dtype of numpy.array(x) without dtype
   (inferred) and whether all values can be cast (castable) are oracles. *)
Inductive source := SObjects | STensor (t : tdt) | SArray (n : ndt) | SOther (inferred : ndt).
Definition numpy_copy (castable : ndt -> ndt -> bool) (x : source) (dtype : option dt) : result ndt :=
  let cast n := match dtype with
                | None => Ok n
                | Some d => bind (numpy_dtype d) (fun m => if castable n m then Ok m else Err ValueError)
                end in
  match x with
  | SObjects => cast NObject
  | STensor t => bind (tensor_numpy t) cast
  | SArray n => cast n
  | SOther inferred => cast inferred
  end.
End Numpy.

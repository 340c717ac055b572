(* Model of the functions which make tensors (tools/misc.py) and of the methods with the same names
   that problems, distributions and other owners of a dtype and a device have (tools/tensormaker.py):
   shape, dtype, device, contents and source of randomness of what they return. *)
From Verif Require Import Prelude.

(* dtypes of PyTorch *)
Inductive tdtype := F16 | F32 | F64 | U8 | I8 | I16 | I32 | I64 | Bo.
Definition is_float (d : tdtype) : bool := match d with F16 | F32 | F64 => true | _ => false end.
Definition is_int (d : tdtype) : bool := match d with F16 | F32 | F64 | Bo => false | _ => true end.
(* a dtype as an argument: of PyTorch, its name as a string (or a numpy dtype), object, or the name of no dtype *)
Inductive dt := Torch (d : tdtype) | Name (d : tdtype) | ObjectDt | NoSuch.
(* one element: a number, NaN, uninitialised memory, or the i-th number drawn from a generator (None: the global one) *)
Inductive cell := Num (z : Z) | NaNc | Junk (i : nat) | Rand (g : option nat) (i : nat).
Record tensor := mkT { t_shape : list nat; t_dtype : tdtype; t_dev : nat; t_cells : list cell }.
(* what make_empty can return: a tensor, an ObjectArray, or an exception object (which is not raised) *)
Inductive obj := TT (t : tensor) | OA (n : nat) | ExcObject.

(* positional size arguments *)
Inductive sarg := SInt (n : nat) | STup (l : list nat).
Definition numel (s : list nat) : nat := fold_right Nat.mul 1 s.

(* The shape meant by the positional arguments of torch.empty and Tensor.expand: integers, or one tuple. *)
Fixpoint ints (a : list sarg) : result (list nat) :=
  match a with
  | [] => Ok []
  | SInt n :: r => rmap (cons n) (ints r)
  | STup _ :: _ => Err TypeError
  end.
Definition shape_of (a : list sarg) : result (list nat) :=
  match a with [] => Err TypeError | [STup l] => Ok l | _ => ints a end.

(* misc.py:75-96 to_torch_dtype *)
Definition to_torch_dtype (d : dt) : result tdtype :=
  match d with Torch d => Ok d | Name d => Ok d | ObjectDt => Err TypeError | NoSuch => Err TypeError end.
(* misc.py:118-129 is_dtype_object *)
Definition is_dtype_object (d : option dt) : bool := match d with Some ObjectDt => true | _ => false end.

(* torch.empty with the default dtype float32 and the device cpu (0) *)
Definition torch_empty (s : list nat) (d : option tdtype) (dev : option nat) : tensor :=
  mkT s (match d with Some d => d | None => F32 end) (match dev with Some v => v | None => 0 end) (map Junk (seq 0 (numel s))).

(* ObjectArray(size), tools/objectarray.py:166-179 *)
Definition object_array (a : list sarg) : result obj :=
  match a with
  | [SInt n] => Ok (OA n)
  | [STup [n]] => Ok (OA n)
  | _ => Err ValueError
  end.

(* misc.py:1175-1227 make_empty *)
Definition make_empty (size : list sarg) (dtype : option dt) (device : option nat) : result obj :=
  if is_dtype_object dtype then
    match device with
    | None | Some 0 => object_array size
    | Some _ => Ok ExcObject
    end
  else
    bind (match dtype with None => Ok None | Some d => rmap Some (to_torch_dtype d) end) (fun d =>
    bind (shape_of size) (fun s => Ok (TT (torch_empty s d device)))).

Definition some {A} (x : option A) : bool := match x with Some _ => true | None => false end.

(* misc.py:1258-1273 _out_tensor *)
Definition out_tensor (size : list sarg) (out : option tensor) (dtype : option dt) (device : option nat) : result obj :=
  match out with
  | None => make_empty size dtype device
  | Some t => match size with
              | _ :: _ => Err ValueError
              | [] => if some dtype || some device then Err ValueError else Ok (TT t)
              end
  end.
(* misc.py:1276-1292 _out_tensor_for_random_operation: the dtype is passed to torch.empty as it is *)
Definition out_tensor_random (size : list sarg) (out : option tensor) (dtype : option dt) (device : option nat) : result tensor :=
  match out with
  | None =>
      bind (match dtype with None => Ok None | Some (Torch d) => Ok (Some d) | Some _ => Err TypeError end) (fun d =>
      bind (shape_of size) (fun s => Ok (torch_empty s d device)))
  | Some t => match size with
              | _ :: _ => Err ValueError
              | [] => if some dtype || some device then Err ValueError else Ok t
              end
  end.

(* misc.py:1295-1296 _scalar_requested *)
Definition scalar_requested (size : list sarg) : bool := match size with [STup []] => true | _ => false end.

Inductive kind := Zeros | Ones | Nans.
(* storing the value in an element of the given dtype: an integer dtype cannot hold NaN *)
Definition value_of (k : kind) (d : tdtype) : result cell :=
  match k with
  | Zeros => Ok (Num 0)
  | Ones => Ok (Num 1)
  | Nans => if is_float d then Ok NaNc else if is_int d then Err RuntimeError else Ok (Num 1)
  end.
(* out.zero_(), out[:] = 1, out[:] = nan: a tensor without dimensions has no slices *)
Definition fill (k : kind) (o : obj) : result tensor :=
  match o with
  | TT t =>
      match k, t_shape t with
      | Ones, [] | Nans, [] => Err IndexError
      | _, _ => rmap (fun c => mkT (t_shape t) (t_dtype t) (t_dev t) (repeat c (numel (t_shape t)))) (value_of k (t_dtype t))
      end
  | OA _ => match k with Zeros => Err AttributeError | _ => Err TypeError end
  | ExcObject => match k with Zeros => Err AttributeError | _ => Err TypeError end
  end.
(* misc.py:1299-1309 _scalar_tensor (the dtype object is outside of this model) *)
Definition scalar_tensor (k : kind) (out : option tensor) (dtype : option dt) (device : option nat) : result tensor :=
  if some out then Err ValueError
  else bind (make_empty [STup [1]] dtype device) (fun o =>
       match o with
       | TT t => rmap (fun c => mkT [] (t_dtype t) (t_dev t) [c]) (value_of k (t_dtype t))
       | _ => Err NotImplementedError
       end).
(* misc.py:1312-1453 make_zeros, make_ones, make_nan *)
Definition make_filled (k : kind) (size : list sarg) (out : option tensor) (dtype : option dt) (device : option nat) : result tensor :=
  if scalar_requested size then scalar_tensor k out dtype device
  else bind (out_tensor size out dtype device) (fill k).

(* Tensor.fill_diagonal_ after zero_ for matrices; more than two dimensions are outside of this model *)
Definition identity_cells (m n : nat) : list cell :=
  concat (map (fun i => map (fun j => Num (if Nat.eqb i j then 1 else 0)) (seq 0 n)) (seq 0 m)).
Definition fill_identity (o : obj) : result tensor :=
  match o with
  | TT t => match t_shape t with
            | [m; n] => Ok (mkT [m; n] (t_dtype t) (t_dev t) (identity_cells m n))
            | _ :: _ :: _ => Err NotImplementedError
            | _ => Err RuntimeError
            end
  | _ => Err AttributeError
  end.
(* misc.py:1456-1519 make_I; the size is absent, an integer or a tuple *)
Definition make_I (size : option sarg) (out : option tensor) (dtype : option dt) (device : option nat) : result tensor :=
  match size with
  | None => if some out then bind (out_tensor [] out dtype device) fill_identity else Err ValueError
  | Some (SInt n) | Some (STup [n]) => bind (out_tensor [SInt n; SInt n] out dtype device) fill_identity
  | Some (STup _) => Err ValueError
  end.

(* What can be passed as generator: a generator, an object with an attribute of that name (which may
   be None), or something else. *)
Inductive garg := Gen (g : nat) | Having (g : option nat) | Improper.
(* misc.py:1523-1539 _generator_of, _generator_kwargs *)
Definition generator_of (g : option garg) : result (option nat) :=
  match g with None => Ok None | Some (Gen g) => Ok (Some g) | Some (Having g) => Ok g | Some Improper => Err TypeError end.

Inductive rkind := Uniform | Gaussian | Randint.
(* Tensor.random_, uniform_, normal_; scaling and bounds are treated elsewhere.  normal_ is for floats. *)
Definition draw (k : rkind) (g : option nat) (t : tensor) : result tensor :=
  match k with
  | Gaussian => if is_float (t_dtype t) then Ok (mkT (t_shape t) (t_dtype t) (t_dev t) (map (Rand g) (seq 0 (numel (t_shape t)))))
                else Err RuntimeError
  | _ => Ok (mkT (t_shape t) (t_dtype t) (t_dev t) (map (Rand g) (seq 0 (numel (t_shape t)))))
  end.
(* misc.py:1599-1612, 1719-1725 and 1801-1814 make_uniform, make_gaussian, make_randint *)
Definition make_random (k : rkind) (size : list sarg) (out : option tensor) (dtype : option dt) (device : option nat) (g : option garg)
  : result tensor :=
  let scalar := scalar_requested size in
  let size := if scalar then [SInt 1] else size in
  let dtype := match k, dtype, out with Randint, None, None => Some (Torch I64) | _, _, _ => dtype end in
  bind (out_tensor_random size out dtype device) (fun t =>
  bind (generator_of g) (fun gen =>
  bind (draw k gen t) (fun r =>
  Ok (if scalar then mkT [] (t_dtype r) (t_dev r) (firstn 1 (t_cells r)) else r)))).

(* ---------------------------------------------------------------- tools/tensormaker.py *)
(* An owner: dtype, eval_dtype if it has one, device, solution_length if it has one (None for
   objects), and its generator if it has this attribute. *)
Record owner := mkO { o_dtype : dt; o_eval : option dt; o_dev : nat; o_len : option (option nat); o_gen : option (option nat) }.

(* tensormaker.py:27-65 __get_dtype_and_device_kwargs *)
Definition dtype_and_device (o : owner) (dtype : option dt) (device : option nat) (use_eval : bool) (out : option tensor)
  : result (option dt * option nat) :=
  match out with
  | Some _ => Ok (None, None)
  | None =>
      bind (match dtype with
            | None => if use_eval then match o_eval o with Some d => Ok d | None => Err AttributeError end else Ok (o_dtype o)
            | Some d => if use_eval then Err ValueError else Ok d
            end) (fun d => Ok (Some d, Some (match device with Some v => v | None => o_dev o end)))
  end.
(* tensormaker.py:67-94 __get_size_args *)
Definition size_args (o : owner) (size : list sarg) (num : option nat) (out : option tensor) : result (list sarg) :=
  match out with
  | Some _ => Ok []
  | None =>
      match size, num with
      | _, None => Ok size
      | [], Some n => match o_len o with
                      | Some (Some L) => Ok [SInt n; SInt L]
                      | Some None => Ok [SInt n]
                      | None => Err AttributeError
                      end
      | _ :: _, Some _ => Err ValueError
      end
  end.
(* tensormaker.py:96-103 __get_generator_kwargs *)
Definition generator_arg (o : owner) (g : option garg) : option garg :=
  match g with Some _ => g | None => match o_gen o with Some (Some x) => Some (Gen x) | _ => None end end.

(* The arguments of a method call. *)
Record call := mkC { c_size : list sarg; c_num : option nat; c_out : option tensor; c_dtype : option dt; c_dev : option nat; c_eval : bool }.

(* tensormaker.py:105-118 and 120-139 *)
Definition all_args (o : owner) (c : call) : result (list sarg * (option dt * option nat)) :=
  bind (size_args o (c_size c) (c_num c) (c_out c)) (fun s =>
  bind (dtype_and_device o (c_dtype c) (c_dev c) (c_eval c) (c_out c)) (fun k => Ok (s, k))).

(* tensormaker.py:186-243 make_empty: misc.make_empty has no argument named out *)
Definition m_empty (o : owner) (c : call) : result obj :=
  bind (all_args o c) (fun a => if some (c_out c) then Err TypeError else make_empty (fst a) (fst (snd a)) (snd (snd a))).
(* tensormaker.py:245-425 make_zeros, make_ones, make_nan *)
Definition m_filled (k : kind) (o : owner) (c : call) : result tensor :=
  bind (all_args o c) (fun a => make_filled k (fst a) (c_out c) (fst (snd a)) (snd (snd a))).
(* tensormaker.py:510-735 make_uniform, make_gaussian and 733-745 make_randint *)
Definition m_random (k : rkind) (o : owner) (c : call) (g : option garg) : result tensor :=
  let c := match k, c_dtype c, c_out c with
           | Randint, None, None => mkC (c_size c) (c_num c) (c_out c) (Some (Torch I64)) (c_dev c) (c_eval c)
           | _, _, _ => c
           end in
  bind (all_args o c) (fun a => make_random k (fst a) (c_out c) (fst (snd a)) (snd (snd a)) (generator_arg o g)).
(* tensormaker.py:427-508 make_I *)
Definition m_I (o : owner) (size : option sarg) (out : option tensor) (dtype : option dt) (device : option nat) (use_eval : bool) : result tensor :=
  bind (match size with
        | None => match out with
                  | None => match o_len o with
                            | Some (Some L) => Ok [SInt L]
                            | Some None => Err ValueError      (* misc.make_I(None) without out *)
                            | None => Err AttributeError
                            end
                  | Some _ => Ok []
                  end
        | Some (STup [n]) => Ok [SInt n]
        | Some (STup _) => Err ValueError
        | Some (SInt n) => Ok [SInt n]
        end) (fun s =>
  bind (all_args o (mkC s None out dtype device use_eval)) (fun a =>
  make_I (hd_error (fst a)) out (fst (snd a)) (snd (snd a)))).

(* ---------------------------------------------------------------- as_tensor *)
(* Something to be converted: a tensor, an ObjectArray, or data which is no tensor, with the dtype
   that PyTorch would infer from it. *)
Inductive source := FromTensor (t : tensor) | FromObjects (n : nat) | FromData (inferred : tdtype) (shape : list nat) (cells : list cell).
Section As.
(* the value of an element in another dtype *)
Variable cast : tdtype -> cell -> cell.
(* torch.as_tensor *)
Definition torch_as_tensor (x : source) (dtype : option tdtype) (device : option nat) : result tensor :=
  match x with
  | FromTensor t => let d := match dtype with Some d => d | None => t_dtype t end in
                    Ok (mkT (t_shape t) d (match device with Some v => v | None => t_dev t end) (map (cast d) (t_cells t)))
  | FromObjects _ => Err TypeError
  | FromData i s c => let d := match dtype with Some d => d | None => i end in
                      Ok (mkT s d (match device with Some v => v | None => 0 end) (map (cast d) c))
  end.
(* misc.py:1817-1876 as_tensor; to_torch_dtype(None) asks numpy, whose default is float64 *)
Definition as_tensor (x : source) (dtype : option dt) (device : option nat) : result obj :=
  let cpu := match device with None | Some 0 => true | _ => false end in
  match dtype, x with
  | None, FromTensor t => if cpu then Ok (TT t) else Err ValueError
  | None, FromObjects n => if cpu then Ok (OA n) else Err ValueError
  | Some ObjectDt, _ =>
      if negb cpu then Err ValueError
      else match x with
           | FromObjects n => Ok (OA n)
           | FromTensor t => match t_shape t with n :: _ => Ok (OA n) | [] => Err TypeError end
           | FromData _ s _ => match s with n :: _ => Ok (OA n) | [] => Err TypeError end
           end
  | _, _ =>
      bind (match dtype with None => Ok F64 | Some d => to_torch_dtype d end) (fun d =>
      rmap TT (torch_as_tensor x (Some d) device))
  end.
(* tensormaker.py:748-781 as_tensor *)
Definition m_as_tensor (o : owner) (x : source) (dtype : option dt) (device : option nat) (use_eval : bool) : result obj :=
  bind (dtype_and_device o dtype device use_eval None) (fun k => as_tensor x (fst k) (snd k)).
End As.

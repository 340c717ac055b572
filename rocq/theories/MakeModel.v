(* Model of tools/tensormaker.py: TensorMakerMixin (the make_* methods of Problem and Distribution), and of the functions of tools/misc.py which
   they call, as far as the arguments size, num_solutions, out, dtype, device, use_eval_dtype and generator are concerned.
   A tensor is described by its shape, dtype and device; which values it gets is the subject of RandModel. Device 0 is the cpu.
   A dtype is given as a torch.dtype, in another way (a name, a numpy dtype), or as object. *)
From Verif Require Import Prelude.

Inductive dt := DTorch (d : nat) | DName (d : nat) | DObject.
Inductive size_arg := SInt (n : nat) | STuple (l : list nat).
Record desc := Desc { d_shape : list nat; d_dtype : nat; d_device : nat }.
(* the object whose method is called; an attribute may be missing (outer None); solution_length and generator may be None *)
Record parent := Parent { p_dtype : dt; p_eval_dtype : option dt; p_device : nat; p_length : option (option nat); p_generator : option (option nat) }.
Record request := Req { sizes : list size_arg; num_solutions : option nat; out : option desc; dtype : option dt; device : option nat; use_eval_dtype : bool; generator : option nat }.
(* what is returned: a new tensor, the tensor given as out, a new ObjectArray, or an exception as a value; with the generator which was used
   (None: the global one) *)
Inductive made := New (d : desc) (g : option nat) | Filled (d : desc) (g : option nat) | Objects (n : nat) | Exception (e : exn).

(* tensormaker.py:28-65 *)
Definition dtype_and_device (p : parent) (r : request) : result (option dt * option nat) :=
  match out r with
  | Some _ => Ok (None, None)
  | None =>
    bind (match dtype r with
          | None => if use_eval_dtype r then match p_eval_dtype p with Some d => Ok d | None => Err AttributeError end else Ok (p_dtype p)
          | Some d => if use_eval_dtype r then Err ValueError else Ok d
          end)
         (fun d => Ok (Some d, Some (match device r with None => p_device p | Some v => v end)))
  end.
(* 67-95 *)
Definition size_args (p : parent) (r : request) : result (list size_arg) :=
  match out r with
  | Some _ => Ok []
  | None =>
    match sizes r, num_solutions r with
    | [], None => Ok []
    | s, None => Ok s
    | [], Some n => match p_length p with
                    | Some None => Ok [SInt n]
                    | Some (Some l) => Ok [SInt n; SInt l]
                    | None => Err AttributeError
                    end
    | _, Some _ => Err ValueError
    end
  end.
(* 97-104 *)
Definition generator_arg (p : parent) (r : request) : option nat :=
  match generator r with
  | None => match p_generator p with Some g => g | None => None end
  | Some g => Some g
  end.

(* ---- tools/misc.py ---- *)
(* the sizes given to torch.empty and to expand: numbers or a single tuple *)
Fixpoint ints (l : list size_arg) : result (list nat) :=
  match l with
  | [] => Ok []
  | SInt n :: t => rmap (cons n) (ints t)
  | STuple _ :: _ => Err TypeError
  end.
Definition torch_shape (l : list size_arg) : result (list nat) :=
  match l with
  | [] => Err TypeError
  | [STuple s] => Ok s
  | _ => ints l
  end.
(* 75-96 *)
Definition to_torch_dtype (d : dt) : result nat := match d with DTorch d | DName d => Ok d | DObject => Err TypeError end.
(* objectarray.py:168-176 *)
Definition object_length (l : list size_arg) : result nat :=
  match l with
  | [SInt n] | [STuple [n]] => Ok n
  | [STuple _] => Err ValueError
  | _ => match ints l with Ok [n] => Ok n | _ => Err ValueError end
  end.
Definition default_dtype : nat := 0.     (* torch's default, used when the dtype is None *)
(* 1209-1255 *)
Definition empty (l : list size_arg) (d : option dt) (dev : option nat) : result made :=
  match d with
  | Some DObject =>
    match dev with
    | None | Some 0 => rmap Objects (object_length l)
    | Some _ => Ok (Exception ValueError)                       (* 1246: returned, not raised *)
    end
  | _ => bind (torch_shape l) (fun s => bind (match d with None => Ok default_dtype | Some d => to_torch_dtype d end) (fun d =>
         Ok (New (Desc s d (match dev with None => 0 | Some v => v end)) None)))
  end.
(* 1258-1273 *)
Definition out_tensor (l : list size_arg) (o : option desc) (d : option dt) (dev : option nat) : result made :=
  match o with
  | None => empty l d dev
  | Some t => match l, d, dev with
              | [], None, None => Ok (Filled t None)
              | _, _, _ => Err ValueError
              end
  end.
(* 1295-1309 *)
Definition scalar_requested (l : list size_arg) : bool := match l with [STuple []] => true | _ => false end.
Definition scalar_tensor (o : option desc) (d : option dt) (dev : option nat) : result made :=
  match o with
  | Some _ => Err ValueError
  | None => match empty [STuple [1]] d dev with
            | Ok (New t g) => Ok (New (Desc [] (d_dtype t) (d_device t)) g)
            | Ok (Objects n) => Err TypeError                   (* the element, a number; not a tensor *)
            | Ok _ => Err TypeError
            | Err e => Err e
            end
  end.
Inductive fill := Zeros | Ones | Nan.
(* 1312-1453: zero_() or [:] = value on what was made *)
Definition filled (k : fill) (m : made) : result made :=
  match m with
  | New _ _ | Filled _ _ => Ok m
  | Objects _ | Exception _ => match k with Zeros => Err AttributeError | _ => Err TypeError end
  end.
Definition make_fill (k : fill) (l : list size_arg) (o : option desc) (d : option dt) (dev : option nat) : result made :=
  if scalar_requested l then scalar_tensor o d dev else bind (out_tensor l o d dev) (filled k).
(* 1456-1520 *)
Definition make_identity (l : list size_arg) (o : option desc) (d : option dt) (dev : option nat) : result made :=
  match l with
  | [] => match o with None => Err ValueError | Some _ => bind (out_tensor [] o d dev) (filled Zeros) end
  | [SInt n] | [STuple [n]] => bind (out_tensor [SInt n; SInt n] o d dev) (filled Zeros)
  | [STuple _] => Err ValueError
  | _ => Err TypeError                                          (* more than one positional argument *)
  end.
(* 1276-1292: torch.empty wants a torch.dtype *)
Definition out_tensor_random (l : list size_arg) (o : option desc) (d : option dt) (dev : option nat) : result made :=
  match o with
  | None =>
    match d with
    | Some (DName _) | Some DObject => Err TypeError
    | _ => bind (torch_shape l) (fun s => Ok (New (Desc s (match d with Some (DTorch d) => d | _ => default_dtype end) (match dev with None => 0 | Some v => v end)) None))
    end
  | Some t => match l, d, dev with
              | [], None, None => Ok (Filled t None)
              | _, _, _ => Err ValueError
              end
  end.
(* 1540-1814, as far as shape, dtype, device and generator are concerned *)
Definition make_random (l : list size_arg) (o : option desc) (d : option dt) (dev : option nat) (g : option nat) : result made :=
  let scalar := scalar_requested l in
  bind (out_tensor_random (if scalar then [SInt 1] else l) o d dev) (fun m =>
  match m with
  | New t _ => Ok (New (Desc (if scalar then tl (d_shape t) else d_shape t) (d_dtype t) (d_device t)) g)
  | Filled t _ => Ok (Filled t g)
  | _ => Err TypeError
  end).

(* ---- the methods ---- *)
(* tensormaker.py:106-121: arguments for a maker *)
Definition maker_args (p : parent) (r : request) : result (list size_arg * option dt * option nat) :=
  bind (size_args p r) (fun l => bind (dtype_and_device p r) (fun '(d, dev) => Ok (l, d, dev))).
(* make_empty (187-241): an out tensor is passed on to misc.make_empty, which has no such argument *)
Definition p_make_empty (p : parent) (r : request) : result made :=
  bind (maker_args p r) (fun '(l, d, dev) => match out r with Some _ => Err TypeError | None => empty l d dev end).
(* make_zeros, make_ones, make_nan (243-425) *)
Definition p_make_fill (k : fill) (p : parent) (r : request) : result made :=
  bind (maker_args p r) (fun '(l, d, dev) => make_fill k l (out r) d dev).
(* make_I (427-508); the request has at most one size and no num_solutions *)
Definition p_make_I (p : parent) (r : request) : result made :=
  bind (match sizes r with
        | [] => match out r with
                | None => match p_length p with Some (Some n) => Ok [SInt n] | Some None => Err ValueError | None => Err AttributeError end
                | Some _ => Ok []
                end
        | [STuple [n]] => Ok [SInt n]
        | [STuple _] => Err ValueError
        | l => Ok l
        end)
       (fun l => bind (maker_args p (Req l None (out r) (dtype r) (device r) (use_eval_dtype r) None)) (fun '(l, d, dev) => make_identity l (out r) d dev)).
(* make_uniform, make_gaussian (510-679) *)
Definition p_make_random (p : parent) (r : request) : result made :=
  bind (maker_args p r) (fun '(l, d, dev) => make_random l (out r) d dev (generator_arg p r)).
(* make_randint (681-751) *)
Definition int64 : nat := 1.
Definition p_make_randint (p : parent) (r : request) : result made :=
  let d := match dtype r, out r with None, None => Some (DTorch int64) | d, _ => d end in
  p_make_random p (Req (sizes r) (num_solutions r) (out r) d (device r) (use_eval_dtype r) (generator r)).

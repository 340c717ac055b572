(* Model of the configuration of a problem (core.py, Problem.__init__), of the generation of initial values, and of the start of the
   remote actors with their seeds.  The resources of the ray cluster and the draws of the generator are arguments.
   Bounds are rationals representable in the dtype of the problem; a device is a number, 0 being the cpu. *)
From Coq Require Import QArith Qround String.
From Verif Require Import Prelude RandModel.
Close Scope Q_scope.
Open Scope Z_scope.

Inductive dtype := Float16 | BFloat16 | Float32 | Float64 | Int8 | Int16 | Int32 | Int64 | UInt8 | Bool.
Inductive dtype_arg := DNone | DObject | DType (d : dtype).
(* a bound: scalar, vector, or of a higher dimension *)
Inductive bound := BScalar (q : Q) | BVector (v : list Q) | BHigher.
Inductive sense_arg := OneSense (s : string) | ManySenses (l : list string).
Inductive actors_arg := ANone | AStr (s : string) | AInt (z : Z).
Inductive gpus_arg := GNone | GStr (s : string) | GNum (q : Q).
Record arguments := Args {
  a_sense : sense_arg; a_func : option bool; (* an objective function; whether it is decorated by @vectorized *)
  a_initial : option (bound * bound); a_bounds : option (bound * bound); a_length : option nat;
  a_dtype : dtype_arg; a_eval_dtype : dtype_arg; a_device : nat; a_vectorized : option bool;
  a_actors : actors_arg; a_config_gpus : bool; (* "num_gpus" in actor_config *) a_gpus : gpus_arg;
  a_num_subbatches : option Z; a_subbatch_size : option Z }.
Record resources := Res { r_cpu : option Q; r_gpu : option Q }.
Inductive allotment := NoGpu | AllGpus | Share (q : Q).
Record config := Config {
  c_dtype : option dtype; (* None: object *) c_eval_dtype : dtype; c_device : nat; c_length : option nat;
  c_initial : option (bound * bound); c_bounds : option (bound * bound); c_senses : list string; c_vectorized : option bool;
  c_actors : Z; c_allotment : allotment; c_num_subbatches : option Z; c_subbatch_size : option Z }.

(* core.py:997-1002 *)
Definition choose_dtype (a : dtype_arg) : option dtype :=
  match a with DNone => Some Float32 | DObject => None | DType d => Some d end.
(* core.py:1007-1019; to_torch_dtype(object) raises TypeError (tools/misc.py:95-96) *)
Definition choose_eval_dtype (d : option dtype) (a : dtype_arg) : result dtype :=
  match a with
  | DType e => Ok e
  | DObject => Err TypeError
  | DNone => match d with Some Float16 => Ok Float16 | Some BFloat16 => Ok BFloat16 | Some Float64 => Ok Float64 | _ => Ok Float32 end
  end.
(* core.py:1117-1136 *)
Definition check_bound (len : nat) (b : bound) : result unit :=
  match b with
  | BHigher => Err ValueError
  | BVector v => if Nat.eqb (length v) len then Ok tt else Err ValueError
  | BScalar _ => Ok tt
  end.
(* core.py:1103-1139 *)
Definition process_bounds (len : nat) (b : bound * bound) : result (bound * bound) :=
  bind (check_bound len (fst b)) (fun _ => bind (check_bound len (snd b)) (fun _ => Ok b)).
(* core.py:1044-1153: solution length, initial bounds, bounds *)
Definition length_and_bounds (d : option dtype) (a : arguments) : result (option nat * option (bound * bound) * option (bound * bound)) :=
  match d with
  | None =>
      match a_bounds a, a_initial a with
      | None, None => match a_length a with
                      | Some _ => Err ValueError
                      | None => if Nat.eqb (a_device a) 0 then Ok (None, None, None) else Err ValueError
                      end
      | _, _ => Err ValueError
      end
  | Some _ =>
      match a_length a with
      | None => Err ValueError
      | Some len =>
          match (match a_initial a with Some i => Some i | None => a_bounds a end) with
          | None => Ok (Some len, None, None)
          | Some i =>
              bind (process_bounds len i) (fun i =>
              match a_bounds a with
              | None => Ok (Some len, Some i, None)
              | Some b => bind (process_bounds len b) (fun b => Ok (Some len, Some i, Some b))
              end)
          end
      end
  end.
(* core.py:1160-1165 *)
Definition validate_sense (s : string) : result unit :=
  if String.eqb s "min" || String.eqb s "max" then Ok tt else Err ValueError.
(* core.py:1167-1190 *)
Definition choose_senses (a : sense_arg) : result (list string) :=
  match a with
  | OneSense s => Ok [s]
  | ManySenses l => bind (sequence (map validate_sense l)) (fun _ => if Nat.eqb (length l) 0 then Err ValueError else Ok l)
  end.
(* core.py:1200-1251 *)
Definition choose_vectorized (func : option bool) (vectorized : option bool) : result (option bool) :=
  match func with
  | None => match vectorized with Some _ => Err ValueError | None => Ok None end
  | Some true => match vectorized with Some _ => Err ValueError | None => Ok (Some true) end
  | Some false => Ok (Some (match vectorized with Some v => v | None => false end))
  end.
(* core.py:1319-1437: the number of actors (None: the value None of Python) and the updated num_gpus_per_actor *)
Definition tiny : Q := 1 # 10000.
Definition qmin (a b : Q) : Q := if Qle_bool b a then (if Qle_bool a b then a else b) else a.
Definition qlt (a b : Q) : bool := negb (Qle_bool b a).
Definition ceil_of (q : option Q) : result Z := match q with Some q => Ok (Qceiling q) | None => Err TypeError end.
Definition choose_actors (a : arguments) (r : resources) : result (option Z * gpus_arg) :=
  match a_actors a with
  | ANone => Ok (Some 0, a_gpus a)
  | AInt z => Ok (Some z, a_gpus a)
  | AStr s =>
      if String.eqb s "max" || String.eqb s "num_cpus" then bind (ceil_of (r_cpu r)) (fun n => Ok (Some n, a_gpus a))
      else if String.eqb s "num_gpus" then
        match r_gpu r with
        | None => Err ValueError
        | Some g =>
            if qlt g tiny then Err ValueError else
            if a_config_gpus a then Err ValueError else
            match a_gpus a with
            | GNone => Ok (Some (Qceiling g), GNum (g / inject_Z (Qceiling g)))
            | _ => Err ValueError
            end
        end
      else if String.eqb s "num_devices" then
        if a_config_gpus a then Err ValueError else
        match a_gpus a with
        | GNone =>
            if negb (Nat.eqb (a_device a) 0) then Ok (None, GNone) else
            match r_gpu r with
            | None => bind (ceil_of (r_cpu r)) (fun n => Ok (Some n, GNone))
            | Some g =>
                if qlt g tiny then bind (ceil_of (r_cpu r)) (fun n => Ok (Some n, GNone)) else
                match r_cpu r with
                | None => Err TypeError
                | Some c =>
                    let n := Qceiling (qmin c g) in
                    if Qle_bool (inject_Z n) g then Ok (Some n, GNum 1) else Ok (Some n, GNum (g / inject_Z n))
                end
            end
        | _ => Err ValueError
        end
      else Err ValueError
  end.
(* core.py:1439-1457 *)
Definition drop_single (n : option Z) (g : gpus_arg) : option Z * gpus_arg :=
  match n with Some 1 => (Some 0, GNone) | _ => (n, g) end.
(* core.py:1465-1527 None >= 2 raises TypeError *)
Definition check_device (n : option Z) (device : nat) : result Z :=
  match n with
  | None => Err TypeError
  | Some n => if (n >=? 2) && negb (Nat.eqb device 0) then Err ValueError else Ok n
  end.
(* core.py:1532-1581 *)
Definition choose_allotment (n : Z) (g : gpus_arg) (config_gpus : bool) (r : resources) : result allotment :=
  match g with
  | GNone => Ok NoGpu
  | _ =>
    if config_gpus then Err ValueError else
    match g with
    | GNone => Ok NoGpu
    | GStr s =>
        if String.eqb s "max" then
          match r_gpu r with
          | None => Ok NoGpu
          | Some q => if n =? 0 then Err ZeroDivisionError else Ok (Share (q / inject_Z n))
          end
        else if String.eqb s "all" then Ok AllGpus
        else Err ValueError
    | GNum q => Ok (Share q)
    end
  end.
(* core.py:792-1609 *)
Definition construct (a : arguments) (r : resources) : result config :=
  let d := choose_dtype (a_dtype a) in
  bind (choose_eval_dtype d (a_eval_dtype a)) (fun e =>
  bind (length_and_bounds d a) (fun '(len, initial, bounds) =>
  bind (choose_senses (a_sense a)) (fun senses =>
  bind (choose_vectorized (a_func a) (a_vectorized a)) (fun vectorized =>
  bind (match a_num_subbatches a, a_subbatch_size a with Some _, Some _ => Err ValueError | _, _ => Ok tt end) (fun _ =>
  bind (choose_actors a r) (fun '(n, g) =>
  let '(n, g) := drop_single n g in
  bind (check_device n (a_device a)) (fun n =>
  bind (choose_allotment n g (a_config_gpus a) r) (fun allot =>
  Ok (Config d e (a_device a) len initial bounds senses vectorized n allot (a_num_subbatches a) (a_subbatch_size a)))))))))).

(* core.py:1758-1768 *)
Definition order_descending (c : config) : result (list bool) :=
  sequence (map (fun s => if String.eqb s "min" then Ok false else if String.eqb s "max" then Ok true else Err ValueError) (c_senses c)).
(* a bound, broadcast to a row *)
Definition broadcast (len : nat) (b : bound) : list Q :=
  match b with BScalar q => repeat q len | BVector v => v | BHigher => [] end.
(* core.py:1860-1867, 1885-1904 generate_values of a problem with a floating-point dtype; raw holds the standard draws, row by row *)
Definition generate_values (c : config) (raw : list (list Q)) : result (list (list Q)) :=
  match c_dtype c, c_length c with
  | Some _, Some len =>
      match c_initial c with
      | None => Err RuntimeError
      | Some (lb, ub) => sequence (map (fun row => make_uniform_float (Some (broadcast len lb)) (Some (broadcast len ub)) row) raw)
      end
  | _, _ => Err NotImplementedError
  end.

(* ------------------------------------------------------------------ actors and their seeds *)
(* core.py:2001-2013 *)
Definition supremum_seed : Z := 4294967296.
Definition generate_actor_seed (base i : Z) : Z := (base + (i + 1)) mod supremum_seed.
(* core.py:2015-2022 *)
Definition actor_seeds (base : Z) (n : nat) : list (list Z) :=
  map (fun i => map (fun k => generate_actor_seed base (Z.of_nat (4 * i + k))) (seq 0 4)) (seq 0 n).
(* the generators of a process: Python's, numpy's and torch's global one, and the one of the problem if it has its own *)
Record actor := Actor { g_py : Z; g_np : Z; g_torch : Z; g_problem : option Z }.
(* core.py:133-142; numpy refuses seeds outside of 32 bits; Problem has no method `seed` *)
Definition start_actor (own_generator : bool) (seeds : list Z) : result actor :=
  match seeds with
  | [py; np; torch; prob] =>
      if (np <? 0) || (np >=? 4294967296) then Err ValueError else
      if own_generator then Err AttributeError else
      Ok (Actor py np torch None)
  | _ => Err ValueError
  end.
(* core.py:1977-2047; draw is what Tensor.random_() gave; own_generator: the problem was given a seed *)
Definition parallelize (c : config) (own_generator : bool) (draw : Z) : result (list actor) :=
  if c_actors c <=? 0 then Ok [] else
  bind (make_randint supremum_seed [draw]) (fun l =>
  match l with
  | [base] => sequence (map (start_actor own_generator) (actor_seeds base (Z.to_nat (c_actors c))))
  | _ => Err RuntimeError
  end).

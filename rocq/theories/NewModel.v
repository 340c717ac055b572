(* Model of the ways in which SolutionBatch objects are made: from a problem, like another batch,
   by merging, by Problem.generate_batch, and on another device (core.py, tools/misc.py). *)
From Coq Require Import QArith.
From Verif Require Import Prelude FloatLib RandModel.
Close Scope Q_scope.
Open Scope nat_scope.

Section New.
Context {O : Type}.
Variable none_object : O.                (* None, the content of a new ObjectArray *)
Variable fresh : nat -> row.             (* uninitialised memory *)
Variable fresh_ev : nat -> list fl.

(* The decision values: a tensor with rows of length L, or an ObjectArray. *)
Inductive values := Num (L : nat) (rs : list row) | Objs (xs : list O).
Definition vlen (d : values) : nat := match d with Num _ rs => length rs | Objs xs => length xs end.

(* device 0 is the cpu *)
Record sbatch := mkS { s_vals : values; s_ev : list (list fl); s_width : nat; s_desc : list bool; s_nobj : nat; s_dev : nat }.

(* A problem: senses, eval_data_length, dtype (object or not), solution length, device, and what
   its generate_values returns. *)
Record problem := mkP { p_senses : list bool; p_ndata : nat; p_object : bool; p_len : nat; p_dev : nat;
                        p_generate : nat -> result values }.

Record args := mkA { a_problem : option problem; a_popsize : option nat; a_device : option nat;
                     a_slice : option (sbatch * list nat); a_like : option sbatch;
                     a_merging : option (list sbatch); a_empty : option bool }.

Definition some {A} (x : option A) : bool := match x with Some _ => true | None => false end.
Definition nan_rows (n w : nat) : list (list fl) := repeat (repeat NaN w) n.
(* rows of uninitialised memory *)
Definition fresh_rows (n L : nat) : list row := map (fun i => firstn L (fresh i ++ repeat 0%Q L)) (seq 0 n).
Definition fresh_evs (n w : nat) : list (list fl) := map (fun i => firstn w (fresh_ev i ++ repeat NaN w)) (seq 0 n).

(* tools/misc.py:911-1000 empty_tensor_like(source, length=..., device=...) for decision values on device dev *)
Definition empty_like (d : values) (dev : nat) (length_ : option nat) (device : option nat) : result (values * nat) :=
  let n := match length_ with Some n => n | None => vlen d end in
  match d with
  | Objs _ => match device with
              | Some (S _) => Err ValueError
              | _ => Ok (Objs (repeat none_object n), 0)
              end
  | Num L _ => Ok (Num L (fresh_rows n L), match device with Some x => x | None => dev end)
  end.

(* t[begin:end] = rows, for a tensor whose rows have length L: rows of length 1 are broadcast *)
Definition broadcast_row {A} (L : nat) (r : list A) : result (list A) :=
  if Nat.eqb (length r) L then Ok r
  else match r with [x] => Ok (repeat x L) | _ => Err RuntimeError end.

(* Sequential writing of the parts into a tensor with as many rows as all parts together.
   Empty parts of another width are accepted here; torch refuses them. *)
Definition write_parts {A} (L : nat) (parts : list (list (list A))) : result (list (list A)) :=
  rmap (@concat (list A)) (sequence (map (fun rs => sequence (map (broadcast_row L) rs)) parts)).

Definition rows_of_values (d : values) : result (list row) := match d with Num _ rs => Ok rs | Objs _ => Err TypeError end.
Definition objs_of_values (d : values) : result (list O) := match d with Objs xs => Ok xs | Num _ _ => Err TypeError end.

(* core.py:3699-3742 SolutionBatch(merging_of=...).  Mixtures of numeric batches and batches of
   objects are outside of this model (Err TypeError). *)
Definition merge (batches : list sbatch) : result sbatch :=
  match batches with
  | [] => Err IndexError
  | first :: _ =>
      bind (match s_vals first with
            | Num L _ => bind (sequence (map (fun b => rows_of_values (s_vals b)) batches)) (fun parts =>
                         rmap (Num L) (write_parts L parts))
            | Objs _ => rmap (fun parts => Objs (concat parts)) (sequence (map (fun b => objs_of_values (s_vals b)) batches))
            end) (fun d =>
      bind (write_parts (s_width first) (map s_ev batches)) (fun ev =>
      Ok (mkS d ev (s_width first) (s_desc first) (s_nobj first) (s_dev first))))
  end.

Definition pick {A} (l : list A) (idx : list nat) : result (list A) :=
  sequence (map (fun i => match nth_error l i with Some x => Ok x | None => Err IndexError end) idx).

(* core.py:3627-3770 SolutionBatch.__init__; the slices are lists of row numbers *)
Definition new_batch (a : args) : result sbatch :=
  match a_slice a with
  | Some (src, idx) =>
      if some (a_problem a) || some (a_popsize a) || some (a_device a) || some (a_merging a) || some (a_like a) || some (a_empty a)
      then Err ValueError
      else bind (match s_vals src with Num L rs => rmap (Num L) (pick rs idx) | Objs xs => rmap Objs (pick xs idx) end) (fun d =>
           bind (pick (s_ev src) idx) (fun ev =>
           Ok (mkS d ev (s_width src) (s_desc src) (s_nobj src) (s_dev src))))
  | None =>
  match a_like a with
  | Some like =>
      if some (a_merging a) then Err ValueError
      else bind (empty_like (s_vals like) (s_dev like) (a_popsize a) (a_device a)) (fun dv =>
           let ev := nan_rows (vlen (fst dv)) (s_width like) in
           (* core.py:3697-3698: the class has no method _fill_via_problem *)
           match a_empty a with
           | Some true => Ok (mkS (fst dv) ev (s_width like) (s_desc like) (s_nobj like) (snd dv))
           | _ => Err AttributeError
           end)
  | None =>
  match a_merging a with
  | Some bs =>
      if some (a_problem a) || some (a_popsize a) || some (a_device a) || some (a_empty a) then Err ValueError
      else merge bs
  | None =>
  match a_problem a with
  | Some p =>
      let device := match a_device a with Some d => d | None => p_dev p end in
      let nobj := length (p_senses p) in
      let finish n d := Ok (mkS d (nan_rows n (nobj + p_ndata p)) (nobj + p_ndata p) (p_senses p) nobj device) in
      if p_object p && negb (Nat.eqb device 0) then Err ValueError else
      match a_popsize a with
      | None => Err TypeError
      | Some n =>
          match a_empty a with
          | Some true => finish n (if p_object p then Objs (repeat none_object n) else Num (p_len p) (fresh_rows n (p_len p)))
          | _ => bind (p_generate p n) (finish n)
          end
      end
  | None => Err ValueError
  end end end end.

Definition no_args : args := mkA None None None None None None None.

(* core.py:1906-1970 Problem.generate_batch; make_gaussian fills all rows (numeric problems) *)
Definition generate_batch (p : problem) (popsize : option nat) (empty : bool) (center stdev : option row) (symmetric : bool)
    (noise : nat -> row) : result sbatch :=
  match center, stdev with
  | None, None =>
      if symmetric then Err ValueError
      else new_batch (mkA (Some p) popsize (Some (p_dev p)) None None None (Some empty))
  | Some c, Some s =>
      if empty then Err ValueError
      else bind (new_batch (mkA (Some p) popsize (Some (p_dev p)) None None None (Some true))) (fun b =>
           bind (make_gaussian symmetric center stdev (vlen (s_vals b)) noise) (fun rs =>
           Ok (mkS (Num (p_len p) rs) (s_ev b) (s_width b) (s_desc b) (s_nobj b) (s_dev b))))
  | _, _ => Err ValueError
  end.

(* core.py:4357-4375 SolutionBatch.concat *)
Definition concat_batches (b : sbatch) (others : list sbatch) : result sbatch :=
  new_batch (mkA None None None None None (Some (b :: others)) None).
(* core.py:4567-4585 SolutionBatch.cat; None stands for something which is not a SolutionBatch *)
Definition cat (bs : list (option sbatch)) : result sbatch :=
  bind (sequence (map (fun b => match b with Some b => Ok b | None => Err TypeError end) bs)) (fun l =>
  match l with
  | [] => Err AttributeError
  | first :: rest => concat_batches first rest
  end).
(* core.py:4438-4468 SolutionBatch.to *)
Definition to_device (b : sbatch) (device : nat) : result sbatch :=
  match s_vals b with
  | Objs _ => Err ValueError
  | Num L rs =>
      if Nat.eqb device (s_dev b) then Ok b
      else bind (new_batch (mkA None None (Some device) None (Some b) None (Some true))) (fun nb =>
           Ok (mkS (Num L rs) (s_ev b) (s_width nb) (s_desc nb) (s_nobj nb) (s_dev nb)))
  end.
End New.
Arguments values : clear implicits.
Arguments sbatch : clear implicits.
Arguments problem : clear implicits.
Arguments args : clear implicits.

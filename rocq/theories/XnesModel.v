(* Model of ExpGaussian (distributions.py:811-1014), the search distribution of XNES. *)
From Coq Require Import Reals String.
From Verif Require Import Prelude MatLib.
Open Scope R_scope.

Section Xnes.
Variable n : nat.                       (* solution length *)
Variable matrix_exp : mat -> mat.       (* torch.matrix_exp *)
Variable inverse : mat -> mat.          (* torch.inverse *)

(* parameters "mu", "sigma" (A) and "sigma_inv" (A_inv) *)
Record dist := { mu : vect; A : mat; A_inv : mat }.
(* distributions.py:832-838: a one-dimensional sigma becomes a diagonal matrix; sigma_inv is computed unless given *)
Definition diag (s : vect) : mat := fun i j => if Nat.eqb i j then s i else 0.
Definition make (m : vect) (sigma : mat) : dist := {| mu := m; A := sigma; A_inv := inverse sigma |}.
Definition make_diag (m s : vect) : dist := make m (diag s).
(* distributions.py:884-887 *)
Definition cov (D : dist) : mat := mmul n (mtr (A D)) (A D).
(* distributions.py:918-924 *)
Definition set_sigma (D : dist) (s : mat) : dist := {| mu := mu D; A := s; A_inv := A_inv D |}.
(* distributions.py:926-948, one row *)
Definition to_global (D : dist) (z : vect) : vect := vplus (mu D) (mv n (A D) z).
Definition to_local (D : dist) (x : vect) : vect := mv n (A_inv D) (vminus x (mu D)).

(* Dictionaries of learning rates; set replaces or appends *)
Definition rates := list (string * R).
Definition get (k : string) (d : rates) : option R := option_map snd (find (fun kv => String.eqb (fst kv) k) d).
Fixpoint set (k : string) (v : R) (d : rates) : rates :=
  match d with
  | [] => [(k, v)]
  | (k', v') :: t => if String.eqb k' k then (k, v) :: t else (k', v') :: set k v t
  end.
(* `if key not in learning_rates: learning_rates[key] = learning_rates[other]` (distributions.py:999-1002) *)
Definition default_rate (key other : string) (d : rates) : result rates :=
  match get key d with
  | Some _ => Ok d
  | None => match get other d with Some v => Ok (set key v d) | None => Err KeyError end
  end.
(* distributions.py:370-390 for a parameter whose learning rate is in the dictionary: an optimizer for the same
   parameter is an error.  `optimizers` is the set of parameter names that have one. *)
Definition follow {X} (scale : R -> X -> X) (ascent : X -> X) (name : string) (x : X) (d : rates) (optimizers : list string)
  : result X :=
  match get name d, existsb (String.eqb name) optimizers with
  | None, false => Ok x
  | Some lr, false => Ok (scale lr x)
  | None, true => Ok (ascent x)
  | Some _, true => Err ValueError
  end.
(* distributions.py:989-1014.  The learning rate dictionary of the caller is modified, so it is returned too.
   learning_rates = None fails: `"d" not in None`. *)
Definition update (ascent_v : vect -> vect) (ascent_m : mat -> mat) (D : dist) (d : vect) (M : mat)
  (learning_rates : option rates) (optimizers : list string) : result (dist * rates) :=
  match learning_rates with
  | None => Err TypeError
  | Some lr =>
      bind (default_rate "d" "mu" lr) (fun lr =>
      bind (default_rate "M" "sigma" lr) (fun lr =>
      bind (follow (fun k x i => k * x i) ascent_v "d" d lr optimizers) (fun ud =>
      bind (follow mscale ascent_m "M" M lr optimizers) (fun uM =>
      Ok ({| mu := vplus (mu D) (mv n (A D) ud);
             A := mmul n (A D) (matrix_exp (mscale 0.5 uM));
             A_inv := mmul n (matrix_exp (mscale (-0.5) uM)) (A_inv D) |}, lr)))))
  end.
(* distributed/gaussian.py:386-402: the dictionaries XNES passes *)
Definition algorithm_rates (optimizer : bool) (center_lr stdev_lr : R) : rates :=
  set "sigma" stdev_lr (if optimizer then [] else [("mu"%string, center_lr)]).
Definition algorithm_optimizers (optimizer : bool) : list string := if optimizer then ["mu"%string] else [].
Definition algorithm_update ascent_v ascent_m (D : dist) (d : vect) (M : mat) (optimizer : bool) (center_lr stdev_lr : R) :=
  rmap fst (update ascent_v ascent_m D d M (Some (algorithm_rates optimizer center_lr stdev_lr)) (algorithm_optimizers optimizer)).

(* distributions.py:971-982, weights already centered; rows are samples *)
Definition d_grad (D : dist) (w : list R) (xs : list vect) : vect :=
  fun i => fold_right Rplus 0 (map2 (fun a x => a * to_local D x i) w xs).
Definition M_grad (D : dist) (w : list R) (xs : list vect) : mat :=
  fun i j => fold_right Rplus 0 (map2 (fun a x => a * (to_local D x i * to_local D x j - mid i j)) w xs).

(* the dictionary of parameters which the caller passes; sigma as a vector or as a matrix *)
Record params := { p_mu : vect; p_sigma : vect + mat; p_inv : option mat }.
(* distributions.py:822-865 (__init__, without the comparisons of the lengths): "sigma" and "sigma_inv" are written into the dictionary of
   the caller, which is returned too *)
Definition exp_init (p : params) : params * dist :=
  let s := match p_sigma p with inl v => diag v | inr m => m end in
  let i := match p_inv p with Some i => i | None => inverse s end in
  ({| p_mu := p_mu p; p_sigma := inr s; p_inv := Some i |}, {| mu := p_mu p; A := s; A_inv := i |}).
(* parameters["sigma"] = s, done by the caller *)
Definition put_sigma (p : params) (s : vect + mat) : params := {| p_mu := p_mu p; p_sigma := s; p_inv := p_inv p |}.
End Xnes.

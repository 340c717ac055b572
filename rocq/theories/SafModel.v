(* Model of whole runs of SNES, PGPE and CEM in the main process (algorithms/distributed/gaussian.py:274-419 with SeparableGaussian,
   SymmetricSeparableGaussian and ExpSeparableGaussian of distributions.py:481-808).  Exact arithmetic; a run ends where a number would not be finite.
   The draws from the standard normal distribution are inputs; the fitness function is deterministic; turning fitnesses into weights (tools/ranking.py)
   and the choice of the elites (CemModel) are functions; no thresholds on numbers of interactions.  Vectors are functions of the coordinates below n. *)
From Coq Require Import Reals String.
From Verif Require Import Prelude MatLib RankModel CemModel DistModel ClipUpModel FuncModel.
Open Scope R_scope.

(* which distribution: SeparableGaussian with its two options, the symmetric one, the exponential one (SNES), and the one of CEM *)
Inductive kind := Plain (o : options) | Mirrored (o : options) | Exponential | Elites.
Record limits := Limits { l_min : option vect; l_max : option vect; l_change : option vect }.

Section SAF.
Variable n : nat.
Variable ranking : string.
Variable weigh : list R -> list R.
Variable elite : list R -> list nat.
Variable Opt : Type.
(* distributions.py:370-390 _follow_gradient for mu: the next state of the optimizer and the step; None: not finite *)
Variable follow : Opt -> vect -> option (Opt * vect).

Record state := State { s_mu : vect; s_sigma : vect; s_opt : Opt; s_pop : list vect; s_fits : list R }.
Definition coord (pop : list vect) (j : nat) : list R := map (fun x => x j) pop.
(* all of the n numbers, if they are finite *)
Definition finite (v : nat -> option R) : option vect :=
  if forallb (fun j => match v j with Some _ => true | None => false end) (seq 0 n)
  then Some (fun j => match v j with Some x => x | None => 0 end) else None.
Definition finite_result (r : result (option R)) : option R := match r with Ok x => x | Err _ => None end.
Definition nonzero (s : R) (x : option R) : option R := if Req_EM_T s 0 then None else x.
Definition chosen (st : state) : list vect := map (fun i => nth i (s_pop st) (fun _ => 0)) (elite (s_fits st)).
(* distributions.py:536-577, 706-771, 781-797: one coordinate of the two gradients *)
Definition mu_grad (K : kind) (st : state) (j : nat) : option R :=
  let xs := coord (s_pop st) j in
  let w := centered_weights ranking (weigh (s_fits st)) in
  match K with
  | Plain o => finite_result (divide_grad (divide_mu o) (plain_mu w xs (s_mu st j)) w)
  | Mirrored o => finite_result (divide_grad (divide_mu o) (symmetric_mu w xs (s_mu st j)) w)
  | Exponential => option_map (fun w => exp_mu w xs (s_mu st j)) (exp_weights ranking (weigh (s_fits st)))
  | Elites => option_map (fun m => m - s_mu st j) (cmean (coord (chosen st) j))
  end.
Definition sigma_grad (K : kind) (st : state) (j : nat) : option R :=
  let xs := coord (s_pop st) j in
  let w := centered_weights ranking (weigh (s_fits st)) in
  match K with
  | Plain o => nonzero (s_sigma st j) (finite_result (divide_grad (divide_sigma o) (plain_sigma w xs (s_mu st j) (s_sigma st j)) w))
  | Mirrored o => nonzero (s_sigma st j) (finite_result (divide_grad (divide_sigma o) (symmetric_sigma w xs (s_mu st j) (s_sigma st j)) w))
  | Exponential => nonzero (s_sigma st j) (option_map (fun w => exp_sigma w xs (s_mu st j) (s_sigma st j)) (exp_weights ranking (weigh (s_fits st))))
  | Elites => option_map (fun m => m - s_sigma st j) (cstd (coord (chosen st) j))
  end.
(* distributions.py:579-594, 799-808 *)
Definition new_sigma (K : kind) (s followed : R) : R := match K with Exponential => exp_new_sigma s followed | _ => plain_new_sigma s followed end.
(* tools/misc.py:711-816 modify_tensor, one coordinate *)
Definition limit_one (lo hi change : option R) (old target : R) : R :=
  let lo' := match change with None => lo | Some c => let a := old - Rabs old * c in Some (match lo with None => a | Some l => Rmax l a end) end in
  let hi' := match change with None => hi | Some c => let a := old + Rabs old * c in Some (match hi with None => a | Some h => Rmin h a end) end in
  let t := match lo' with None => target | Some l => Rmax target l end in
  match hi' with None => t | Some h => Rmin t h end.
Definition at_coord (o : option vect) (j : nat) : option R := option_map (fun v => v j) o.
(* distributions.py:433-478, 651-665: with mirrored samples each draw gives two solutions *)
Definition draw (K : kind) (mu sigma : vect) (zs : list vect) : list vect :=
  match K with
  | Mirrored _ => flat_map (fun z => [(fun j => mu j + sigma j * z j); (fun j => mu j - sigma j * z j)]) zs
  | _ => map (fun z j => mu j + sigma j * z j) zs
  end.
Section RUN.
Variable K : kind.
Variable stdev_lr : R.
Variable L : limits.
Variable fitness : vect -> R.
(* gaussian.py:276-294 *)
Definition fill (mu sigma : vect) (o : Opt) (zs : list vect) : state :=
  let pop := draw K mu sigma zs in State mu sigma o pop (map fitness pop).
(* gaussian.py:350-367, 369-419 *)
Definition step (st : state) (zs : list vect) : option state :=
  match finite (mu_grad K st), finite (sigma_grad K st) with
  | Some gm, Some gs =>
      match follow (s_opt st) gm with
      | None => None
      | Some (o, d) =>
          let mu := fun j => s_mu st j + d j in
          let sigma := fun j => limit_one (at_coord (l_min L) j) (at_coord (l_max L) j) (at_coord (l_change L) j) (s_sigma st j) (new_sigma K (s_sigma st j) (stdev_lr * gs j)) in
          Some (fill mu sigma o zs)
      end
  | _, _ => None
  end.
(* the states after each generation, as long as all numbers are finite *)
Fixpoint steps (st : state) (draws : list (list vect)) : list state :=
  st :: match draws with [] => [] | zs :: r => match step st zs with None => [] | Some st1 => steps st1 r end end.
Definition search (mu sigma : vect) (o : Opt) (zs : list vect) (draws : list (list vect)) : list state := steps (fill mu sigma o zs) draws.
End RUN.
End SAF.

(* distributions.py:382-385: no optimizer, a learning rate *)
Definition follow_rate (lr : R) (g : vect) : option (R * vect) := Some (lr, fun j => lr * g j).
(* optimizers.py:319-357 ClipUp.ascent (ClipUpModel) *)
Definition follow_clipup (n : nat) (c : clipup) (g : vect) : option (clipup * vect) :=
  match ascent c (map g (seq 0 n)) with
  | Ok (c1, Some v) => Some (c1, fun j => nth j v 0)
  | _ => None
  end.
(* optimizers.py:58-90 TorchOptimizer.ascent, with Adam or SGD (FuncModel) *)
Definition follow_torch (n : nat) (w : wrapped) (g : vect) : option (wrapped * vect) :=
  match torch_ascent w (map (fun j => Some (g j)) (seq 0 n)) with
  | Ok (w1, d) => option_map (fun v => (w1, v)) (finite n (fun j => nth j d None))
  | Err _ => None
  end.

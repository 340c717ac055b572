(* Model of CMAES (algorithms/cmaes.py) in real arithmetic.  Vectors and matrices are functions of the
   indices below the solution length d (MatLib). *)
From Coq Require Import Reals.
From Verif Require Import Prelude MatLib RankModel.
Open Scope R_scope.

(* ------------------------------------------------------------------------------- weights *)
(* cmaes.py:278-279, i counted from 0 *)
Definition raw_weight (popsize i : nat) : R := ln ((INR popsize + 1) / 2) - ln (INR i + 1).
(* cmaes.py:235 *)
Definition mu_of (popsize : nat) : nat := (popsize / 2)%nat.
(* cmaes.py:231 *)
Definition default_popsize (d : nat) : nat := (4 + Z.to_nat (Int_part (3 * ln (INR d))))%nat.
(* cmaes.py:280-282 *)
Definition raw_positive (popsize : nat) : list R := map (raw_weight popsize) (seq 0 (mu_of popsize)).
Definition raw_negative (popsize : nat) : list R := map (raw_weight popsize) (seq (mu_of popsize) (popsize - mu_of popsize)).
(* cmaes.py:286 and 352 *)
Definition selection_mass (ws : list R) : R := (rsum ws) ^ 2 / rsum (map (fun w => w ^ 2) ws).
Definition mu_eff (popsize : nat) : R := selection_mass (raw_positive popsize).

(* ------------------------------------------------------------------------------- learning rates *)
(* cmaes.py:298-301 *)
Definition default_c_sigma (d : nat) (m : R) : R := (m + 2) / (INR d + m + 3).
(* cmaes.py:304-306 *)
Definition default_damp (d : nat) (m c_sigma : R) : R := 1 + 2 * Rmax 0 (sqrt ((m - 1) / (INR d + 1)) - 1) + c_sigma.
(* cmaes.py:309-314 *)
Definition default_c_c (separable : bool) (d : nat) (m : R) : R :=
  if separable then (1 + 1 / INR d + m / INR d) / (sqrt (INR d) + 1 / INR d + 2 * (m / INR d))
  else (4 + m / INR d) / (INR d + (4 + 2 * m / INR d)).
(* cmaes.py:318-323 *)
Definition default_c_1 (separable : bool) (d popsize : nat) (m : R) : R :=
  if separable then 1 / (INR d + 2 * sqrt (INR d) + m / INR d)
  else Rmin 1 (INR popsize / 6) * 2 / ((INR d + 1.3) ^ 2 + m).
(* cmaes.py:327-334 *)
Definition default_c_mu (separable : bool) (d : nat) (m c_1 : R) : R :=
  if separable then (0.25 + m + 1 / m - 2) / (INR d + 4 * sqrt (INR d) + m / 2)
  else Rmin (1 - c_1) (2 * ((0.25 + m - 2 + 1 / m) / ((INR d + 2) ^ 2 + m))).
(* `explicit if explicit is not None else default`, times the ratio *)
Definition rate (explicit : option R) (ratio default : R) : R := ratio * match explicit with Some c => c | None => default end.

Record params := mkPar { p_d : nat; p_popsize : nat; p_c_m : R; p_c_sigma : R; p_damp : R; p_c_c : R; p_c_1 : R; p_c_mu : R;
  p_active : bool; p_squared : bool; p_separable : bool; p_min : option R; p_max : option R; p_freq : nat }.

(* cmaes.py:348-364 *)
Definition alpha (d popsize : nat) (c_1 c_mu : R) : R :=
  Rmin (Rmin (1 + c_1 / c_mu) (1 + 2 * selection_mass (raw_negative popsize) / (mu_eff popsize + 2))) ((1 - c_mu - c_1) / (INR d * c_mu)).
(* cmaes.py:346, 361 *)
Definition positive_weights (popsize : nat) : list R := map (fun w => w / rsum (raw_positive popsize)) (raw_positive popsize).
Definition negative_weights (P : params) : list R :=
  if p_active P then map (fun w => alpha (p_d P) (p_popsize P) (p_c_1 P) (p_c_mu P) * w / rsum (map Rabs (raw_negative (p_popsize P)))) (raw_negative (p_popsize P))
  else map (fun _ => 0) (raw_negative (p_popsize P)).
(* cmaes.py:366-367 *)
Definition weights (P : params) : list R := positive_weights (p_popsize P) ++ negative_weights P.

(* cmaes.py:83-87 with a = 1 and a positive tolerance *)
Definition tolerance : R := / 10 ^ 8.
Definition safe_divide_1 (b : R) : R := 1 / (if Rlt_dec (Rabs b) tolerance then (if Rlt_dec b 0 then - tolerance else tolerance) else b).
(* cmaes.py:382-385 *)
Definition decompose_freq (limit : bool) (d : nat) (c_1 c_mu : R) : nat :=
  if limit then Nat.max 1 (Z.to_nat (Int_part (safe_divide_1 (10 * INR d * (c_1 + c_mu))))) else 1.

(* constructor arguments; a rate given by the user is a Python number, a default one is a tensor *)
Record options := mkOpt { o_c_m : R; o_c_sigma : option R; o_c_sigma_ratio : R; o_damp : option R; o_damp_ratio : R; o_c_c : option R; o_c_c_ratio : R;
  o_c_1 : option R; o_c_1_ratio : R; o_c_mu : option R; o_c_mu_ratio : R; o_active : bool; o_squared : bool; o_min : option R; o_max : option R;
  o_separable : bool; o_limit : bool }.
(* cmaes.py:112-137: the defaults *)
Definition default_options (active separable limit : bool) : options :=
  mkOpt 1 None 1 None 1 None 1 None 1 None 1 active false None None separable limit.
(* is c_1 (c_mu) a Python number?  min(1 - c_1, ...) gives the first one when it is the smaller one *)
Definition c_1_plain (o : options) : bool := match o_c_1 o with Some _ => true | None => false end.
Definition c_mu_plain (o : options) (d popsize : nat) (c_1 : R) : bool :=
  match o_c_mu o with
  | Some _ => true
  | None => if o_separable o then false
            else (c_1_plain o && (if Rlt_dec (2 * ((0.25 + mu_eff popsize - 2 + 1 / mu_eff popsize) / ((INR d + 2) ^ 2 + mu_eff popsize))) (1 - c_1) then false else true))%bool
  end.
(* cmaes.py:226-388 CMAES.__init__: `.cpu()` exists for tensors only (line 383) *)
Definition cma_init (d popsize : nat) (o : options) : result params :=
  let m := mu_eff popsize in
  let c_sigma := rate (o_c_sigma o) (o_c_sigma_ratio o) (default_c_sigma d m) in
  let damp := rate (o_damp o) (o_damp_ratio o) (default_damp d m c_sigma) in
  let c_c := rate (o_c_c o) (o_c_c_ratio o) (default_c_c (o_separable o) d m) in
  let c_1 := rate (o_c_1 o) (o_c_1_ratio o) (default_c_1 (o_separable o) d popsize m) in
  let c_mu := rate (o_c_mu o) (o_c_mu_ratio o) (default_c_mu (o_separable o) d m c_1) in
  if (o_limit o && (c_1_plain o || c_mu_plain o d popsize c_1))%bool then Err AttributeError
  else Ok (mkPar d popsize (o_c_m o) c_sigma damp c_c c_1 c_mu (o_active o) (o_squared o) (o_separable o) (o_min o) (o_max o)
                 (decompose_freq (o_limit o) d c_1 c_mu)).

(* ------------------------------------------------------------------------------- one generation *)
Section Cma.
Variable P : params.
Notation d := (p_d P).
Variable cholesky : mat -> mat.                       (* torch.linalg.cholesky *)
Variable topk : nat -> list R -> list nat.            (* indices of torch.topk *)

(* a separable C or A is the diagonal of a matrix *)
Record state := mkCma { s_m : vect; s_sigma : R; s_C : mat; s_A : mat; s_p_sigma : vect; s_p_c : vect; s_steps : nat }.
Definition diagonal (c : vect) : mat := fun i j => if Nat.eqb i j then c i else 0.
(* cmaes.py:253-273, 372-373 *)
Definition init_state (center : vect) (stdev : R) : state := mkCma center stdev mid mid (fun _ => 0) (fun _ => 0) 0.

Definition norm2 (x : vect) : R := sumn d (fun i => x i * x i).
Definition vsum (vs : list vect) : vect := fun i => rsum (map (fun v => v i) vs).
Definition vscale (k : R) (v : vect) : vect := fun i => k * v i.
Definition pick {A} (dflt : A) (l : list A) (idx : list nat) : list A := map (fun i => nth i l dflt) idx.
Definition vzero : vect := fun _ => 0.

(* cmaes.py:408-430 sample_distribution, for the Gaussian rows zs *)
Definition ys_of (s : state) (zs : list vect) : list vect := map (mv d (s_A s)) zs.
Definition xs_of (s : state) (zs : list vect) : list vect := map (fun y => vplus (s_m s) (vscale (s_sigma s) y)) (ys_of s zs).
(* cmaes.py:444-452 get_population_weights; indices: the argsort of the evaluated population *)
Definition assigned (indices : list nat) : list R :=
  let ranks := scatter 0%nat indices (seq 0 (length indices)) in
  map (fun r => nth r (weights P) 0) ranks.
(* cmaes.py:454-481 update_m *)
Definition displacement (vs : list vect) (ws : list R) : vect :=
  let idx := topk (mu_of (p_popsize P)) ws in
  vsum (map2 vscale (pick 0 ws idx) (pick vzero vs idx)).
(* cmaes.py:31-46 _h_sig *)
Definition h_sig (p_sigma : vect) (steps : nat) : R :=
  let squared_sum := norm2 p_sigma / (1 - (1 - p_c_sigma P) ^ (2 * steps + 1)) in
  if Rlt_dec (squared_sum / INR d - 1) (1 + 4 / (INR d + 1)) then 1 else 0.
(* cmaes.py:337-340 *)
Definition discount (c : R) : R := sqrt (c * (2 - c) * mu_eff (p_popsize P)).
(* cmaes.py:483-507 *)
Definition new_p_sigma (p local : vect) : vect := vplus (vscale (1 - p_c_sigma P) p) (vscale (discount (p_c_sigma P)) local).
Definition unbiased_expectation : R := sqrt (INR d) * (1 - 1 / (4 * INR d) + 1 / (21 * INR d ^ 2)).
Definition new_sigma (sigma : R) (p_sigma : vect) : R :=
  let u := if p_squared P then (norm2 p_sigma / INR d - 1) / 2 else sqrt (norm2 p_sigma) / unbiased_expectation - 1 in
  sigma * exp (p_c_sigma P / p_damp P * u).
(* cmaes.py:509-517 *)
Definition new_p_c (p shaped : vect) (h : R) : vect := vplus (vscale (1 - p_c_c P) p) (vscale (h * discount (p_c_c P)) shaped).
(* cmaes.py:529-533 *)
Definition reweighted (ws : list R) (zs : list vect) : list R :=
  if p_active P then map2 (fun w z => if Rlt_dec 0 w then w else INR d * w / norm2 z) ws zs else ws.
(* cmaes.py:534-535 *)
Definition c1a (h : R) : R := p_c_1 P * (1 - (1 - h ^ 2) * p_c_c P * (2 - p_c_c P)).
Definition weighted_pc (h : R) : R := sqrt (p_c_1 P / (c1a h + / 10 ^ 23)).
Definition msum (ms : list mat) : mat := fun i j => rsum (map (fun A => A i j) ms).
(* cmaes.py:519-553 update_C *)
Definition update_C (C : mat) (p_c : vect) (zs ys : list vect) (ws : list R) (h : R) : mat :=
  let aw := reweighted ws zs in
  if p_separable P then
    diagonal (fun j =>
      let c := C j j in
      let r1 := c1a h * (p_c j ^ 2 - c) in
      let rmu := p_c_mu P * rsum (map2 (fun w y => w * (y j ^ 2 - c)) aw ys) in
      c + r1 + rmu)
  else
    let wp := vscale (weighted_pc h) p_c in
    let r1 := mscale (c1a h) (madd (outer wp wp) (mscale (-1) C)) in
    let rmu := mscale (p_c_mu P) (madd (msum (map2 (fun w y => mscale w (outer y y)) aw ys)) (mscale (- rsum (weights P)) C)) in
    madd C (madd r1 rmu).
(* cmaes.py:49-80 _limit_stdev: torch.clamp gives the upper limit when the limits are contradictory *)
Definition clamp (lo hi : option R) (x : R) : R :=
  let x1 := match lo with Some l => Rmax x l | None => x end in
  match hi with Some h => Rmin x1 h | None => x1 end.
Definition limit_stdev (sigma : R) (C : mat) : mat :=
  let new i := (clamp (p_min P) (p_max P) (sigma * sqrt (C i i)) / sigma) ^ 2 in
  if p_separable P then diagonal new else fun i j => if Nat.eqb i j then new i else C i j.
Definition limit_C (sigma : R) (C : mat) : mat :=
  match p_min P, p_max P with None, None => C | _, _ => limit_stdev sigma C end.
(* cmaes.py:555-565 *)
Definition decompose (C : mat) : mat := if p_separable P then diagonal (fun i => sqrt (C i i)) else cholesky C.
(* cmaes.py:567-606 _step *)
Definition cma_step (s : state) (zs : list vect) (indices : list nat) : state :=
  let ys := ys_of s zs in
  let ws := assigned indices in
  let local := displacement zs ws in
  let shaped := displacement ys ws in
  let m' := vplus (s_m s) (vscale (p_c_m P * s_sigma s) shaped) in
  let ps := new_p_sigma (s_p_sigma s) local in
  let sigma' := new_sigma (s_sigma s) ps in
  let h := h_sig ps (s_steps s) in
  let pc := new_p_c (s_p_c s) shaped h in
  let C' := limit_C sigma' (update_C (s_C s) pc zs ys ws h) in
  let A' := if Nat.eqb ((s_steps s + 1) mod p_freq P) 0 then decompose C' else s_A s in
  mkCma m' sigma' C' A' ps pc (S (s_steps s)).
(* a history: the Gaussian rows and the sorted indices of every generation *)
Fixpoint cma_run (s : state) (hist : list (list vect * list nat)) : state :=
  match hist with [] => s | (zs, idx) :: t => cma_run (cma_step s zs idx) t end.
End Cma.

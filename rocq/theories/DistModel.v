(* Model of the gradient computations of /repo/src/evotorch/distributions.py.  Real arithmetic; a number is
   `option R`, None standing for a non-finite value (division by zero).  Samples are rows. *)
From Coq Require Import Reals String.
From Verif Require Import Prelude RankModel CemModel.
Open Scope R_scope.

Definition num := option R.
Definition rdivo (a b : R) : num := if Req_EM_T b 0 then None else Some (a / b).

(* distributions.py:560-561, 720-721, 975-976 *)
Definition is_centering (ranking : string) : bool := String.eqb ranking "centered" || String.eqb ranking "normalized".
Definition centered_weights (ranking : string) (w : list R) : list R :=
  if is_centering ranking then w else map (fun x => x - rmean w) w.

(* total(dot(w, c)) for one coordinate: multiply_rows_by_scalars followed by rowwise_sum *)
Definition wsum (w c : list R) : R := rsum (map2 Rmult w c).

(* distributions.py:515-534; opt is parameters.get("divide_..._grad_by"), one coordinate of the gradient *)
Definition divide_grad (opt : option string) (g : R) (w : list R) : result num :=
  match opt with
  | None => Ok (Some g)
  | Some o =>
      if String.eqb o "num_solutions" then Ok (rdivo g (INR (length w)))
      else if String.eqb o "num_directions" then Ok (rdivo g (INR (length w / 2)))
      else if String.eqb o "total_weight" then Ok (rdivo g (rsum (map Rabs w)))
      else if String.eqb o "weight_stdev" then Ok (match cstd w with Some s => rdivo g s | None => None end)
      else Err ValueError
  end.

(* distributions.py:556, 563-572 for coordinate values xs *)
Definition plain_mu (w xs : list R) (mu : R) : R := wsum w (map (fun x => x - mu) xs).
Definition plain_sigma (w xs : list R) (mu sigma : R) : R :=
  wsum w (map (fun x => ((x - mu) * (x - mu) - sigma * sigma) / sigma) xs).
(* t[0::2], t[1::2] *)
Fixpoint evens {A} (l : list A) : list A := match l with [] => [] | [x] => [x] | x :: _ :: t => x :: evens t end.
Fixpoint odds {A} (l : list A) : list A := match l with [] => [] | [_] => [] | _ :: y :: t => y :: odds t end.
(* distributions.py:729-766 for coordinate values xs *)
Definition symmetric_mu (w xs : list R) (mu : R) : R :=
  wsum (map2 (fun p m => (p - m) / 2) (evens w) (odds w)) (map (fun x => x - mu) (evens xs)).
Definition symmetric_sigma (w xs : list R) (mu sigma : R) : R :=
  wsum (map2 (fun p m => (p + m) / 2) (evens w) (odds w))
       (map (fun x => ((x - mu) * (x - mu) - sigma * sigma) / sigma) (evens xs)).

Record options := { divide_mu : option string; divide_sigma : option string }.
Definition grads := (list num * list num)%type.
(* Apply the one-coordinate computations to every coordinate and divide *)
Definition gradients_of (mu_grad : list R -> list R -> R -> R) (sigma_grad : list R -> list R -> R -> R -> R)
  (o : options) (ranking : string) (mu sigma : list R) (samples : list (list R)) (weights : list R) : result grads :=
  let w := centered_weights ranking weights in
  let dims := seq 0 (length mu) in
  bind (sequence (map (fun j => divide_grad (divide_mu o) (mu_grad w (column samples j) (nth j mu 0)) w) dims)) (fun gm =>
  bind (sequence (map (fun j => divide_grad (divide_sigma o)
          (sigma_grad w (column samples j) (nth j mu 0) (nth j sigma 0)) w) dims)) (fun gs =>
  Ok (gm, gs))).
(* SeparableGaussian._compute_gradients, distributions.py:546-577 (without parenthood_ratio, see CemModel) *)
Definition plain_gradients := gradients_of plain_mu plain_sigma.
(* SymmetricSeparableGaussian._compute_gradients, distributions.py:706-771 *)
Definition symmetric_gradients := gradients_of symmetric_mu symmetric_sigma.

(* ExpSeparableGaussian, distributions.py:781-808, one coordinate; a vanishing weight total makes NaN *)
Definition exp_weights (ranking : string) (w : list R) : option (list R) :=
  if String.eqb ranking "nes" then Some w
  else if Req_EM_T (rsum (map Rabs w)) 0 then None else Some (map (fun x => x / rsum (map Rabs w)) w).
Definition exp_mu (w xs : list R) (mu : R) : R := wsum w (map (fun x => x - mu) xs).
Definition exp_sigma (w xs : list R) (mu sigma : R) : R :=
  wsum w (map (fun x => ((x - mu) / sigma) * ((x - mu) / sigma) - 1) xs).
Definition exp_gradients (ranking : string) (mu sigma : list R) (samples : list (list R)) (weights : list R) : grads :=
  let dims := seq 0 (length mu) in
  (map (fun j => option_map (fun w => exp_mu w (column samples j) (nth j mu 0)) (exp_weights ranking weights)) dims,
   map (fun j => option_map (fun w => exp_sigma w (column samples j) (nth j mu 0) (nth j sigma 0)) (exp_weights ranking weights)) dims).
(* new sigma from a followed gradient *)
Definition exp_new_sigma (sigma : R) (followed : R) : R := sigma * exp (0.5 * followed).
Definition plain_new_sigma (sigma : R) (followed : R) : R := sigma + followed.

(* relative_entropy, distributions.py:596-611 *)
Definition relative_entropy (mu0 sigma0 mu1 sigma1 : list R) : R :=
  let cov0 := map (fun s => s * s) sigma0 in
  let cov1 := map (fun s => s * s) sigma1 in
  let mu_delta := map2 Rminus mu1 mu0 in
  let trace_cov := rsum (map2 Rdiv cov0 cov1) in
  let k := INR (length mu0) in
  let scaled_mu := rsum (map2 (fun d c => d * d / c) mu_delta cov1) in
  let log_det := rsum (map ln cov1) - rsum (map ln cov0) in
  0.5 * (trace_cov - k + scaled_mu + log_det).

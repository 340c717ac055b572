(* Model of the controlled updates of standard deviations (tools/misc.py:711-908 and their users). *)
From Coq Require Import QArith Qabs.
From Verif Require Import Prelude ExtQ.
Close Scope Q_scope.
Open Scope nat_scope.

(* A limit is given as a scalar or as a vector. *)
Inductive limit := Scalar (x : xq) | Vec (l : list xq).

(* misc.py:762-774 convert_to_tensor, followed by the implicit broadcasting of scalars *)
Definition convert_to_tensor (n : nat) (x : limit) : result (list xq) :=
  match x with
  | Scalar v => Ok (repeat v n)
  | Vec l => if Nat.eqb (length l) n then Ok l else Err IndexError
  end.
(* misc.py:711-816 modify_tensor on vectors; the target is taken to have the shape of the original (all callers
   pass such a target).  Returns the content of `original` after the call and the result. *)
Definition modify_tensor (original target : list xq) (lb ub max_change : option limit) (in_place : bool)
  : result (list xq * list xq) :=
  match lb, ub, max_change with
  | None, None, None => Ok (if in_place then target else original, target)
  | _, _, _ =>
    let n := length original in
    bind (convert_to_tensor n (match lb with None => Scalar XNI | Some l => l end)) (fun lb =>
    bind (convert_to_tensor n (match ub with None => Scalar XPI | Some u => u end)) (fun ub =>
    bind (match max_change with
          | None => Ok (lb, ub)
          | Some mc =>
            bind (convert_to_tensor n mc) (fun mc =>
            let allowed_amounts := map2 xmul (map xabs original) mc in
            let allowed_lb := map2 xsub original allowed_amounts in
            let allowed_ub := map2 xadd original allowed_amounts in
            Ok (map2 xmax lb allowed_lb, map2 xmin ub allowed_ub))
          end) (fun bounds =>
    let result := map2 xmin (map2 xmax target (fst bounds)) (snd bounds) in
    Ok (if in_place then result else original, result))))
  end.

(* misc.py:828-839, 854-862: scalars are expanded, vectors must have the right length *)
Definition expand_limit (n : nat) (x : limit) : result (list xq) :=
  match x with
  | Scalar v => Ok (repeat v n)
  | Vec l => if Nat.eqb (length l) n then Ok l else Err ValueError
  end.
(* misc.py:844-865 *)
Definition modify_vector_using_max_change (original target : list xq) (mc : limit) : result (list xq) :=
  if negb (Nat.eqb (length target) (length original)) then Err ValueError else
  bind (expand_limit (length target) mc) (fun mc =>
  let max_diff := map2 xmul (map xabs original) mc in
  Ok (map2 xmin (map2 xmax target (map2 xsub original max_diff)) (map2 xadd original max_diff))).
(* misc.py:819-841 *)
Definition modify_vector_using_bounds (target : list xq) (lb ub : limit) : result (list xq) :=
  bind (expand_limit (length target) lb) (fun lb =>
  bind (expand_limit (length target) ub) (fun ub =>
  Ok (map2 xmin (map2 xmax target lb) ub))).
(* misc.py:868-908 modify_vector, without batch dimensions (these are vmapped over by expects_ndim) *)
Definition modify_vector (original target : list xq) (lb ub max_change : option limit) : result (list xq) :=
  bind (match max_change with None => Ok target | Some mc => modify_vector_using_max_change original target mc end) (fun r =>
  match lb, ub with
  | None, None => Ok r
  | Some l, Some u => modify_vector_using_bounds r l u
  | _, _ => Err ValueError
  end).

(* ---- gaussian.py:369-419 _update_distribution, the part about sigma.  `follow` is the sigma part of the
   distribution's update_parameters (distributions.py:579-594, 785-808): new sigma from old sigma and gradients. *)
Record gauss := mkGauss { g_min : option limit; g_max : option limit; g_change : option limit }.
Definition controlled (g : gauss) : bool :=
  match g_min g, g_max g, g_change g with None, None, None => false | _, _, _ => true end.
Definition update_sigma {G} (follow : list xq -> G -> list xq) (g : gauss) (sigma : list xq) (grad : G) : result (list xq) :=
  let updated := follow sigma grad in
  if controlled g then rmap snd (modify_tensor sigma updated (g_min g) (g_max g) (g_change g) false)
  else Ok updated.
Fixpoint update_history {G} (follow : list xq -> G -> list xq) (g : gauss) (sigma : list xq) (grads : list G) : result (list xq) :=
  match grads with
  | [] => Ok sigma
  | x :: rest => bind (update_sigma follow g sigma x) (fun sigma' => update_history follow g sigma' rest)
  end.

(* ---- funccem.py:141-164, funcpgpe.py:239-276: limits of the functional algorithms *)
Definition as_vector_like_center (n : nat) (x : limit) : result (list xq) :=
  match x with Scalar v => Ok (repeat v n) | Vec l => if Nat.eqb (length l) n then Ok l else Err ValueError end.
Record fstate := mkF { f_stdev : list xq; f_min : list xq; f_max : list xq; f_change : list xq }.
(* the stdev part of cem(...) and pgpe(...); both replace None by 0, inf and inf (an explicit None in the case of
   pgpe, whose default for stdev_max_change is 0.2) *)
Definition finit (n : nat) (stdev_init : list xq) (stdev_min stdev_max stdev_max_change : option limit) : result fstate :=
  bind (as_vector_like_center n (match stdev_min with None => Scalar (XF 0) | Some l => l end)) (fun mn =>
  bind (as_vector_like_center n (match stdev_max with None => Scalar XPI | Some l => l end)) (fun mx =>
  bind (as_vector_like_center n (match stdev_max_change with None => Scalar XPI | Some l => l end)) (fun mc =>
  Ok (mkF stdev_init mn mx mc)))).
(* funccem.py:223-230, funcpgpe.py:368-371: the stdev part of a tell; `follow` gives the target *)
Definition ftell {G} (follow : list xq -> G -> list xq) (s : fstate) (x : G) : result fstate :=
  bind (modify_vector (f_stdev s) (follow (f_stdev s) x) (Some (Vec (f_min s))) (Some (Vec (f_max s))) (Some (Vec (f_change s))))
    (fun stdev => Ok (mkF stdev (f_min s) (f_max s) (f_change s))).
Fixpoint ftells {G} (follow : list xq -> G -> list xq) (s : fstate) (xs : list G) : result fstate :=
  match xs with [] => Ok s | x :: rest => bind (ftell follow s x) (fun s' => ftells follow s' rest) end.

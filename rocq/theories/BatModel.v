(* Model of batched functional searches: the ask/evaluate/tell loops of algorithms/functional/funccem.py:190-290 and funcpgpe.py:300-395 with the
   optimizers funcadam.py:104-172, funcclipup.py:94-152 and funcsgd.py:78-136, as the sequences of calls of decorated functions which they are.
   Everything such a loop computes it computes by calling functions decorated with expects_ndim (NdimModel) on fields of the state and on earlier
   results; ask and tell only fetch and store. Simplifications: a function which returns several tensors is called once for each of them; what a
   sampling function draws (randomness="different": independently for each item) is an argument; the fitness function is decorated with
   expects_ndim(2). The functions themselves are parameters here: what they compute is modelled elsewhere (FuncModel, DistModel, CemModel). *)
From Verif Require Import Prelude NdimModel.

Section BAT.
Variables A Sc Obj : Type.
Variable cast : nat -> Sc -> A.
Variable is_bool : Sc -> bool.
Variable bool_dtype : nat.
Notation arg := (arg A Sc Obj).
Notation func := (func A Sc Obj).

(* a call of a decorated function: where its arguments are kept, the declared numbers of dimensions, allow_smaller_ndim, the function *)
Record call := Call { c_args : list nat; c_expected : list (option nat); c_smaller : bool; c_func : func }.
Definition fetch (env : list arg) (ps : list nat) : result (list arg) :=
  sequence (map (fun p => match nth_error env p with Some a => Ok a | None => Err KeyError end) ps).
Definition perform (env : list arg) (c : call) : result (list arg) :=
  bind (fetch env (c_args c)) (fun args =>
  bind (expects_ndim cast is_bool bool_dtype (c_expected c) (c_smaller c) (c_func c) args) (fun r => Ok (env ++ [ATensor r]))).
Fixpoint perform_all (env : list arg) (cs : list call) : result (list arg) :=
  match cs with [] => Ok env | c :: r => bind (perform env c) (fun env1 => perform_all env1 r) end.
(* an algorithm: the calls of one generation, and where the fields of the next state are found afterwards *)
Record algorithm := Alg { a_calls : list call; a_next : list nat }.
Definition generation (al : algorithm) (state input : list arg) : result (list arg) :=
  bind (perform_all (state ++ input) (a_calls al)) (fun env => fetch env (a_next al)).
(* the state after the given generations *)
Fixpoint search (al : algorithm) (state : list arg) (inputs : list (list arg)) : result (list arg) :=
  match inputs with [] => Ok state | i :: r => bind (generation al state i) (fun s => search al s r) end.

(* funccem.py:190-290. State: 0 stdev_min, 1 stdev_max, 2 stdev_max_change, 3 parenthood_ratio, 4 maximize, 5 center, 6 stdev.
   Input: 7 popsize, 8 what is drawn. *)
Definition cem (sample fitness tell_center tell_stdev : func) : algorithm :=
  let tell_args := [0; 1; 2; 3; 4; 5; 6; 9; 10] in
  let tell_ndims := [Some 1; Some 1; Some 1; None; None; Some 1; Some 1; Some 2; Some 1] in
  Alg [ Call [5; 6; 3; 7; 8] [Some 1; Some 1; None; None; Some 2] false sample;       (* 9: values, 190-192 *)
        Call [9] [Some 2] false fitness;                                              (* 10: evals *)
        Call tell_args tell_ndims false tell_center;                                  (* 11: center, 195-231 *)
        Call tell_args tell_ndims false tell_stdev ]                                  (* 12: stdev *)
      [0; 1; 2; 3; 4; 11; 12].

(* funcpgpe.py:300-395. State: 0 objective sense, 1 ranking_method, 2 stdev, 3 stdev_learning_rate, 4 stdev_min, 5 stdev_max, 6 stdev_max_change,
   7 center, then the rest of the state of the optimizer. The input, popsize and what is drawn, comes behind the state, at place n. *)
Definition pgpe_front (n : nat) (sample fitness mu_grad sigma_grad follow change bounds : func) : list call :=
  let grad_args := [0; 1; n + 2; n + 3; 7; 2] in
  let grad_ndims := [None; None; Some 2; Some 1; Some 1; Some 1] in
  [ Call [n; 7; 2; n + 1] [None; Some 1; Some 1; Some 2] false sample;                (* n+2: values, 300-316; distributions.py:1032-1050 *)
    Call [n + 2] [Some 2] false fitness;                                              (* n+3: evals *)
    Call grad_args grad_ndims false mu_grad;                                          (* n+4, 360-367; distributions.py:1230-1262 *)
    Call grad_args grad_ndims false sigma_grad;                                       (* n+5 *)
    Call [2; 3; n + 5] [Some 1; Some 0; Some 1] false follow;                         (* n+6: target_stdev, 319-325, 371 *)
    Call [2; n + 6; 6] [Some 1; Some 1; Some 1] true change;                          (* n+7, tools/misc.py:891-896 *)
    Call [n + 7; 4; 5] [Some 1; Some 1; Some 1] true bounds ].                        (* n+8: new_stdev, tools/misc.py:898-901 *)
(* funcsgd.py:78-136: 8 velocity, 9 center_learning_rate, 10 momentum *)
Definition pgpe_sgd (sample fitness mu_grad sigma_grad follow change bounds step_velocity step_center : func) : algorithm :=
  let n := 11 in
  let step_args := [n + 4; 7; 8; 9; 10] in
  let step_ndims := [Some 1; Some 1; Some 1; Some 0; Some 0] in
  Alg (pgpe_front n sample fitness mu_grad sigma_grad follow change bounds ++
       [Call step_args step_ndims false step_velocity; Call step_args step_ndims false step_center])
      [0; 1; n + 8; 3; 4; 5; 6; n + 10; n + 9; 9; 10].
(* funcclipup.py:94-152: 8 velocity, 9 center_learning_rate, 10 momentum, 11 max_speed *)
Definition pgpe_clipup (sample fitness mu_grad sigma_grad follow change bounds step_velocity step_center : func) : algorithm :=
  let n := 12 in
  let step_args := [n + 4; 7; 8; 9; 10; 11] in
  let step_ndims := [Some 1; Some 1; Some 1; Some 0; Some 0; Some 0] in
  Alg (pgpe_front n sample fitness mu_grad sigma_grad follow change bounds ++
       [Call step_args step_ndims false step_velocity; Call step_args step_ndims false step_center])
      [0; 1; n + 8; 3; 4; 5; 6; n + 10; n + 9; 9; 10; 11].
(* funcadam.py:104-172: 8 center_learning_rate, 9 beta1, 10 beta2, 11 epsilon, 12 m, 13 v, 14 t *)
Definition pgpe_adam (sample fitness mu_grad sigma_grad follow change bounds step_center step_m step_v step_t : func) : algorithm :=
  let n := 15 in
  let step_args := [n + 4; 7; 8; 9; 10; 11; 12; 13; 14] in
  let step_ndims := [Some 1; Some 1; Some 0; Some 0; Some 0; Some 0; Some 1; Some 1; Some 0] in
  Alg (pgpe_front n sample fitness mu_grad sigma_grad follow change bounds ++
       map (Call step_args step_ndims false) [step_center; step_m; step_v; step_t])
      [0; 1; n + 8; 3; 4; 5; 6; n + 9; 8; 9; 10; 11; n + 10; n + 11; n + 12].
End BAT.
Arguments Call {A Sc Obj}. Arguments Alg {A Sc Obj}. Arguments c_args {A Sc Obj}. Arguments c_expected {A Sc Obj}. Arguments c_smaller {A Sc Obj}. Arguments c_func {A Sc Obj}.
Arguments a_calls {A Sc Obj}. Arguments a_next {A Sc Obj}. Arguments fetch {A Sc Obj}. Arguments perform {A Sc Obj}. Arguments perform_all {A Sc Obj}.
Arguments generation {A Sc Obj}. Arguments search {A Sc Obj}. Arguments cem {A Sc Obj}. Arguments pgpe_front {A Sc Obj}. Arguments pgpe_sgd {A Sc Obj}.
Arguments pgpe_clipup {A Sc Obj}. Arguments pgpe_adam {A Sc Obj}.

(* Model of the gradient-following optimizers Adam and SGD: the classes of optimizers.py (wrappers of torch.optim) and
   their functional counterparts (algorithms/functional/funcadam.py, funcsgd.py), of the choice of an optimizer by its
   name, and of the initial standard deviation of the search algorithms (tools/misc.py, algorithms/functional/misc.py).
   Real arithmetic instead of floating point; a component is None when it is not a finite number.  Batch dimensions of
   the functional API are vmapped over by expects_ndim (NdimModel.v) and not repeated here. *)
From Coq Require Import Reals String.
From Verif Require Import Prelude ClipUpModel.
Open Scope R_scope.

(* ---------------------------------------------------------------- numbers *)
Notation num := (option R).
Definition nlift (f : R -> R -> R) (a b : num) : num := match a, b with Some x, Some y => Some (f x y) | _, _ => None end.
Definition nadd := nlift Rplus.
Definition nsub := nlift Rminus.
Definition nmul := nlift Rmult.
Definition nmax := nlift Rmax.
(* a division by zero gives an infinity or NaN *)
Definition ndiv (a b : num) : num :=
  match a, b with Some x, Some y => if Req_EM_T y 0 then None else Some (x / y) | _, _ => None end.
Definition nsqrt (a : num) : num := match a with Some x => if Rlt_dec x 0 then None else Some (sqrt x) | None => None end.

(* ---------------------------------------------------------------- torch.optim (library) *)
(* torch.optim.Adam without weight decay: hyperparameters, number of steps, and per component the running averages of
   the gradient, of its square, and (amsgrad) the maximum of the latter *)
Record cell := mkCell { c_m : num; c_v : num; c_max : num }.
Record tadam := mkTAdam { ta_lr : R; ta_beta1 : R; ta_beta2 : R; ta_eps : R; ta_amsgrad : bool; ta_t : nat; ta_cells : list cell }.
(* torch/optim/adam.py, _single_tensor_adam; `t` counts this step too; returns the new value of the parameter *)
Definition tadam_cell (a : tadam) (t : nat) (c : cell) (g param : num) : cell * num :=
  let m := nadd (c_m c) (nmul (Some (1 - ta_beta1 a)) (nsub g (c_m c))) in
  let v := nadd (nmul (Some (ta_beta2 a)) (c_v c)) (nmul (Some (1 - ta_beta2 a)) (nmul g g)) in
  let mx := nmax (c_max c) v in
  let bias1 := Some (1 - ta_beta1 a ^ t) in
  let bias2 := Some (1 - ta_beta2 a ^ t) in
  let denom := nadd (ndiv (nsqrt (if ta_amsgrad a then mx else v)) (nsqrt bias2)) (Some (ta_eps a)) in
  (mkCell m v (if ta_amsgrad a then mx else c_max c), nsub param (nmul (ndiv (Some (ta_lr a)) bias1) (ndiv m denom))).
Definition tadam_step (a : tadam) (g params : list num) : tadam * list num :=
  let t := S (ta_t a) in
  let r := map3 (tadam_cell a t) (ta_cells a) g params in
  (mkTAdam (ta_lr a) (ta_beta1 a) (ta_beta2 a) (ta_eps a) (ta_amsgrad a) t (map fst r), map snd r).
(* torch.optim.Adam(...): validation and fresh state.  Defaults: lr 1e-3, betas (0.9, 0.999), eps 1e-8 *)
Definition in_unit (b : R) : bool := if Rlt_dec b 0 then false else if Rlt_dec b 1 then true else false.
Definition tadam_init (n : nat) (lr : option R) (betas : option (R * R)) (eps : option R) (amsgrad : option bool) : result tadam :=
  let lr := match lr with None => 1 / 1000 | Some x => x end in
  let betas := match betas with None => (9 / 10, 999 / 1000) | Some x => x end in
  let eps := match eps with None => 1 / 100000000 | Some x => x end in
  if Rlt_dec lr 0 then Err ValueError else
  if Rlt_dec eps 0 then Err ValueError else
  if negb (in_unit (fst betas)) then Err ValueError else
  if negb (in_unit (snd betas)) then Err ValueError else
  Ok (mkTAdam lr (fst betas) (snd betas) eps (match amsgrad with None => false | Some x => x end) 0
        (repeat (mkCell (Some 0) (Some 0) (Some 0)) n)).
(* torch.optim.SGD without weight decay: the momentum buffer exists after the first step *)
Record tsgd := mkTSgd { ts_lr : R; ts_momentum : R; ts_dampening : R; ts_nesterov : bool; ts_n : nat; ts_buf : option (list num) }.
(* torch/optim/sgd.py, _single_tensor_sgd *)
Definition tsgd_step (s : tsgd) (g params : list num) : tsgd * list num :=
  let move d := map2 (fun p d => nsub p (nmul (Some (ts_lr s)) d)) params d in
  if Req_EM_T (ts_momentum s) 0 then (s, move g) else
  let buf := match ts_buf s with
             | None => g
             | Some b => map2 (fun b g => nadd (nmul (Some (ts_momentum s)) b) (nmul (Some (1 - ts_dampening s)) g)) b g
             end in
  let d := if ts_nesterov s then map2 (fun g b => nadd g (nmul (Some (ts_momentum s)) b)) g buf else buf in
  (mkTSgd (ts_lr s) (ts_momentum s) (ts_dampening s) (ts_nesterov s) (ts_n s) (Some buf), move d).
Definition tsgd_init (n : nat) (lr : R) (momentum dampening : option R) (nesterov : option bool) : result tsgd :=
  let momentum := match momentum with None => 0 | Some x => x end in
  let dampening := match dampening with None => 0 | Some x => x end in
  let nesterov := match nesterov with None => false | Some x => x end in
  if Rlt_dec lr 0 then Err ValueError else
  if Rlt_dec momentum 0 then Err ValueError else
  if nesterov && ((if Rlt_dec 0 momentum then false else true) || (if Req_EM_T dampening 0 then false else true)) then Err ValueError else
  Ok (mkTSgd lr momentum dampening nesterov n None).

(* ---------------------------------------------------------------- optimizers.py *)
Inductive wrapped := WAdam (a : tadam) | WSgd (s : tsgd).
Definition wrapped_length (w : wrapped) : nat := match w with WAdam a => length (ta_cells a) | WSgd s => ts_n s end.
Definition wrapped_step (w : wrapped) (g params : list num) : wrapped * list num :=
  match w with
  | WAdam a => let r := tadam_step a g params in (WAdam (fst r), snd r)
  | WSgd s => let r := tsgd_step s g params in (WSgd (fst r), snd r)
  end.
(* optimizers.py:58-90 TorchOptimizer.ascent for gradients given as vectors (a wrong length is rejected by
   ensure_tensor_length_and_dtype, misc.py:663-670) *)
Definition torch_ascent (w : wrapped) (globalg : list num) : result (wrapped * list num) :=
  let n := wrapped_length w in
  if negb (Nat.eqb (length globalg) n) then Err ValueError else
  let data := repeat (Some 0) n in
  let r := wrapped_step w globalg data in
  Ok (fst r, map (fun x => nmul (Some (-1)) x) (snd r)).
(* optimizers.py:110-160 Adam.__init__ *)
Definition adam_class (n : nat) (stepsize beta1 beta2 epsilon : option R) (amsgrad : option bool) : result wrapped :=
  bind (match beta1, beta2 with
        | None, None => Ok None
        | Some b1, Some b2 => Ok (Some (b1, b2))
        | _, _ => Err ValueError
        end) (fun betas =>
  rmap WAdam (tadam_init n stepsize betas epsilon amsgrad)).
(* optimizers.py:180-230 SGD.__init__; `dampening` is declared as a bool and passed to torch as float(dampening) *)
Definition sgd_class (n : nat) (stepsize : R) (momentum dampening : option R) (nesterov : option bool) : result wrapped :=
  rmap WSgd (tsgd_init n stepsize momentum dampening nesterov).

(* ---------------------------------------------------------------- functional API *)
(* funcadam.py:23-31; t is the number of tells (kept as a number of the dtype of the center) *)
Record fadam := mkFAdam { fa_center : list num; fa_lr : R; fa_beta1 : R; fa_beta2 : R; fa_eps : R;
  fa_m : list num; fa_v : list num; fa_t : nat }.
(* funcadam.py:34-101 adam *)
Definition fadam_init (center : list R) (lr beta1 beta2 epsilon : option R) : fadam :=
  mkFAdam (map Some center)
    (match lr with None => 1 / 1000 | Some x => x end)
    (match beta1 with None => 9 / 10 | Some x => x end)
    (match beta2 with None => 999 / 1000 | Some x => x end)
    (match epsilon with None => 1 / 100000000 | Some x => x end)
    (repeat (Some 0) (length center)) (repeat (Some 0) (length center)) 0.
(* funcadam.py:104-123 _adam_step *)
Definition fadam_step (s : fadam) (g : list num) : list num * list num * list num * nat :=
  let t := (fa_t s + 1)%nat in
  let m := map2 (fun m g => nadd (nmul (Some (fa_beta1 s)) m) (nmul (Some (1 - fa_beta1 s)) g)) (fa_m s) g in
  let v := map2 (fun v g => nadd (nmul (Some (fa_beta2 s)) v) (nmul (Some (1 - fa_beta2 s)) (nmul g g))) (fa_v s) g in
  let mhat := map (fun m => ndiv m (Some (1 - fa_beta1 s ^ t))) m in
  let vhat := map (fun v => ndiv v (Some (1 - fa_beta2 s ^ t))) v in
  let center_update := map2 (fun m v => ndiv (nmul (Some (fa_lr s)) m) (nadd (nsqrt v) (Some (fa_eps s)))) mhat vhat in
  (map2 nadd (fa_center s) center_update, m, v, t).
(* funcadam.py:126-136, 139-172 *)
Definition fadam_ask (s : fadam) : list num := fa_center s.
Definition fadam_tell (s : fadam) (g : list num) : fadam :=
  let '(c, m, v, t) := fadam_step s g in mkFAdam c (fa_lr s) (fa_beta1 s) (fa_beta2 s) (fa_eps s) m v t.
(* funcsgd.py:23-27 *)
Record fsgd := mkFSgd { fs_center : list num; fs_velocity : list num; fs_lr : R; fs_momentum : R }.
(* funcsgd.py:30-75 sgd *)
Definition fsgd_init (center : list R) (lr : R) (momentum : option R) : fsgd :=
  mkFSgd (map Some center) (repeat (Some 0) (length center)) lr (match momentum with None => 0 | Some x => x end).
(* funcsgd.py:78-88 _sgd_step *)
Definition fsgd_step (s : fsgd) (g : list num) : list num * list num :=
  let velocity := map2 (fun v g => nadd (nmul (Some (fs_momentum s)) v) (nmul (Some (fs_lr s)) g)) (fs_velocity s) g in
  (velocity, map2 nadd (fs_center s) velocity).
(* funcsgd.py:91-101, 104-130 *)
Definition fsgd_ask (s : fsgd) : list num := fs_center s.
Definition fsgd_tell (s : fsgd) (g : list num) : fsgd :=
  let r := fsgd_step s g in mkFSgd (snd r) (fst r) (fs_lr s) (fs_momentum s).

(* ---------------------------------------------------------------- initial standard deviation *)
Inductive dtype := Float16 | BFloat16 | Float32 | Float64.
Inductive device := Cpu | Cuda.
(* torch's type promotion between two tensors with dimensions *)
Definition promote (a b : dtype) : dtype :=
  match a, b with
  | Float64, _ | _, Float64 => Float64
  | Float32, _ | _, Float32 => Float32
  | Float16, Float16 => Float16
  | BFloat16, BFloat16 => BFloat16
  | _, _ => Float32
  end.
Record tensor := mkT { t_data : list R; t_dtype : dtype; t_device : device }.
(* a value which the user gives: a number or a vector *)
Inductive real_or_vector := RScalar (x : R) | RVector (l : list R).
(* misc.py:1879-1922 stdev_from_radius; math.sqrt of a nonnegative number, division by zero raises *)
Definition stdev_from_radius (radius : R) (solution_length : nat) : result R :=
  if Nat.eqb solution_length 0 then Err ZeroDivisionError else Ok (sqrt (radius ^ 2 / INR solution_length)).
(* misc.py:1925-1974 to_stdev_init, radius a number (float() of a vector raises) *)
Definition to_stdev_init (solution_length : nat) (stdev_init radius_init : option real_or_vector) : result real_or_vector :=
  match stdev_init, radius_init with
  | Some s, None => Ok s
  | None, Some (RScalar r) => rmap RScalar (stdev_from_radius r solution_length)
  | None, Some (RVector _) => Err TypeError
  | None, None => Err ValueError
  | Some _, Some _ => Err ValueError
  end.
(* gaussian.py:105-111: the initial sigma of the class-based search algorithms; misc.py:653-671 *)
Definition class_sigma (solution_length : nat) (dt : dtype) (dv : device) (stdev_init radius_init : option real_or_vector) : result tensor :=
  bind (to_stdev_init solution_length stdev_init radius_init) (fun s =>
  match s with
  | RScalar x => Ok (mkT (repeat x solution_length) dt dv)
  | RVector l => if Nat.eqb (length l) solution_length then Ok (mkT l dt dv) else Err ValueError
  end).
(* elementwise product of tensors with dimensions *)
Definition tmul (a b : tensor) : result tensor :=
  match t_device a, t_device b with
  | Cpu, Cpu | Cuda, Cuda =>
      let n := Nat.max (length (t_data a)) (length (t_data b)) in
      let fit l := if Nat.eqb (length l) n then Ok l else match l with [x] => Ok (repeat x n) | _ => Err RuntimeError end in
      bind (fit (t_data a)) (fun x => bind (fit (t_data b)) (fun y =>
      Ok (mkT (map2 Rmult x y) (promote (t_dtype a) (t_dtype b)) (t_device a))))
  | _, _ => Err RuntimeError
  end.
(* functional/misc.py:78-163 _get_stdev_init, without batch dimensions.  torch.ones(n) is made with the default dtype
   of torch and on the default device *)
Definition functional_sigma (default_dtype : dtype) (center : tensor) (stdev_init radius_init : option real_or_vector) : result tensor :=
  let n := length (t_data center) in
  match stdev_init, radius_init with
  | None, None => Err ValueError
  | Some (RScalar x), None => Ok (mkT (repeat x n) (t_dtype center) (t_device center))
  | Some (RVector l), None => if Nat.eqb (length l) n then Ok (mkT l (t_dtype center) (t_device center)) else Err ValueError
  | None, Some (RScalar r) =>
      let stdev_element := mkT [sqrt (r ^ 2 / INR n)] (t_dtype center) (t_device center) in
      tmul stdev_element (mkT (repeat 1 n) default_dtype Cpu)
  | None, Some (RVector _) => Err NotImplementedError (* a batch of radii: a batch of standard deviations *)
  | Some _, Some _ => Err ValueError
  end.

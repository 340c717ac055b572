(* Model of the ClipUp optimizer: class ClipUp and ClipUpParameterGroup of /repo/src/evotorch/optimizers.py, and
   /repo/src/evotorch/algorithms/functional/funcclipup.py.  Real arithmetic instead of floating point.
   A vector is `Some xs`, or None when all its components are NaN. *)
From Coq Require Import Reals String.
From Verif Require Import Prelude.
Open Scope R_scope.

Definition sumsq (x : list R) : R := fold_right (fun a acc => a * a + acc) 0 x.
(* torch.norm *)
Definition norm (x : list R) : R := sqrt (sumsq x).
Definition scale (k : R) (x : list R) : list R := map (fun a => k * a) x.
Definition add (x y : list R) : list R := map2 Rplus x y.
Definition vec := option (list R).
(* g / torch.norm(g): a zero gradient gives 0/0 in every component *)
Definition unit_of (g : list R) : vec :=
  if Req_EM_T (norm g) 0 then None else Some (map (fun a => a / norm g) g).

Record clipup := { stepsize : R; momentum : R; max_speed : R; solution_length : nat; velocity : vec }.

(* optimizers.py:247-307 *)
Definition clipup_init (len : nat) (step mom : R) (speed : option R) : result clipup :=
  let speed := match speed with None => step * 2 | Some s => s end in
  if Rlt_dec step 0 then Err ValueError
  else if Rlt_dec mom 0 then Err ValueError
  else if Rlt_dec 1 mom then Err ValueError
  else if Rlt_dec speed 0 then Err ValueError
  else Ok {| stepsize := step; momentum := mom; max_speed := speed; solution_length := len;
             velocity := Some (repeat 0 len) |}.

(* optimizers.py:309-317; a NaN norm is not greater than the limit *)
Definition clip (x : vec) (limit : R) : vec :=
  match x with
  | None => None
  | Some v => if Rlt_dec limit (norm v) then Some (map (fun a => a * (limit / norm v)) v) else Some v
  end.

(* momentum * velocity + grad; NaN absorbs *)
Definition vadd (x y : vec) : vec := match x, y with Some a, Some b => Some (add a b) | _, _ => None end.
Definition vscale (k : R) (x : vec) : vec := match x with Some a => Some (scale k a) | None => None end.

(* optimizers.py:319-357 (gradients are vectors; a wrong length is rejected by ensure_tensor_length_and_dtype,
   misc.py:663-670) *)
Definition ascent (c : clipup) (g : list R) : result (clipup * vec) :=
  if Nat.eqb (length g) (solution_length c) then
    let grad := match unit_of g with Some u => Some (map (fun a => a * stepsize c) u) | None => None end in
    let v := clip (vadd (vscale (momentum c) (velocity c)) grad) (max_speed c) in
    Ok ({| stepsize := stepsize c; momentum := momentum c; max_speed := max_speed c;
           solution_length := solution_length c; velocity := v |}, v)
  else Err ValueError.

(* optimizers.py:243-245 *)
Definition dict (A : Type) := list (string * A).
Definition lookup {A} (k : string) (d : dict A) : option A :=
  option_map snd (find (fun kv => String.eqb (fst kv) k) d).
Definition param_group_items : dict string :=
  [("lr", "_stepsize"); ("max_speed", "_max_speed"); ("momentum", "_momentum")]%string.
Definition param_group_item_lb : dict R := [("lr", 0); ("max_speed", 0); ("momentum", 0)]%string.
Definition param_group_item_ub : dict R := [("momentum", 1)]%string.
(* getattr / setattr on the attributes named above *)
Definition getattr (c : clipup) (name : string) : result R :=
  if String.eqb name "_stepsize" then Ok (stepsize c)
  else if String.eqb name "_max_speed" then Ok (max_speed c)
  else if String.eqb name "_momentum" then Ok (momentum c) else Err AttributeError.
Definition setattr (c : clipup) (name : string) (v : R) : clipup :=
  {| stepsize := if String.eqb name "_stepsize" then v else stepsize c;
     max_speed := if String.eqb name "_max_speed" then v else max_speed c;
     momentum := if String.eqb name "_momentum" then v else momentum c;
     solution_length := solution_length c; velocity := velocity c |}.
(* optimizers.py:394-396 *)
Definition group_get (c : clipup) (key : string) : result R :=
  match lookup key param_group_items with None => Err KeyError | Some attr => getattr c attr end.
(* optimizers.py:398-409: membership is tested with the attribute name, the bound is read with the key *)
Definition check_bound (d : dict R) (attr key : string) (bad : R -> bool) : result unit :=
  match lookup attr d with
  | None => Ok tt
  | Some _ => match lookup key d with
              | None => Err KeyError
              | Some b => if bad b then Err ValueError else Ok tt
              end
  end.
Definition group_set (c : clipup) (key : string) (value : R) : result clipup :=
  match lookup key param_group_items with
  | None => Err KeyError
  | Some attr =>
      bind (check_bound param_group_item_lb attr key (fun lb => if Rlt_dec value lb then true else false)) (fun _ =>
      bind (check_bound param_group_item_ub attr key (fun ub => if Rlt_dec ub value then true else false)) (fun _ =>
      Ok (setattr c attr value)))
  end.

(* funcclipup.py:23-28 *)
Record fclipup := { fcenter : vec; fvelocity : vec; flr : R; fmomentum : R; fmax_speed : R }.
(* funcclipup.py:70-91 *)
Definition fclipup_init (center : list R) (mom : R) (lr speed : option R) : result fclipup :=
  match lr, speed with
  | None, None => Err ValueError
  | Some l, None => Ok {| fcenter := Some center; fvelocity := Some (repeat 0 (length center)); flr := l; fmomentum := mom; fmax_speed := l * 2 |}
  | None, Some s => Ok {| fcenter := Some center; fvelocity := Some (repeat 0 (length center)); flr := s / 2; fmomentum := mom; fmax_speed := s |}
  | Some l, Some s => Ok {| fcenter := Some center; fvelocity := Some (repeat 0 (length center)); flr := l; fmomentum := mom; fmax_speed := s |}
  end.
(* funcclipup.py:95-151 *)
Definition fclipup_tell (s : fclipup) (g : list R) : fclipup :=
  let v := vadd (vscale (fmomentum s) (fvelocity s)) (vscale (flr s) (unit_of g)) in
  let v := match v with
           | None => None
           | Some x => if Rlt_dec (fmax_speed s) (norm x)
                       then Some (scale (fmax_speed s) (map (fun a => a / norm x) x)) else Some x
           end in
  {| fcenter := vadd (fcenter s) v; fvelocity := v; flr := flr s; fmomentum := fmomentum s; fmax_speed := fmax_speed s |}.
(* funcclipup.py:111-121 *)
Definition fclipup_ask (s : fclipup) : vec := fcenter s.

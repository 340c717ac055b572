(* What a user relies on from Adam, SGD and the initial standard deviation. *)
From Coq Require Import Reals String.
From Verif Require Import Prelude FuncModel.
Open Scope R_scope.

Definition total (l : list R) : R := fold_right Rplus 0 l.
(* sum of b^i * g_(t-i), where g_t is the newest of the gradients in l (oldest first): recent gradients count more *)
Definition discounted (b : R) (l : list R) : R := total (map (fun i => b ^ i * nth i (rev l) 0) (seq 0 (length l))).
(* the gradients of coordinate j *)
Definition coordinate (j : nat) (gs : list (list R)) : list R := map (fun g => nth j g 0) gs.

(* Adam (Kingma & Ba 2015, algorithm 1), coordinate after the gradients l: the bias-corrected averages, and the move
   (None when its denominator is zero) *)
Definition m_hat (beta1 : R) (l : list R) : R := (1 - beta1) * discounted beta1 l / (1 - beta1 ^ length l).
Definition v_hat (beta2 : R) (l : list R) : R := (1 - beta2) * discounted beta2 (map (fun g => g * g) l) / (1 - beta2 ^ length l).
Definition adam_move (alpha beta1 beta2 epsilon : R) (l : list R) : option R :=
  let d := sqrt (v_hat beta2 l) + epsilon in if Req_EM_T d 0 then None else Some (alpha * m_hat beta1 l / d).
(* SGD with heavy-ball momentum: every past gradient, discounted *)
Definition sgd_move (lr momentum : R) (l : list R) : R := lr * discounted momentum l.
(* ... and with Nesterov momentum: the newest gradient is counted once more *)
Definition nesterov_move (lr momentum : R) (l : list R) : R := lr * (last l 0 + momentum * discounted momentum l).

(* All gradients have length n *)
Definition gradients (n : nat) (gs : list (list R)) : Prop := Forall (fun g => length g = n) gs.
Definition proper_beta (b : R) : Prop := 0 <= b < 1.

(* running a class-based optimizer: the ascents *)
Fixpoint ascents (w : wrapped) (gs : list (list R)) : result (wrapped * list (list num)) :=
  match gs with
  | [] => Ok (w, [])
  | g :: rest => bind (torch_ascent w (map Some g)) (fun r => bind (ascents (fst r) rest) (fun r' => Ok (fst r', snd r :: snd r')))
  end.
(* the point reached from c by the moves *)
Definition travel (c : num) (moves : list num) : num :=
  fold_left (fun a b => match a, b with Some x, Some y => Some (x + y) | _, _ => None end) moves c.
(* the moves of coordinate j made for the gradients gs, by a rule which looks at the gradients so far *)
Definition moves_of (rule : list R -> num) (j : nat) (gs : list (list R)) : list num :=
  map (fun k => rule (coordinate j (firstn (S k) gs))) (seq 0 (length gs)).
Definition fadam_run (s : fadam) (gs : list (list R)) : fadam := fold_left (fun s g => fadam_tell s (map Some g)) gs s.
Definition fsgd_run (s : fsgd) (gs : list (list R)) : fsgd := fold_left (fun s g => fsgd_tell s (map Some g)) gs s.
(* the ascents are, per coordinate, those of the rule *)
Definition follows_rule (rule : list R -> num) (n : nat) (gs : list (list R)) (steps : list (list num)) : Prop :=
  length steps = length gs /\
  forall k step, nth_error steps k = Some step ->
    length step = n /\ forall j, (j < n)%nat -> nth_error step j = Some (rule (coordinate j (firstn (S k) gs))).
(* a point reached by following the rule *)
Definition reaches (rule : list R -> num) (start : list R) (gs : list (list R)) (point : list num) : Prop :=
  length point = length start /\
  forall j c, nth_error start j = Some c -> nth_error point j = Some (travel (Some c) (moves_of rule j gs)).

Definition euclidean (l : list R) : R := sqrt (total (map (fun x => x * x) l)).
(* an optional hyperparameter with its default *)
Definition given (o : option R) (default : R) : R := match o with None => default | Some x => x end.
(* per coordinate, the sum of the ascents of a class-based optimizer *)
Definition summed (start : list R) (steps : list (list num)) (point : list num) : Prop :=
  length point = length start /\
  forall j c, nth_error start j = Some c -> nth_error point j = Some (travel (Some c) (map (fun step => nth j step None) steps)).
(* the AMSGrad variant of Adam: the largest of the averages so far instead of the latest one *)
Definition v_bar (beta2 : R) (l : list R) : R := (1 - beta2) * discounted beta2 (map (fun g => g * g) l).
Definition v_largest (beta2 : R) (l : list R) : R := fold_right Rmax 0 (map (fun k => v_bar beta2 (firstn (S k) l)) (seq 0 (length l))).
Definition amsgrad_move (alpha beta1 beta2 epsilon : R) (l : list R) : option R :=
  let d := sqrt (v_largest beta2 l / (1 - beta2 ^ length l)) + epsilon in if Req_EM_T d 0 then None else Some (alpha * m_hat beta1 l / d).

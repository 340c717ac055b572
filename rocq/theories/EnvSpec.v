(* What a vector environment should do, seen from one sub-environment on its own: it is stepped with its own actions, and reset after
   each episode. *)
From Coq Require Import QArith.
From Verif Require Import Prelude EnvModel.
Close Scope Q_scope.
Open Scope nat_scope.

Section S.
Variables ES A O I : Type.
Variable step : ES -> A -> ES * sres O I.
Variable reset : ES -> ES * (O * I).
(* the run of a single environment: the result of every step, with what the reset after it gave if the episode ended *)
Definition raw := (sres O I * option (O * I))%type.
Fixpoint raw_run (s : ES) (acts : list A) : list raw :=
  match acts with
  | [] => []
  | a :: t => let '(s1, r) := step s a in
              if r_term r || r_trunc r then let '(s2, oi) := reset s1 in (r, Some oi) :: raw_run s2 t else (r, None) :: raw_run s1 t
  end.
(* number of episodes which ended *)
Fixpoint ends (l : list raw) : nat := match l with [] => 0 | (_, Some _) :: t => S (ends t) | (_, None) :: t => ends t end.
Definition shown (r : sres O I) (o : O) (i : I) : vres O I :=
  {| v_obs := o; v_reward := Some (r_reward r); v_term := r_term r; v_trunc := r_trunc r; v_info := i |}.
(* what is to be reported at time t: with at most n episodes, dummies after the n-th end; the observation after an end is the first one
   of the next episode, unless it was the last episode *)
Definition visible (dummy : vres O I) (n : option nat) (l : list raw) (t : nat) : option (vres O I) :=
  let before := ends (firstn t l) in
  option_map (fun x => match x with
                       | (r, e) => if match n with Some m => m <=? before | None => false end then dummy
                                   else match e with
                                        | Some oi => if match n with Some m => m =? S before | None => false end then shown r (r_obs r) (r_info r)
                                                     else shown r (fst oi) (snd oi)
                                        | None => shown r (r_obs r) (r_info r)
                                        end
                       end) (nth_error l t).
End S.
Arguments raw_run {ES A O I} _ _ _ _.
Arguments ends {O I} _.
Arguments shown {O I} _ _ _.
Arguments visible {O I} _ _ _ _.

(* all sub-environments have the same spaces *)
Definition same_spaces (l : list (space * space)) : Prop := forall x y, In x l -> In y l -> x = y.

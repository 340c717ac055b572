(* What a rollout should be: a policy driven in closed loop in a single environment, for a number of episodes. *)
From Coq Require Import QArith.
From Verif Require Import Prelude EnvModel.
Close Scope Q_scope.
Open Scope nat_scope.

(* the alive bonus of the t-th step of an episode: none before t0, everything from t1 on, and linear between them *)
Definition bonus_at (schedule : option (Z * Z * Q)) (t : Z) : Q :=
  match schedule with
  | None => 0%Q
  | Some (t0, t1, b) => if (t1 <=? t)%Z then b else if (t <? t0)%Z then 0%Q else (b * (inject_Z (t - t0) / inject_Z (t1 - t0)))%Q
  end.

Section S.
Variables ES A O I P H : Type.
Variable step : ES -> A -> ES * sres O I.
Variable reset : ES -> ES * (O * I).
Variable policy : P -> O -> H -> A * H.
Variable h0 : H.
Variable decrease : Q.
Variable schedule : option (Z * Z * Q).
(* what the policy may get to see for an observation *)
Variable view : O -> O -> Prop.
Variable p : P.
(* [runs k s o h t q m]: from the state s of the environment, with the observation o (as seen by the policy), hidden state h, and t
   timesteps into the current episode, the next k ends of episodes are reached after m steps, with total shaped reward q *)
Inductive runs : nat -> ES -> O -> H -> Z -> Q -> nat -> Prop :=
  | runs_over s o h t : runs 0 s o h t 0%Q 0
  | runs_go k s o h t s1 r o1 q m :
      step s (fst (policy p o h)) = (s1, r) -> r_term r = false -> r_trunc r = false -> view (r_obs r) o1 ->
      runs (S k) s1 o1 (snd (policy p o h)) (t + 1)%Z q m ->
      runs (S k) s o h t (r_reward r - decrease + bonus_at schedule (t + 1) + q)%Q (S m)
  | runs_end k s o h t s1 r o1 q m :
      step s (fst (policy p o h)) = (s1, r) -> r_term r = true \/ r_trunc r = true ->
      (0 < k -> view (fst (snd (reset s1))) o1) ->
      runs k (fst (reset s1)) o1 h0 0%Z q m ->
      runs (S k) s o h t (r_reward r - decrease + bonus_at schedule (t + 1) + q)%Q (S m).
End S.
Arguments runs {ES A O I P H} _ _ _ _ _ _ _ _ _ _ _ _ _ _ _.

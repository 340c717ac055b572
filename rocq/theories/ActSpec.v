(* Vocabulary for the properties of policies: the loop of a user who drives an environment with a policy module. *)
From Coq Require Import Reals.
From Verif Require Import Prelude NormModel ActModel.

Section Drive.
  Context {E H : Type}.
  Variable env_reset : E -> E * list num.
  Variable env_step : E -> action -> E * list num * R * bool.
  Variable argmax : list num -> nat.
  (* raw observations go in; the output is the action, or has the score of each choice *)
  Definition take (sp : space) (y : list num) : action := match sp with Box _ _ => Continuous y | Discrete => Choice (argmax y) end.
  Fixpoint drive_from (n : nat) (sp : space) (pol : module H) (training : bool) (limit : option nat) (e : E) (hidden : option H) (x : list num) :
      list (action * R) :=
    match n with
    | 0 => []
    | S n' =>
        let '(y, hidden) := match pol training x hidden with Tuple y h => (y, Some h) | Alone y => (y, None) end in
        let a := take sp y in
        let '(e, x, r, done) := env_step e a in
        let limit := option_map Nat.pred limit in
        if done || match limit with Some 0 => true | _ => false end then [(a, r)]
        else (a, r) :: drive_from n' sp pol training limit e hidden x
    end.
  Definition drive (n : nat) (sp : space) (pol : module H) (training : bool) (limit : option nat) (e : E) : list (action * R) :=
    let (e, x) := env_reset e in drive_from n sp pol training limit e None x.
End Drive.
Definition silent (n : nat) : option (list num) := None.
(* the network which returns its input *)
Definition echo {H} : module H := fun _ x _ => Alone x.
Definition output {H} (o : out H) : list num := match o with Alone y | Tuple y _ => y end.
(* within a Box: as long as its bounds, and no component is below its lower or above its upper bound *)
Definition in_range (lo hi : option R) (v : num) : Prop :=
  match v with
  | None => True
  | Some v => match lo with Some l => (l <= v)%R | None => True end /\ match hi with Some h => (v <= h)%R | None => True end
  end.
Definition in_box (low high : list (option R)) (a : list num) : Prop :=
  forall i lo hi v, nth_error low i = Some lo -> nth_error high i = Some hi -> nth_error a i = Some v -> in_range lo hi v.
Definition box_ok (low high : list (option R)) : Prop :=
  forall i l h, nth_error low i = Some (Some l) -> nth_error high i = Some (Some h) -> (l <= h)%R.

(* What a policy is expected to do: each network on its own, without heap and without batches. *)
From Verif Require Import Prelude PolModel.

(* which row (of n) the item number j of a list of integers, or the j-th True of a list of booleans, stands for *)
Inductive selects (n : nat) : sel -> nat -> nat -> Prop :=
  | sel_int l j z i : nth_error l j = Some z -> i < n -> (z = Z.of_nat i \/ z = Z.of_nat i - Z.of_nat n)%Z -> selects n (Ints l) j i
  | sel_mask l i : nth_error l i = Some true -> selects n (Mask l) (count_occ Bool.bool_dec (firstn i l) true) i.
Definition selected (n : nat) (s : sel) (i : nat) : Prop := exists j, selects n s j i.
Inductive valid (n : nat) : sel -> Prop :=
  | valid_ints l : Forall (fun z => - Z.of_nat n <= z < Z.of_nat n)%Z l -> valid n (Ints l)
  | valid_mask l : length l = n -> valid n (Mask l).
(* how many rows are addressed *)
Definition width (s : sel) : nat := match s with Ints l => length l | Mask l => count_occ Bool.bool_dec l true | Tup l => length l end.

Section Spec.
  Context {row : Type}.
  Variable m : module row.
  (* one network *)
  Record net := Net { par : row; hid : option (tree row) }.
  (* the tensors given to or asked of a policy of n networks *)
  Inductive event :=
    | SetAll (l : list row) (reset : bool) | SetSome (s : sel) (v : cell row) (reset : bool)
    | Reset (s : option sel) (copy : bool) | Act (xs : list row).
  (* new parameters for the item number j of the selection *)
  Definition value (v : cell row) (j : nat) : option row :=
    match v with Single r => Some r | Batch [r] => Some r | Batch l => nth_error l j end.
  Definition fits (v : cell row) (k : nat) : Prop := match v with Single _ => True | Batch l => length l = 1 \/ length l = k end.
  Inductive event_ok (n : nat) : event -> Prop :=
    | ok_all l b : length l = n -> event_ok n (SetAll l b)
    | ok_some s v b : valid n s -> fits v (width s) -> event_ok n (SetSome s v b)
    | ok_reset c : event_ok n (Reset None c)
    | ok_reset_some s c : valid n s -> event_ok n (Reset (Some s) c)
    | ok_act xs : length xs = n -> event_ok n (Act xs).
  (* what a reset of chosen networks does to the hidden state of each of them *)
  Variable restart : option (tree row) -> option (tree row).
  (* what the events mean for the network number i *)
  Inductive net_step (n i : nat) : event -> net -> option row -> net -> Prop :=
    | st_all l b q s : nth_error l i = Some q -> net_step n i (SetAll l b) s None (Net q (if b then None else hid s))
    | st_some sl v b j q s : selects n sl j i -> (forall j', j < j' -> ~ selects n sl j' i) -> value v j = Some q ->
        net_step n i (SetSome sl v b) s None (Net q (if b then restart (hid s) else hid s))
    | st_not_some sl v b s : ~ selected n sl i -> net_step n i (SetSome sl v b) s None s
    | st_reset c s : net_step n i (Reset None c) s None (Net (par s) None)
    | st_reset_some sl c s : selected n sl i -> net_step n i (Reset (Some sl) c) s None (Net (par s) (restart (hid s)))
    | st_not_reset sl c s : ~ selected n sl i -> net_step n i (Reset (Some sl) c) s None s
    | st_act xs x s y : nth_error xs i = Some x -> nth_error (compute m (par s) x (hid s)) (out_ix m) = Some y ->
        net_step n i (Act xs) s (Some y)
          (Net (par s) (match skel m with None => hid s | Some t => Some (tmap (fun k => nth k (compute m (par s) x (hid s)) x) t) end)).
  (* ... and the actions which it returns *)
  Inductive net_run (n i : nat) : list event -> net -> list row -> net -> Prop :=
    | nr_nil s : net_run n i [] s [] s
    | nr_cons e es s o s1 ys s2 : net_step n i e s o s1 -> net_run n i es s1 ys s2 ->
        net_run n i (e :: es) s (match o with Some y => y :: ys | None => ys end) s2.

  (* a hidden state which the network can return *)
  Definition returns (t : tree row) : Prop :=
    exists q x st, Some t = option_map (tmap (fun k => nth k (compute m q x st) x)) (skel m).
  (* the network always returns w tensors; the output and the state are among them *)
  Definition well_formed (w : nat) : Prop :=
    (forall q x st, length (compute m q x st) = w) /\ out_ix m < w /\
    forall t, skel m = Some t -> tensors_only t = true /\ Forall (fun k => k < w) (leaves t).

  (* ---- the policy, called with new tensors at each event ---- *)
  Variable zero : row -> row.
  Variable poke : list Z -> row -> result row.
  Variable poke_single : sel -> row -> result row.
  Definition new (c : cell row) (h : heap row) : heap row * nat := (h ++ [c], length h).
  Definition step (e : event) (h : heap row) (p : policy) : result (heap row * policy * option (list row)) :=
    let done r := match r with (h, p, Ok _) => Ok (h, p, None) | (_, _, Err e) => Err e end in
    match e with
    | SetAll l b => let (h, a) := new (Batch l) h in done (set_parameters zero poke poke_single p a None b h)
    | SetSome s v b => let (h, a) := new v h in done (set_parameters zero poke poke_single p a (Some s) b h)
    | Reset s c => done (reset zero poke poke_single p s c h)
    | Act xs => let (h, a) := new (Batch xs) h in
        match call m p a h with
        | (h, p, Ok o) => match nth_error h o with Some (Batch ys) => Ok (h, p, Some ys) | _ => Err KeyError end
        | (_, _, Err e) => Err e
        end
    end.
  Fixpoint run (es : list event) (h : heap row) (p : policy) : result (heap row * policy * list (list row)) :=
    match es with
    | [] => Ok (h, p, [])
    | e :: t => bind (step e h p) (fun '(h, p, o) => bind (run t h p) (fun '(h, p, l) => Ok (h, p, match o with Some y => y :: l | None => l end)))
    end.

  (* ---- a policy whose parameters are a vector ---- *)
  Inductive event1 := Set1 (q : row) (reset : bool) | Reset1 (copy : bool) | Act1 (x : row).
  Definition as_batch (e : event1) : event := match e with Set1 q b => SetAll [q] b | Reset1 c => Reset None c | Act1 x => Act [x] end.
  Definition step1 (e : event1) (h : heap row) (p : policy) : result (heap row * policy * option row) :=
    let done r := match r with (h, p, Ok _) => Ok (h, p, None) | (_, _, Err e) => Err e end in
    match e with
    | Set1 q b => let (h, a) := new (Single q) h in done (set_parameters zero poke poke_single p a None b h)
    | Reset1 c => done (reset zero poke poke_single p None c h)
    | Act1 x => let (h, a) := new (Single x) h in
        match call m p a h with
        | (h, p, Ok o) => match nth_error h o with Some (Single y) => Ok (h, p, Some y) | _ => Err KeyError end
        | (_, _, Err e) => Err e
        end
    end.
  Fixpoint run1 (es : list event1) (h : heap row) (p : policy) : result (heap row * policy * list row) :=
    match es with
    | [] => Ok (h, p, [])
    | e :: t => bind (step1 e h p) (fun '(h, p, o) => bind (run1 t h p) (fun '(h, p, l) => Ok (h, p, match o with Some y => y :: l | None => l end)))
    end.
End Spec.
Arguments event1 : clear implicits.
Arguments net : clear implicits.
Arguments event : clear implicits.

(* Model of neuroevolution/net/vecrl.py: _unbatch_space, _batch_space, _batch_info_dicts. *)
From Verif Require Import Prelude.

(* ---- spaces of gymnasium, as far as these functions use them ---- *)
(* bounds are arrays: functions of the index; V: the numbers of a Box, with multiplication *)
Section Spaces.
  Context {V : Type}.
  Variable one : V.
  Variable mul : V -> V -> V.
  Inductive space :=
    | Box (shape : list nat) (low high : list nat -> V) (dtype : nat)
    | Discrete (n start : Z)
    | MultiDiscrete (shape : list nat) (nvec : list Z)      (* nvec: flat *)
    | OtherSpace.
  (* the constructors of Discrete and MultiDiscrete want positive numbers *)
  Definition mk_discrete (n : Z) : result space := if (0 <? n)%Z then Ok (Discrete n 0) else Err AssertionError.
  Definition mk_multi (nvec : list Z) : result space := if forallb (fun n => 0 <? n)%Z nvec then Ok (MultiDiscrete [length nvec] nvec) else Err AssertionError.
  (* np.unique *)
  Definition unique (l : list Z) : list Z := nodup Z.eq_dec l.
  (* vecrl.py:254-292 *)
  Definition unbatch_space (s : space) : result space :=
    match s with
    | Box shape low high dtype =>
      if length shape <=? 1 then Err ValueError
      else match shape with
           | 0 :: _ => Err IndexError                               (* space.low[0] *)
           | _ => Ok (Box (tl shape) (fun ix => low (0 :: ix)) (fun ix => high (0 :: ix)) dtype)
           end
    | MultiDiscrete shape nvec =>
      if negb (length shape =? 1) then Err ValueError
      else if negb (length (unique nvec) =? 1) then Err ValueError
      else match nvec with n :: _ => mk_discrete n | [] => Err IndexError end
    | _ => Err TypeError
    end.
  (* A Python int times the float64 number 1.0, stored as int64: rounded to 53 significant bits, ties to even. *)
  Definition through_float64 (n : Z) : Z :=
    (let e := Z.log2 n - 52 in
     if e <=? 0 then n
     else let u := 2 ^ e in
          let q := n / u in let r := n mod u in
          let up := (u / 2 <? r) || ((u / 2 =? r) && Z.odd q) in
          u * (if up then q + 1 else q))%Z.
  (* 295-309; np.ones((num_envs, 1, ..., 1)) * low: broadcasting pairs low with a new dimension at the left *)
  Definition batch_space (s : space) (num_envs : nat) : result space :=
    match s with
    | Box shape low high dtype => Ok (Box (num_envs :: shape) (fun ix => mul one (low (tl ix))) (fun ix => mul one (high (tl ix))) dtype)
    | Discrete n _ => mk_multi (map through_float64 (repeat n num_envs))
    | _ => Err TypeError
    end.
End Spaces.
Arguments space : clear implicits.

(* ---- 1493-1538: _batch_info_dicts ---- *)
(* a value in an info dictionary: an array or a number (with its shape), or something else *)
Inductive value := Num (shape : list nat) (id : nat) | Obj (id : nat).
Definition dict := list (nat * value).
Fixpoint lookup (k : nat) (d : dict) : option value :=
  match d with [] => None | (k', v) :: t => if k =? k' then Some v else lookup k t end.
Inductive entry := Stacked (l : list (option value)) | Listed (l : list (option value)).
Definition shape_of (v : value) : option (list nat) := match v with Num s _ => Some s | Obj _ => None end.
Record scan := Scan { combined : nat -> list (option value); stackable : nat -> bool; single_shape : nat -> option (list nat) }.
Definition set {A} (f : nat -> A) (k : nat) (x : A) : nat -> A := fun j => if j =? k then x else f j.
(* the first dictionary determines the shapes *)
Definition first (d : dict) (s : scan) : scan :=
  fold_left (fun s kv => match shape_of (snd kv) with
                         | Some sh => Scan (combined s) (stackable s) (set (single_shape s) (fst kv) (Some sh))
                         | None => Scan (combined s) (set (stackable s) (fst kv) false) (single_shape s)
                         end) d s.
Definition shapes_differ (a b : option (list nat)) : bool := match a, b with Some x, Some y => if list_eq_dec Nat.eq_dec x y then false else true | None, None => false | _, _ => true end.
Definition visit (keys : list nat) (d : dict) (s : scan) : scan :=
  fold_left (fun s k => match lookup k d with
                        | Some v => Scan (set (combined s) k (combined s k ++ [Some v]))
                                         (match shape_of v with
                                          | Some sh => if shapes_differ (Some sh) (single_shape s k) then set (stackable s) k false else stackable s
                                          | None => set (stackable s) k false
                                          end) (single_shape s)
                        | None => Scan (set (combined s) k (combined s k ++ [None])) (set (stackable s) k false) (single_shape s)
                        end) keys s.
Fixpoint scan_all (keys : list nat) (i : nat) (infos : list dict) (s : scan) : scan :=
  match infos with
  | [] => s
  | d :: t => scan_all keys (S i) t (visit keys d (if i =? 0 then first d s else s))
  end.
Definition all_keys (infos : list dict) : list nat := nodup Nat.eq_dec (flat_map (map fst) infos).
Definition batch_info_dicts (infos : list dict) : list (nat * entry) :=
  let keys := all_keys infos in
  let s := scan_all keys 0 infos (Scan (fun _ => []) (fun _ => true) (fun _ => None)) in
  map (fun k => (k, if stackable s k then Stacked (combined s k) else Listed (combined s k))) keys.

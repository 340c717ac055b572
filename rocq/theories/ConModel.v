(* Model of the functions about the tensors in a container (tools/misc.py: cast_tensors_in_container, dtype_of_container,
   device_of_container) and of how a search distribution is made, modified and moved (distributions.py). Containers are objects on the heap
   of CloneModel; the data of a tensor are its dtype, its device, and its contents. Arrays are one-dimensional arrays of numbers. Casting of
   read-only tensors is not modelled (NotImplementedError stands for "not modelled"), and namedtuples are not distinguished from tuples.
   Temporary objects (such as the rows made while iterating over an array with two dimensions) do not occur; so ids are not used again. *)
From Verif Require Import Prelude CloneModel.

Definition t_dtype (n : node) : Z := nth 0 (n_data n) 0%Z.
Definition t_device (n : node) : Z := nth 1 (n_data n) 0%Z.
Definition t_values (n : node) : list Z := skipn 2 (n_data n).
(* which of the tests isinstance(...) is the first to hold *)
Inductive class := CTensor | CBasic | CSet | CMapping | CTuple | CIterable | CUnknown.
Definition class_of (k : kind) : class :=
  match k with
  | KTensor | KReadOnlyTensor => CTensor
  | KBytes => CBasic
  | KSet => CSet
  | KDict | KImmutableDict => CMapping
  | KTup => CTuple
  | KList | KArray _ | KObjectNdarray | KObjectArray _ | KImmutableList | KImmutableSet => CIterable
  | KClonable _ | KUnknown => CUnknown
  end.

(* ---- dtype_of_container (misc.py:422-502) and device_of_container (misc.py:505-583); they differ in the attribute only ---- *)
Definition visited := list (nat * option Z).
Fixpoint vlookup (V : visited) (a : nat) : option (option Z) := match V with [] => None | (x, r) :: t => if x =? a then Some r else vlookup t a end.
Section OF.
Variable attr : node -> Z.
(* misc.py:468-478 (result.update) *)
Definition update (acc new : option Z) : result (option Z) :=
  match new with
  | None => Ok acc
  | Some d => match acc with None => Ok (Some d) | Some d' => if Z.eqb d d' then Ok acc else Err ValueError end
  end.
Section ITEMS.
Variable call_self : visited -> val -> result (visited * option Z).
Fixpoint of_items (V : visited) (acc : option Z) (l : list val) : result (visited * option Z) :=
  match l with
  | [] => Ok (V, acc)
  | v :: t => bind (call_self V v) (fun p => bind (update acc (snd p)) (fun acc => of_items (fst p) acc t))
  end.
End ITEMS.
(* misc.py:452-502; G: visiting *)
Fixpoint of_container (fuel : nat) (h : heap) (V : visited) (G : list nat) (v : val) : result (visited * option Z) :=
  match v with
  | VAtom _ => Ok (V, None)
  | VRef a =>
    match vlookup V a with
    | Some r => Ok (V, r)
    | None =>
      if existsb (Nat.eqb a) G then Ok (V, None)
      else
        match fuel with
        | O => Err OutOfFuel
        | S f =>
          match nth_error h a with
          | None => Err RuntimeError
          | Some n =>
            match class_of (n_kind n) with
            | CTensor => Ok ((a, Some (attr n)) :: V, Some (attr n))
            | CBasic => Ok ((a, None) :: V, None)
            | CUnknown => Err TypeError
            | CSet | CMapping | CTuple | CIterable =>
                bind (of_items (fun V v => of_container f h V (a :: G) v) V None (n_items n)) (fun p => Ok ((a, snd p) :: fst p, snd p))
            end
          end
        end
    end
  end.
Definition attr_of_container (fuel : nat) (h : heap) (v : val) : result (option Z) := rmap snd (of_container fuel h [] [] v).
End OF.
Definition dtype_of_container := attr_of_container t_dtype.
Definition device_of_container := attr_of_container t_device.

(* ---- cast_tensors_in_container (misc.py:347-419) ---- *)
Section CAST.
(* conversion of the contents of a tensor from one dtype to another *)
Variable conv : Z -> Z -> list Z -> list Z.
(* torch.as_tensor: the same tensor if nothing is to be changed *)
Definition recast (dtype device : option Z) (n : node) : node :=
  let d := match dtype with Some d => d | None => t_dtype n end in
  let v := match device with Some v => v | None => t_device n end in
  Node (n_kind n) (d :: v :: (if Z.eqb d (t_dtype n) then t_values n else conv (t_dtype n) d (t_values n))) (n_keys n) (n_items n).
Definition as_asked (asked : option Z) (x : Z) : bool := match asked with None => true | Some y => Z.eqb y x end.
Definition cast_visit (dtype device : option Z) (h : heap) (n : node) : action :=
  match class_of (n_kind n) with
  | CTensor =>
      match n_kind n with
      | KReadOnlyTensor => Fail NotImplementedError
      | _ => if as_asked dtype (t_dtype n) && as_asked device (t_device n) then Keep else Copy (recast dtype device n)
      end
  | CBasic => Keep
  | CSet => Fill KSet
  | CMapping => Fill KDict
  | CTuple => FillTuple
  | CIterable => match n_kind n with KArray _ => Copy (Node KList [] [] (map VAtom (n_data n))) | _ => Fill KList end
  | CUnknown => Fail TypeError
  end.
Definition cast_tensors_in_container (dtype device : option Z) (fuel : nat) (h : heap) (v : val) : result (heap * val) :=
  rmap (fun r => (fst (fst r), snd r)) (walk (cast_visit dtype device) fuel h [] v).

(* ---- distributions.py ---- *)
Variables mandatory optional : list key.      (* MANDATORY_PARAMETERS, OPTIONAL_PARAMETERS *)
Fixpoint key_eqb (a b : key) : bool :=
  match a, b with
  | KInt x, KInt y | KStr x, KStr y | KOther x, KOther y => Z.eqb x y
  | KTuple l, KTuple k => (fix go l k := match l, k with [], [] => true | x :: l, y :: k => key_eqb x y && go l k | _, _ => false end) l k
  | _, _ => false
  end.
Definition has_key (l : list key) (k : key) : bool := existsb (key_eqb k) l.
(* distributions.py:96-112 (__check_correctness) *)
Fixpoint check_names (found : nat) (keys : list key) : result nat :=
  match keys with
  | [] => Ok found
  | k :: t => if has_key mandatory k then check_names (S found) t else if has_key optional k then check_names found t else Err ValueError
  end.
Definition check_correctness (keys : list key) : result unit :=
  bind (check_names 0 keys) (fun found => if found <? length mandatory then Err ValueError else Ok tt).
(* a search distribution: its dictionary of parameters, its dtype and its device *)
Record dist := { d_params : val; d_dtype : option Z; d_device : option Z }.
Definition keys_at (h : heap) (v : val) : list key := match v with VAtom _ => [] | VRef a => match nth_error h a with Some n => n_keys n | None => [] end end.
(* copy(parameters): a new dictionary with the same contents *)
Definition shallow_copy (h : heap) (v : val) : heap * val :=
  match v with
  | VAtom _ => (h, v)
  | VRef a => match nth_error h a with Some n => (h ++ [n], VRef (length h)) | None => (h, v) end
  end.
(* distributions.py:74-94 (Distribution.__init__); the second argument of cast_kwargs.get(...) is evaluated in any case *)
Definition dist_init (fuel : nat) (h : heap) (params : val) (dtype device : option Z) : result (heap * dist) :=
  bind (check_correctness (keys_at h params)) (fun _ =>
  bind (match dtype, device with
        | None, None => Ok (shallow_copy h params)
        | _, _ => cast_tensors_in_container dtype device fuel h params
        end) (fun hp =>
  bind (dtype_of_container fuel h params) (fun found_dtype =>
  bind (device_of_container fuel h params) (fun found_device =>
  Ok (fst hp, {| d_params := snd hp;
                 d_dtype := match dtype with Some d => Some d | None => found_dtype end;
                 d_device := match device with Some d => Some d | None => found_device end |}))))).
(* distributions.py:345-349 (new_parameters = copy(self.parameters); new_parameters.update(parameters)) *)
Fixpoint set_item (keys : list key) (items : list val) (k : key) (v : val) : list key * list val :=
  match keys, items with
  | k' :: ks, v' :: vs => if key_eqb k k' then (k' :: ks, v :: vs) else let '(ks1, vs1) := set_item ks vs k v in (k' :: ks1, v' :: vs1)
  | _, _ => ([k], [v])
  end.
Definition update_dict (n : node) (news : list (key * val)) : node :=
  let '(ks, vs) := fold_left (fun d kv => set_item (fst d) (snd d) (fst kv) (snd kv)) news (n_keys n, n_items n) in Node (n_kind n) (n_data n) ks vs.
(* distributions.py:326-349 (modified_copy); the dtype and the device of the distribution are the defaults *)
Definition modified_copy (fuel : nat) (h : heap) (D : dist) (dtype device : option Z) (news : list (key * val)) : result (heap * dist) :=
  let device := match device with Some d => Some d | None => d_device D end in
  let dtype := match dtype with Some d => Some d | None => d_dtype D end in
  match d_params D with
  | VAtom _ => Err AttributeError
  | VRef a =>
    match nth_error h a with
    | None => Err RuntimeError
    | Some n => dist_init fuel (h ++ [update_dict n news]) (VRef (length h)) dtype device
    end
  end.
(* distributions.py:114-133 (to); torch.device(None) raises TypeError *)
Definition dist_to (fuel : nat) (h : heap) (D : dist) (device : Z) : result (heap * dist) :=
  match d_device D with
  | None => Err TypeError
  | Some d => if Z.eqb d device then Ok (h, D) else dist_init fuel h (d_params D) None (Some device)
  end.
End CAST.

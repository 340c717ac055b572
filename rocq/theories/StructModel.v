(* Model of evotorch.tools.structures: CMemory, CDict, CList, CBag.

   Simplifications (also listed in DESIGN.md):
   - zero or one batch dimension: a structure is a list of lanes (one lane when unbatched);
     several batch dimensions are treated separately in StructMultiBatch*.v;
   - one element (a tensor of value_shape) is one abstract value of type V;
   - num_keys is an integer (tuple keys are not modelled); integers do not overflow. *)
From Verif Require Import Prelude.
Open Scope Z_scope.

(* An argument given either as one value to be expanded over the batch or per batch item. *)
Inductive barg (A : Type) := Sc (a : A) | Ba (l : list A).
Arguments Sc {A} a.
Arguments Ba {A} l.

(* structures.py:446-454, 465-474: expand to the batch shape, or reject with error e. *)
Definition expand {A} (e : exn) (n : nat) (b : barg A) : result (list A) :=
  match b with
  | Sc a => Ok (repeat a n)
  | Ba l => if Nat.eqb (length l) n then Ok l else Err e
  end.

(* structures.py:476-483 _get_where: the mask must have the batch shape. *)
Definition get_where (n : nat) (w : option (list bool)) : result (option (list bool)) :=
  match w with
  | None => Ok None
  | Some l => if Nat.eqb (length l) n then Ok (Some l) else Err RuntimeError
  end.

Definition masks (n : nat) (w : option (list bool)) : list (option bool) :=
  match w with None => repeat None n | Some l => map Some l end.

(* torch indexing of a dimension of size K by an integer: negative indices wrap once. *)
Definition tidx (K : nat) (a : Z) : option nat :=
  if (0 <=? a) && (a <? Z.of_nat K) then Some (Z.to_nat a)
  else if (- Z.of_nat K <=? a) && (a <? 0) then Some (Z.to_nat (a + Z.of_nat K))
  else None.

(* Element arithmetic of the dtype of a structure. *)
Record dops (V : Type) := mkDops {
  d_add : V -> V -> V; d_mul : V -> V -> V; d_mod : V -> V -> V;
  d_neg : V -> V; d_inv : V -> V; d_zero : V; d_one : V; d_isbool : bool }.
Arguments mkDops {V}.
Arguments d_add {V}. Arguments d_mul {V}. Arguments d_mod {V}. Arguments d_neg {V}.
Arguments d_inv {V}. Arguments d_zero {V}. Arguments d_one {V}. Arguments d_isbool {V}.

(* The modification methods shared by CMemory, CDict and CList. *)
Inductive meth := MSet | MAdd | MSub | MMul | MDiv.

(* New content of one addressed cell, given the mask entry of its lane
   (None: the `where` argument was not given). *)
Definition meth_cell {V} (D : dops V) (m : meth) (w : option bool) (old v : V) : V :=
  let add x := match w with                           (* add_: structures.py:594-604 *)
               | None => d_add D old x
               | Some b => d_add D old (if b then x else d_zero D)
               end in
  let mul x := match w with                           (* multiply_: structures.py:655-666 *)
               | None => if d_isbool D then d_mul D old x else d_add D old x   (* line 659: += *)
               | Some b => d_mul D old (if b then x else d_one D)
               end in
  match m with
  | MSet => match w with                              (* set_: structures.py:571-576 *)
            | None => v
            | Some b => if b then v else old
            end
  | MAdd => add v
  | MSub => add (d_neg D v)                           (* subtract_: structures.py:680 *)
  | MMul => mul v
  | MDiv => mul (d_inv D v)                           (* divide_: structures.py:694 *)
  end.

(* Read/write one cell of a lane through torch indexing. *)
Definition lane_read {V} (lane : list V) (a : Z) : result V :=
  match tidx (length lane) a with
  | Some i => match nth_error lane i with Some v => Ok v | None => Err IndexError end
  | None => Err IndexError
  end.
Definition lane_modify {V} (lane : list V) (a : Z) (f : V -> V) : result (list V) :=
  match tidx (length lane) a with
  | Some i => match nth_error lane i with Some v => Ok (upd lane i (f v)) | None => Err IndexError end
  | None => Err IndexError
  end.

(* ------------------------------------------------------------------ CMemory *)

(* structures.py:277-433 (fields _data, _num_keys, _key_offset, _verify). *)
Record cmem (V : Type) := mkCmem {
  cm_data : list (list V); cm_nkeys : nat; cm_offset : option Z; cm_verify : bool }.
Arguments mkCmem {V}.
Arguments cm_data {V}. Arguments cm_nkeys {V}. Arguments cm_offset {V}. Arguments cm_verify {V}.

Section CMemory.
Context {V : Type} (D : dops V).

Definition cm_off (m : cmem V) : Z := match cm_offset m with None => 0 | Some o => o end.
Definition cm_batch (m : cmem V) : nat := length (cm_data m).

(* structures.py:439-444 with the bounds of 373-385. *)
Definition key_valid (m : cmem V) (k : Z) : bool :=
  (cm_off m <=? k) && (k <=? Z.of_nat (cm_nkeys m) - 1 + cm_off m).

(* structures.py:446-463 _get_key: masked keys are replaced by min_key for verification only. *)
Definition cm_get_key (m : cmem V) (key : barg Z) (w : option (list bool)) : result (list Z) :=
  bind (expand RuntimeError (cm_batch m) key) (fun ks =>
  let checked := match w with
                 | None => ks
                 | Some ws => map2 (fun (b : bool) k => if b then k else if cm_verify m then cm_off m else 0) ws ks
                 end in
  if cm_verify m && negb (forallb (key_valid m) checked) then Err KeyError else Ok ks).

(* structures.py:532-540 _get_address (the per-lane index is the batch position itself). *)
Definition cm_address (m : cmem V) (key : barg Z) (w : option (list bool)) : result (list Z) :=
  rmap (map (fun k => k - cm_off m)) (cm_get_key m key w).

(* structures.py:542-553 get. *)
Definition cm_get (m : cmem V) (key : barg Z) : result (list V) :=
  bind (cm_address m key None) (fun addr => sequence (map2 lane_read (cm_data m) addr)).

Definition with_data (m : cmem V) (d : list (list V)) : cmem V :=
  mkCmem d (cm_nkeys m) (cm_offset m) (cm_verify m).

(* structures.py:555-694 set_, add_, subtract_, multiply_, divide_: one common shape
   (where, then address, then value, then read-modify-write of the addressed cells). *)
Definition cm_modify (m : cmem V) (f : option bool -> V -> V -> V)
    (key : barg Z) (value : barg V) (w : option (list bool)) : cmem V * result unit :=
  match
    bind (get_where (cm_batch m) w) (fun w =>
    bind (cm_address m key w) (fun addr =>
    bind (expand RuntimeError (cm_batch m) value) (fun vals =>
    sequence (map3 (fun lane a fv => lane_modify lane a fv)
                (cm_data m) addr (map2 (fun wi v old => f wi old v) (masks (cm_batch m) w) vals)))))
  with
  | Ok d => (with_data m d, Ok tt)
  | Err e => (m, Err e)
  end.

Definition cm_apply (mt : meth) (m : cmem V) := cm_modify m (meth_cell D mt).

(* structures.py:606-637 add_circular_ (mod is expanded like value; here one mod per call). *)
Definition circ_cell (md : V) (w : option bool) (old v : V) : V :=
  let new := d_mod D (d_add D old v) md in
  match w with None => new | Some b => if b then new else old end.
Definition cm_add_circular (m : cmem V) (key : barg Z) (value : barg V) (md : V) (w : option (list bool))
  : cmem V * result unit :=
  if d_isbool D then
    match bind (get_where (cm_batch m) w) (fun w =>
          bind (cm_address m key w) (fun _ => expand RuntimeError (cm_batch m) value)) with
    | Ok _ => (m, Err ValueError) | Err e => (m, Err e) end
  else cm_modify m (circ_cell md) key value w.

(* Operations of a CMemory as one datatype, for statements about histories. *)
Inductive cm_op :=
| CmGet (key : barg Z)
| CmApply (mt : meth) (key : barg Z) (value : barg V) (w : option (list bool))
| CmCirc (key : barg Z) (value : barg V) (md : V) (w : option (list bool)).

Definition cm_step (m : cmem V) (o : cm_op) : cmem V * result (list V) :=
  match o with
  | CmGet k => (m, cm_get m k)
  | CmApply mt k v w => let (m', r) := cm_apply mt m k v w in (m', rmap (fun _ => []) r)
  | CmCirc k v md w => let (m', r) := cm_add_circular m k v md w in (m', rmap (fun _ => []) r)
  end.
End CMemory.

Arguments CmGet {V}. Arguments CmApply {V}. Arguments CmCirc {V}.

(* Run a list of operations, collecting outputs (the history of a structure). *)
Fixpoint run {S O R} (step : S -> O -> S * R) (s : S) (os : list O) : S * list R :=
  match os with
  | [] => (s, [])
  | o :: t => let (s1, r) := step s o in let (s2, rs) := run step s1 t in (s2, r :: rs)
  end.

(* ------------------------------------------------------------------ CDict *)

(* structures.py:1127-1205: two memories; `_exist` is created without fill_with. *)
Record cdict (V : Type) := mkCdict { cd_data : cmem V; cd_exist : cmem bool }.
Arguments mkCdict {V}. Arguments cd_data {V}. Arguments cd_exist {V}.

Definition bool_ops : dops bool :=
  mkDops orb andb (fun a _ => a) negb (fun a => a) false true true.

Section CDict.
Context {V : Type} (D : dops V).

Inductive cd_op :=
| CdGet (key : barg Z) (default : option (barg V))
| CdContains (key : barg Z)
| CdApply (mt : meth) (key : barg Z) (value : barg V) (w : option (list bool))
| CdClear (w : option (list bool)).

Inductive cd_out := OutVals (l : list V) | OutBools (l : list bool) | OutUnit.

(* get: 1207-1224; set_: 1226-1239; add_/subtract_/divide_/multiply_: 1241-1311;
   contains: 1313-1324; clear: 1349-1366 (`self._exist.shape` does not exist: AttributeError). *)
Definition cd_step (d : cdict V) (o : cd_op) : cdict V * result cd_out :=
  match o with
  | CdGet k None => (d, rmap OutVals (cm_get (cd_data d) k))
  | CdGet k (Some df) =>
      (d, bind (cm_get (cd_exist d) k) (fun ex =>
          bind (expand RuntimeError (cm_batch (cd_data d)) df) (fun dfs =>
          bind (cm_get (cd_data d) k) (fun vs =>
          Ok (OutVals (map3 (fun (e : bool) v df => if e then v else df) ex vs dfs))))))
  | CdContains k => (d, rmap OutBools (cm_get (cd_exist d) k))
  | CdApply MSet k v w =>
      let (data', r) := cm_apply D MSet (cd_data d) k v w in
      match r with
      | Err e => (mkCdict data' (cd_exist d), Err e)
      | Ok _ => let (ex', r') := cm_apply bool_ops MSet (cd_exist d) k (Sc true) w in
                (mkCdict data' ex', rmap (fun _ => OutUnit) r')
      end
  | CdApply mt k v w =>
      let (data', r) := cm_apply D mt (cd_data d) k v w in
      (mkCdict data' (cd_exist d), rmap (fun _ => OutUnit) r)
  | CdClear None =>
      (mkCdict (cd_data d) (with_data (cd_exist d) (map (map (fun _ => false)) (cm_data (cd_exist d)))), Ok OutUnit)
  | CdClear (Some w) =>
      match get_where (cm_batch (cd_data d)) (Some w) with
      | Err e => (d, Err e)
      | Ok _ => (d, Err AttributeError)
      end
  end.
End CDict.
Arguments CdGet {V}. Arguments CdContains {V}. Arguments CdApply {V}. Arguments CdClear {V}.
Arguments OutVals {V}. Arguments OutBools {V}. Arguments OutUnit {V}.

(* ------------------------------------------------------------------ CList *)

(* One batch item of a CList: its part of _data, and its cells of _begin and _end.
   (structures.py:1595-1616; _begin/_end are one-key integer memories filled with -1.) *)
Record lane (V : Type) := mkLane { lbuf : list V; lbeg : Z; lend : Z }.
Arguments mkLane {V}. Arguments lbuf {V}. Arguments lbeg {V}. Arguments lend {V}.

Section CList.
Context {V : Type} (D : dops V).
Variable M : nat.            (* max_length *)
Variable verify : bool.
Variable fallback : V.       (* _pop_fallback, 1618-1621 *)

Let MZ := Z.of_nat M.

Definition is_empty (l : lane V) : bool := lbeg l =? -1.                        (* 1630-1632 *)
Definition has_one (l : lane V) : bool := (lbeg l =? lend l) && (0 <=? lbeg l). (* 1634-1637 *)
Definition is_full (l : lane V) : bool := ((lend l - lbeg l) mod MZ) =? (MZ - 1). (* 1639-1642 *)

(* one batch item's mask value: 1644-1646 *)
Definition sel (w : option bool) : bool := match w with None => true | Some b => b end.

(* 1648-1657 and 1659-1670: is the move rejected in this lane? *)
Definition add_rejected (l : lane V) (w : option bool) : bool := is_full l && sel w.
Definition rem_rejected (l : lane V) (w : option bool) : bool := is_empty l && sel w.

(* 1678-1682 *)
Definition move_end_forward (l : lane V) (w : option bool) : lane V :=
  let nonempty := is_empty l && sel w in
  let valid := (negb (is_empty l) && negb (is_full l)) && sel w in
  let b := if nonempty then 0 else lbeg l in
  let e := if nonempty then 0 else lend l in
  mkLane (lbuf l) b (if valid then (e + 1) mod MZ else e).
(* 1684-1688 *)
Definition move_begin_backward (l : lane V) (w : option bool) : lane V :=
  let nonempty := is_empty l && sel w in
  let valid := (negb (is_empty l) && negb (is_full l)) && sel w in
  let b := if nonempty then 0 else lbeg l in
  let e := if nonempty then 0 else lend l in
  mkLane (lbuf l) (if valid then (b + -1) mod MZ else b) e.
(* 1672-1676 *)
Definition move_begin_forward (l : lane V) (w : option bool) : lane V :=
  let toempty := has_one l && sel w in
  let valid := (negb (is_empty l) && negb (has_one l)) && sel w in
  let b := if toempty then -1 else lbeg l in
  let e := if toempty then -1 else lend l in
  mkLane (lbuf l) (if valid then (b + 1) mod MZ else b) e.
(* 1690-1694 *)
Definition move_end_backward (l : lane V) (w : option bool) : lane V :=
  let toempty := has_one l && sel w in
  let valid := (negb (is_empty l) && negb (has_one l)) && sel w in
  let b := if toempty then -1 else lbeg l in
  let e := if toempty then -1 else lend l in
  mkLane (lbuf l) b (if valid then (e + -1) mod MZ else e).

(* A move over the whole batch: the verification looks at all selected lanes first. *)
Definition move (rejected : lane V -> option bool -> bool) (mv : lane V -> option bool -> lane V)
    (ls : list (lane V)) (w : option (list bool)) : list (lane V) * result unit :=
  let ws := masks (length ls) w in
  if verify && existsb (fun b => b) (map2 rejected ls ws) then (ls, Err IndexError)
  else (map2 mv ls ws, Ok tt).

(* 1708-1722 *)
Definition ukey_valid (l : lane V) (u : Z) : bool :=
  let within := (0 <=? u) && (u <? MZ) in
  let b := lbeg l in let e := lend l in
  let empty := is_empty l in
  let larger_end := negb empty && (b <? e) in
  let smaller_end := negb empty && (e <? b) in
  let same := (b =? e) && negb empty in
  within && ((same && (u =? b))
             || (larger_end && (b <=? u) && (u <=? e))
             || (smaller_end && ((u <=? e) || (b <=? u)))).

(* 1724-1735 (the test uses self._verify, not the argument) *)
Definition mod_ukey (u : Z) : Z :=
  if verify then
    let too_large := MZ <=? u in
    let u1 := if u <? 0 then u + MZ else u in
    if too_large then u1 - MZ else u1
  else u mod MZ.

(* 1749-1752 *)
Definition ukey (l : lane V) (k : Z) : Z :=
  mod_ukey (if 0 <=? k then lbeg l + k else lend l + k + 1).

(* 1737-1767, with verify as given *)
Definition get_ukeys (ls : list (lane V)) (key : barg Z) (vf : bool) (w : option (list bool))
  : result (list Z * list bool) :=
  bind (get_where (length ls) w) (fun w =>
  bind (expand ValueError (length ls) key) (fun ks =>
  let us := map2 ukey ls ks in
  let valid := map2 ukey_valid ls us in
  let okay := map2 (fun v wi => v || negb (sel wi)) valid (masks (length ls) w) in
  if vf && negb (forallb (fun b => b) okay) then Err IndexError else Ok (us, valid))).

(* 1769-1787 *)
Definition cl_get (ls : list (lane V)) (key : barg Z) (default : option (barg V)) : result (list V) :=
  match default with
  | None => bind (get_ukeys ls key verify None) (fun uv =>
            sequence (map2 (fun l u => lane_read (lbuf l) u) ls (fst uv)))
  | Some df =>
      bind (expand RuntimeError (length ls) df) (fun dfs =>
      bind (get_ukeys ls key false None) (fun uv =>
      bind (sequence (map2 (fun l u => lane_read (lbuf l) (u mod MZ)) ls (fst uv))) (fun vs =>
      Ok (map3 (fun (ok : bool) v d => if ok then v else d) (snd uv) vs dfs))))
  end.

(* 1801-1805 with CMemory's read-modify-write (verify=False there) *)
Definition cl_apply (mt : meth) (ls : list (lane V)) (key : barg Z) (value : barg V) (w : option (list bool))
  : list (lane V) * result unit :=
  match
    bind (get_ukeys ls key verify w) (fun uv =>
    bind (get_where (length ls) w) (fun w =>
    bind (expand RuntimeError (length ls) value) (fun vals =>
    sequence (map3 (fun l u fv => rmap (fun b => mkLane b (lbeg l) (lend l)) (lane_modify (lbuf l) u fv))
       ls (fst uv) (map2 (fun wi v old => meth_cell D mt wi old v) (masks (length ls) w) vals)))))
  with
  | Ok ls' => (ls', Ok tt)
  | Err e => (ls, Err e)
  end.

Inductive cl_op :=
| ClAppend (v : barg V) (w : option (list bool))
| ClAppendLeft (v : barg V) (w : option (list bool))
| ClPop (w : option (list bool))
| ClPopLeft (w : option (list bool))
| ClApply (mt : meth) (k : barg Z) (v : barg V) (w : option (list bool))
| ClGet (k : barg Z) (default : option (barg V))
| ClLength
| ClClear (w : option (list bool)).

Inductive cl_out := COVals (l : list V) | COLens (l : list Z) | COUnit.

(* 2005-2014 *)
Definition lane_length (l : lane V) : Z :=
  let r := ((lend l - lbeg l) mod MZ) + 1 in
  let r := if is_empty l then 0 else r in
  if is_full l then MZ else r.

Definition cl_pop rejected mv (pos : Z) (ls : list (lane V)) (w : option (list bool))
  : list (lane V) * result cl_out :=
  match get_where (length ls) w with
  | Err e => (ls, Err e)
  | Ok w =>
    match cl_get ls (Sc pos) (Some (Sc fallback)) with
    | Err e => (ls, Err e)
    | Ok vs => let (ls', r) := move rejected mv ls w in (ls', rmap (fun _ => COVals vs) r)
    end
  end.

Definition cl_push rejected mv (pos : Z) (ls : list (lane V)) (v : barg V) (w : option (list bool))
  : list (lane V) * result cl_out :=
  match get_where (length ls) w with
  | Err e => (ls, Err e)
  | Ok w =>
    let (ls1, r) := move rejected mv ls w in
    match r with
    | Err e => (ls1, Err e)
    | Ok _ => let (ls2, r2) := cl_apply MSet ls1 (Sc pos) v w in (ls2, rmap (fun _ => COUnit) r2)
    end
  end.

(* append_ 1890-1909, appendleft_ 1919-1938, pop_ 1940-1956, popleft_ 1958-1974,
   clear 1976-1995 (`self._begin.shape` does not exist: AttributeError), length 2005-2014. *)
Definition cl_step (ls : list (lane V)) (o : cl_op) : list (lane V) * result cl_out :=
  match o with
  | ClAppend v w => cl_push add_rejected move_end_forward (-1) ls v w
  | ClAppendLeft v w => cl_push add_rejected move_begin_backward 0 ls v w
  | ClPop w => cl_pop rem_rejected move_end_backward (-1) ls w
  | ClPopLeft w => cl_pop rem_rejected move_begin_forward 0 ls w
  | ClApply mt k v w => let (ls', r) := cl_apply mt ls k v w in (ls', rmap (fun _ => COUnit) r)
  | ClGet k df => (ls, rmap COVals (cl_get ls k df))
  | ClLength => (ls, Ok (COLens (map lane_length ls)))
  | ClClear None => (map (fun l => mkLane (lbuf l) (-1) (-1)) ls, Ok COUnit)
  | ClClear (Some w) =>
      match get_where (length ls) (Some w) with
      | Err e => (ls, Err e)
      | Ok _ => (ls, Err AttributeError)
      end
  end.

(* A new list: uninitialised buffers (torch.empty), both markers -1. *)
Definition cl_new (bufs : list (list V)) : list (lane V) := map (fun b => mkLane b (-1) (-1)) bufs.
End CList.
Arguments ClAppend {V}. Arguments ClAppendLeft {V}. Arguments ClPop {V}. Arguments ClPopLeft {V}.
Arguments ClApply {V}. Arguments ClGet {V}. Arguments ClLength {V}. Arguments ClClear {V}.
Arguments COVals {V}. Arguments COLens {V}. Arguments COUnit {V}.

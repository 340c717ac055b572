(* Model of the assertions in testing.py.
   Simplifications: arrays are shapes with functions of the index; there are floating point dtypes, with exact numbers,
   infinities and NaN, and integer dtypes without overflow; what numpy makes of NaN and infinities when casting to integers
   is an oracle.  Tolerances are finite.  Booleans, objects, complex numbers and ragged lists are left out. *)
From Coq Require Import QArith Qabs Qround.
From Verif Require Import Prelude ExtQ.
Close Scope Q_scope.
Open Scope nat_scope.

Inductive dtype := Float (bits : nat) | Int (bits : nat).
Definition dtype_eqb (a b : dtype) : bool :=
  match a, b with Float m, Float n => m =? n | Int m, Int n => m =? n | _, _ => false end.
Record arr := mkA { a_shape : list nat; a_at : list nat -> xq; a_dtype : dtype }.
(* an argument: an array, tensor, solution or batch; or nested lists and numbers, which become float32 unless a dtype is asked for *)
Inductive arg := Array (a : arr) | Nested (shape : list nat) (at_ : list nat -> xq).
Inductive outcome := Passed | Failed | TestingError | Raised (e : exn).

(* int(x) *)
Definition trunc (q : Q) : Z := if Qle_bool 0 q then Qfloor q else Qceiling q.
Section Cast.
Variable special : xq -> Z.
(* astype *)
Definition cast_value (d : dtype) (x : xq) : xq :=
  match d with
  | Float _ => x
  | Int _ => match x with XF q => XF (inject_Z (trunc q)) | _ => XF (inject_Z (special x)) end
  end.
Definition astype (d : dtype) (a : arr) : arr := mkA (a_shape a) (fun ix => cast_value d (a_at a ix)) d.
(* testing.py:48-70 _to_numpy *)
Definition to_numpy (x : arg) (d : option dtype) : arr :=
  match x with
  | Array a => match d with None => a | Some d => astype d a end
  | Nested sh f => let d := match d with None => Float 32 | Some d => d end in astype d (mkA sh f d)
  end.

(* all indices of an array *)
Fixpoint indices (shape : list nat) : list (list nat) :=
  match shape with [] => [[]] | n :: r => flat_map (fun i => map (cons i) (indices r)) (seq 0 n) end.
Definition shape_eqb (a b : list nat) : bool := if list_eq_dec Nat.eq_dec a b then true else false.
(* numpy.isclose: equal infinities, equal NaN if wanted, otherwise |a - b| <= atol + rtol * |b| *)
Definition isclose (rtol atol : Q) (equal_nan : bool) (a b : xq) : bool :=
  match a, b with
  | XF p, XF q => Qle_bool (Qabs (p - q)) (atol + rtol * Qabs q)
  | XPI, XPI => true
  | XNI, XNI => true
  | XNaN, XNaN => equal_nan
  | _, _ => false
  end.
(* numpy.testing.assert_allclose: equal shapes, or one of the two is a number *)
Definition np_assert_allclose (actual desired : arr) (rtol atol : Q) (equal_nan : bool) : outcome :=
  match a_shape actual, a_shape desired with
  | [], sh => if forallb (fun ix => isclose rtol atol equal_nan (a_at actual []) (a_at desired ix)) (indices sh) then Passed else Failed
  | sh, [] => if forallb (fun ix => isclose rtol atol equal_nan (a_at actual ix) (a_at desired [])) (indices sh) then Passed else Failed
  | sh, sh' => if shape_eqb sh sh'
               then if forallb (fun ix => isclose rtol atol equal_nan (a_at actual ix) (a_at desired ix)) (indices sh) then Passed else Failed
               else Failed
  end.
(* testing.py:97-151 assert_allclose *)
Definition assert_allclose (actual desired : arg) (rtol atol : option Q) (equal_nan : bool) : outcome :=
  match rtol, atol with
  | None, None => TestingError
  | _, _ =>
      let rtol := match rtol with Some r => r | None => 0%Q end in
      let atol := match atol with Some r => r | None => 0%Q end in
      let desired := to_numpy desired None in
      let actual := to_numpy actual (Some (a_dtype desired)) in
      np_assert_allclose actual desired rtol atol equal_nan
  end.

(* numpy.broadcast_to: dimensions are compared from the right *)
Definition fits (src shape : list nat) : bool :=
  (length src <=? length shape) &&
  forallb (fun p => (fst p =? 1) || (fst p =? snd p)) (combine (rev src) (rev shape)).
Definition source_index (src ix : list nat) : list nat :=
  map2 (fun d i => if d =? 1 then 0 else i) src (skipn (length ix - length src) ix).
Definition broadcast_to (a : arr) (shape : list nat) : result arr :=
  if fits (a_shape a) shape then Ok (mkA shape (fun ix => a_at a (source_index (a_shape a) ix)) (a_dtype a)) else Err ValueError.
Definition fit (a : arr) (shape : list nat) : result arr := if shape_eqb (a_shape a) shape then Ok a else broadcast_to a shape.
(* testing.py:154-195 assert_almost_between *)
Definition assert_almost_between (x lb ub : arg) (atol : option Q) : outcome :=
  let x := to_numpy x None in
  match fit (to_numpy lb None) (a_shape x), fit (to_numpy ub None) (a_shape x) with
  | Ok lb, Ok ub =>
      let lb := astype (a_dtype x) lb in
      let ub := astype (a_dtype x) ub in
      let low := match atol with Some t => fun ix => xsub (a_at lb ix) (XF t) | None => a_at lb end in
      let high := match atol with Some t => fun ix => xadd (a_at ub ix) (XF t) | None => a_at ub end in
      if forallb (fun ix => xleb (low ix) (a_at x ix) && xleb (a_at x ix) (high ix)) (indices (a_shape x)) then Passed else Failed
  | Err e, _ => Raised e
  | _, Err e => Raised e
  end.

(* testing.py:227-248 assert_shape_matches: an integer or a tuple; x as a tensor *)
Inductive expected_shape := Size (n : nat) | Tuple (s : list nat).
Definition shape_of (x : arg) : list nat := match x with Array a => a_shape a | Nested s _ => s end.
Definition assert_shape_matches (x : arg) (s : expected_shape) : outcome :=
  let s := match s with Size n => [n] | Tuple s => s end in
  if shape_eqb (shape_of x) s then Passed else Failed.
(* testing.py:198-224 assert_dtype_matches *)
Definition assert_dtype_matches (a : arr) (d : dtype) : outcome := if dtype_eqb d (a_dtype a) then Passed else Failed.

(* testing.py:251-270 assert_eachclose; desired[:] needs at least one dimension, and a NaN or an infinity cannot be stored
   in an array of integers (the OverflowError for infinities is written as ValueError) *)
Definition assert_eachclose (x : arg) (value : xq) (rtol atol : option Q) : outcome :=
  let x := to_numpy x None in
  match a_shape x with
  | [] => Raised IndexError
  | _ =>
    match a_dtype x, value with
    | Int _, XNaN | Int _, XPI | Int _, XNI => Raised ValueError
    | _, _ => assert_allclose (Array x) (Array (mkA (a_shape x) (fun _ => cast_value (a_dtype x) value) (a_dtype x))) rtol atol true
    end
  end.
End Cast.

(* Model of RunningNorm and ObsNormLayer (neuroevolution/net/runningnorm.py), RunningStat (neuroevolution/net/runningstat.py)
   and of the exchange of observation statistics between a neuroevolution problem and its actors (gymne.py, vecgymne.py).
   Real arithmetic; None is NaN (inputs are real numbers or NaN, not infinite). An observation is a flat row of n_dim numbers
   (observations of several dimensions are treated as flattened); devices are not modelled, and dtypes only through the
   question whether torch.as_tensor returns the given tensor itself (last section). *)
From Coq Require Import Reals.
From Verif Require Import Prelude.
Close Scope R_scope.
Open Scope nat_scope.

Definition num := option R.
Definition nlift2 (f : R -> R -> R) (a b : num) : num := match a, b with Some x, Some y => Some (f x y) | _, _ => None end.
Definition nadd := nlift2 Rplus.
Definition nsub := nlift2 Rminus.
Definition nmul := nlift2 Rmult.
(* 0/0 is NaN; a number other than 0 is never divided by 0 here *)
Definition ndiv (a b : num) : num :=
  match a, b with Some x, Some y => if Req_EM_T y 0 then None else Some (x / y)%R | _, _ => None end.
Definition nsqrt (a : num) : num := option_map sqrt a.
Definition nsquare (a : num) : num := nmul a a.

(* runningnorm.py:27-44 (_clamp); torch.clamp lets the upper bound win, and keeps NaN *)
Definition clamp (lo hi : option R) (x : num) : num :=
  match x with
  | None => None
  | Some v =>
      let v := match lo with Some l => Rmax v l | None => v end in
      Some (match hi with Some h => Rmin v h | None => v end)
  end.

(* runningnorm.py:97-112: the stored data. n_count is an int, never negative *)
Record norm := Norm {
  n_dim : nat; n_sum : option (list num); n_sq : option (list num); n_count : nat;
  n_minvar : R; n_lb : option R; n_ub : option R }.

(* runningnorm.py:83-112 (__init__) *)
Definition new_norm (d : nat) (minvar : R) (clip : option (R * R)) : norm :=
  Norm d None None 0 minvar (option_map fst clip) (option_map snd clip).
Definition with_data (s : norm) (sm sq : option (list num)) (n : nat) : norm :=
  Norm (n_dim s) sm sq n (n_minvar s) (n_lb s) (n_ub s).
(* runningnorm.py:220-226 (reset) *)
Definition reset (s : norm) : norm := with_data s None None 0.

(* What update/normalize may get: one observation, a batch of rows of width w, or a tensor with another number of dimensions. *)
Inductive input :=
| XOne (x : list num)
| XBatch (w : nat) (rows : list (list num))
| XOther.

(* runningnorm.py:190-212 (_verify); the message of the first error reads the missing attribute x._shape *)
Definition verify (s : norm) (x : input) : result unit :=
  match x with
  | XOne x => if length x =? n_dim s then Ok tt else Err AttributeError
  | XBatch w _ => if w =? n_dim s then Ok tt else Err ValueError
  | XOther => Err ValueError
  end.

(* runningnorm.py:214-218 *)
Definition has_no_data (s : norm) : bool :=
  match n_sum s, n_sq s with None, None => n_count s =? 0 | _, _ => false end.
Definition has_data (s : norm) : bool :=
  match n_sum s, n_sq s with Some _, Some _ => 0 <? n_count s | _, _ => false end.

(* torch.sum(x, dim=0) of rows of width d *)
Definition col_sum (d : nat) (rows : list (list num)) : list num := fold_left (map2 nadd) rows (repeat (Some 0%R) d).
(* runningnorm.py:359: the number of True items *)
Definition count_true (m : list bool) : nat := length (filter (fun b => b) m).
(* runningnorm.py:361-368: rows times the mask turned into numbers *)
Definition apply_mask (m : list bool) (rows : list (list num)) : list (list num) :=
  map2 (fun (b : bool) r => map (nmul (Some (if b then 1%R else 0%R))) r) m rows.

(* runningnorm.py:304-384: the sum, the sum of squares and the number of observations extracted from x.
   A mask is a list of bools (ndim 1) or None; masks with other numbers of dimensions raise ValueError as the length check does *)
Definition extract (s : norm) (x : input) (mask : option (list bool)) : result (list num * list num * nat) :=
  match x with
  | XOne x =>
      match mask with
      | Some _ => Err ValueError
      | None => Ok (x, map nsquare x, 1)
      end
  | XBatch w rows =>
      match mask with
      | Some m =>
          if negb (length m =? length rows) then Err ValueError
          else let xs := apply_mask m rows in
               Ok (col_sum w xs, col_sum w (map (map nsquare) xs), count_true m)
      | None => Ok (col_sum w rows, col_sum w (map (map nsquare) rows), length rows)
      end
  | XOther => Err ValueError
  end.

(* runningnorm.py:391-408: store or accumulate *)
Definition accumulate (s : norm) (sm sq : list num) (n : nat) : result norm :=
  if has_no_data s then Ok (with_data s (Some sm) (Some sq) n)
  else if has_data s then
    match n_sum s, n_sq s with
    | Some a, Some b => Ok (with_data s (Some (map2 nadd a sm)) (Some (map2 nadd b sq)) (n_count s + n))
    | _, _ => Err AssertionError
    end
  else Err AssertionError.

(* runningnorm.py:295-408 (update, the argument is a tensor; verify=True) *)
Definition update (s : norm) (x : input) (mask : option (list bool)) : result norm :=
  bind (verify s x) (fun _ =>
  bind (extract s x mask) (fun '(sm, sq, n) => accumulate s sm sq n)).

(* runningnorm.py:253-294 (update, the argument is another RunningNorm) *)
Definition merge (s x : norm) (mask : option (list bool)) : result norm :=
  if 0 <? n_count x then
    match mask with
    | Some _ => Err ValueError
    | None =>
        if negb (n_dim s =? n_dim x) then Err ValueError
        else match n_sum x, n_sq x with
             | Some a, Some b => accumulate s a b (n_count x)
             | _, _ => Err AttributeError
             end
    end
  else Ok s.

(* runningnorm.py:410-433 (stats), 435-440 (mean); without data the attributes are None: TypeError *)
Definition count_num (s : norm) : num := Some (INR (n_count s)).
Definition mean (s : norm) : result (list num) :=
  match n_sum s with Some a => Ok (map (fun v => ndiv v (count_num s)) a) | None => Err TypeError end.
Definition stats (s : norm) : result (list num * list num) :=
  match n_sum s, n_sq s with
  | Some a, Some b =>
      let ex := map (fun v => ndiv v (count_num s)) a in
      let ex2 := map (fun v => ndiv v (count_num s)) b in
      let var := map2 (fun e2 e => clamp (Some (n_minvar s)) None (nsub e2 (nsquare e))) ex2 ex in
      Ok (ex, map nsqrt var)
  | _, _ => Err TypeError
  end.
Definition stdev (s : norm) : result (list num) := rmap snd (stats s).

(* runningnorm.py:522-524 and 612-621: clamp((x - mean) / stdev, lb, ub) of one row *)
Definition normalize_row (m sd : list num) (lb ub : option R) (x : list num) : list num :=
  map2 (fun v q => clamp lb ub (ndiv v q)) (map2 nsub x m) sd.
Definition normalize_input (m sd : list num) (lb ub : option R) (x : input) : input :=
  match x with
  | XOne x => XOne (normalize_row m sd lb ub x)
  | XBatch w rows => XBatch w (map (normalize_row m sd lb ub) rows)
  | XOther => XOther
  end.
(* runningnorm.py:470-532 (normalize; the conversion of the result to numpy is left out) *)
Definition normalize (s : norm) (x : input) : result input :=
  if n_count s =? 0 then Err ValueError
  else bind (verify s x) (fun _ => bind (stats s) (fun '(m, sd) => Ok (normalize_input m sd (n_lb s) (n_ub s) x))).

(* runningnorm.py:534-562 (update_and_normalize): the new state, or the state left behind by an error with that error *)
Definition update_and_normalize (s : norm) (x : input) (mask : option (list bool)) : norm * result input :=
  match bind (verify s x) (fun _ => bind (extract s x mask) (fun '(sm, sq, n) => accumulate s sm sq n)) with
  | Err e => (s, Err e)
  | Ok s' =>
      (s', if n_count s' =? 0 then Err ValueError
           else bind (stats s') (fun '(m, sd) => Ok (normalize_input m sd (n_lb s') (n_ub s') x)))
  end.

(* runningnorm.py:583-621 (ObsNormLayer) and 564-574 (to_layer) *)
Record layer := Layer { l_mean : list num; l_stdev : list num; l_lb : option R; l_ub : option R }.
Definition to_layer (s : norm) : result layer :=
  bind (stats s) (fun '(m, sd) => Ok (Layer m sd (n_lb s) (n_ub s))).
Definition layer_forward (l : layer) (x : list num) : list num := normalize_row (l_mean l) (l_stdev l) (l_lb l) (l_ub l) x.

(* ---- RunningStat (runningstat.py): a RunningNorm which is created by the first observation ---- *)
Definition rstat := option norm.
(* runningnorm.py:58: the default of min_variance, 1e-2 *)
Definition default_minvar : R := (1 / 100)%R.
(* runningstat.py:53-60 *)
Definition rs_count (r : rstat) : nat := match r with None => 0 | Some s => n_count s end.
(* runningstat.py:105-109: update with an observation (the array passed by the caller is one observation) *)
Definition rs_update (r : rstat) (x : list num) : result rstat :=
  let s := match r with None => new_norm (length x) default_minvar None | Some s => s end in
  rmap Some (update s (XOne x) None).
(* runningstat.py:99-104: update with another RunningStat *)
Definition rs_merge (r x : rstat) : result rstat :=
  if 0 <? rs_count x then
    match r, x with
    | None, _ => Ok x
    | Some s, Some sx => rmap Some (merge s sx None)
    | Some s, None => Ok r
    end
  else Ok r.
(* runningstat.py:111-119: without statistics the argument itself is returned *)
Definition rs_normalize (r : rstat) (x : list num) : result (list num) :=
  match r with
  | None => Ok x
  | Some s => bind (normalize s (XOne x)) (fun y => match y with XOne v => Ok v | _ => Err TypeError end)
  end.

(* ---- tensors with identity: what the statistics share with the arrays of the caller ---- *)
(* The heap maps addresses to tensors (rows). *)
Definition heap := list (list num).
Record hnorm := HNorm { h_dim : nat; h_sum : option nat; h_sq : option nat; h_count : nat }.
Definition new_hnorm (d : nat) : hnorm := HNorm d None None 0.
Definition hread (h : heap) (a : nat) : list num := nth a h [].
Definition h_has_no_data (s : hnorm) : bool := match h_sum s, h_sq s with None, None => h_count s =? 0 | _, _ => false end.
Definition h_has_data (s : hnorm) : bool := match h_sum s, h_sq s with Some _, Some _ => 0 <? h_count s | _, _ => false end.

(* runningnorm.py:391-408 with addresses: `self._sum = sum_of_x` stores the tensor itself, `self._sum += ...` writes in place *)
Definition h_accumulate (h : heap) (s : hnorm) (asum asq n : nat) : result (heap * hnorm) :=
  if h_has_no_data s then Ok (h, HNorm (h_dim s) (Some asum) (Some asq) n)
  else if h_has_data s then
    match h_sum s, h_sq s with
    | Some a, Some b =>
        let h1 := upd h a (map2 nadd (hread h a) (hread h asum)) in
        let h2 := upd h1 b (map2 nadd (hread h1 b) (hread h1 asq)) in
        Ok (h2, HNorm (h_dim s) (Some a) (Some b) (h_count s + n))
    | _, _ => Err AssertionError
    end
  else Err AssertionError.

Inductive hop :=
| HOne (i : nat) (x : nat) (same : bool)  (* norm i .update(the tensor at address x); same: its dtype and device already fit *)
| HBatch (i : nat) (rows : list nat) (mask : option (list bool))  (* norm i .update(batch made of these tensors, mask) *)
| HMerge (i j : nat).                     (* norm i .update(norm j) *)

Definition hsys := (heap * list hnorm)%type.
Definition as_norm (h : heap) (s : hnorm) : norm :=
  Norm (h_dim s) (option_map (hread h) (h_sum s)) (option_map (hread h) (h_sq s)) (h_count s) 0%R None None.

(* runningnorm.py:228-408 on the heap. New tensors are appended. An error leaves the system as it was. *)
Definition hstep (sys : hsys) (o : hop) : result hsys :=
  let (h, ns) := sys in
  match o with
  | HOne i x same =>
      match nth_error ns i with
      | None => Err KeyError
      | Some s =>
          let v := hread h x in
          bind (verify (as_norm h s) (XOne v)) (fun _ =>
          (* torch.as_tensor (runningnorm.py:187-188) gives the tensor itself, or a converted copy *)
          let (h1, ax) := if same then (h, x) else (h ++ [v], length h) in
          (* runningnorm.py:325-326: sum_of_x is x itself, x.square() is new *)
          let h2 := h1 ++ [map nsquare v] in
          bind (h_accumulate h2 s ax (length h1) 1) (fun '(h3, s') => Ok (h3, upd ns i s')))
      end
  | HBatch i rows mask =>
      match nth_error ns i with
      | None => Err KeyError
      | Some s =>
          let x := XBatch (h_dim s) (map (hread h) rows) in
          bind (extract (as_norm h s) x mask) (fun '(sm, sq, n) =>
          let h2 := h ++ [sm; sq] in
          bind (h_accumulate h2 s (length h) (length h + 1) n) (fun '(h3, s') => Ok (h3, upd ns i s')))
      end
  | HMerge i j =>
      match nth_error ns i, nth_error ns j with
      | Some s, Some x =>
          if 0 <? h_count x then
            if negb (h_dim s =? h_dim x) then Err ValueError
            else match h_sum x, h_sq x with
                 | Some a, Some b =>
                     (* runningnorm.py:281-292: cloned when empty, added in place otherwise *)
                     if h_has_no_data s then
                       let h2 := h ++ [hread h a; hread h b] in
                       Ok (h2, upd ns i (HNorm (h_dim s) (Some (length h)) (Some (length h + 1)) (h_count x)))
                     else
                       bind (h_accumulate h s a b (h_count x)) (fun '(h3, s') => Ok (h3, upd ns i s'))
                 | _, _ => Err AttributeError
                 end
          else Ok sys
      | _, _ => Err KeyError
      end
  end.
(* a run of a program which goes on after a refused operation *)
Definition hrun (sys : hsys) (os : list hop) : hsys :=
  fold_left (fun sys o => match hstep sys o with Ok sys' => sys' | Err _ => sys end) os sys.

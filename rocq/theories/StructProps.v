(* Property theorems of the structures area (C01-C08).  Lemmas are proved elsewhere. *)
From Verif Require Import Prelude StructModel StructSpec CListRefine CListLanes CMemProofs CBagModel CBagSpec
  CBagProofs StructExtra StructMultiBatchModel StructMultiBatchProofs.
Open Scope Z_scope.

(* C01: whatever the uninitialised buffers contain, every covered history of a CList of
   capacity M >= 2 has exactly the outputs (values, lengths, errors) of bounded queues. *)
Theorem C01_clist_is_bounded_deque :
  forall (V : Type) (D : dops V) (M : nat) (verify : bool) (fallback : V),
  (2 <= M)%nat -> unit_laws D ->
  forall bufs, Forall (fun b : list V => length b = M) bufs ->
  forall os, forallb (op_covered D M (length bufs)) os = true ->
  verify = true \/ forallb is_ok (snd (run (q_step D M fallback) (map (fun _ => []) bufs) os)) = true ->
  snd (run (cl_step D M verify fallback) (cl_new bufs) os) =
  snd (run (q_step D M fallback) (map (fun _ => []) bufs) os).
Proof. intros V D M verify fallback. exact (clist_deque D M verify fallback). Qed.
Print Assumptions C01_clist_is_bounded_deque.

Definition C01_ops : list (cl_op (V := Z)) :=
  [ClAppend (Ba [1; 2]) None; ClAppendLeft (Sc 5) (Some [true; false]); ClAppend (Sc 9) (Some [false; true]);
   ClLength; ClPop None; ClApply MAdd (Sc (-1)) (Sc 10) None; ClGet (Sc 0) None; ClPopLeft None; ClPop None; ClLength].
Example C01_example :
  forallb (op_covered zops 2 2) C01_ops = true /\
  snd (run (cl_step zops 2 true 0) (cl_new [[77; 78]; [79; 80]]) C01_ops) =
  [Ok COUnit; Ok COUnit; Ok COUnit; Ok (COLens [2; 2]); Ok (COVals [1; 9]); Ok COUnit; Ok (COVals [15; 12]);
   Ok (COVals [15; 12]); Err IndexError; Ok (COLens [0; 0])].
Proof. split; vm_compute; reflexivity. Qed.

(* C02: in a history that raises no error, batch item i sees exactly what a CList of its own
   would show for its part of the requests. *)
Theorem C02_clist_items_independent :
  forall (V : Type) (D : dops V) (M : nat) (verify : bool) (fallback : V) os ls i l,
  nth_error ls i = Some l ->
  forallb is_ok (snd (run (cl_step D M verify fallback) ls os)) = true ->
  snd (run (cl_step D M verify fallback) [l] (map (lane_op i) os)) =
    map (rmap (lane_out i)) (snd (run (cl_step D M verify fallback) ls os)) /\
  exists l', nth_error (fst (run (cl_step D M verify fallback) ls os)) i = Some l' /\
    fst (run (cl_step D M verify fallback) [l] (map (lane_op i) os)) = [l'].
Proof. intros V D M verify fallback. exact (run_lane D M verify fallback). Qed.
Print Assumptions C02_clist_items_independent.

Theorem C02_clist_masked_items_untouched :
  forall (V : Type) (D : dops V) (M : nat) (verify : bool) (fallback : V), unit_laws D ->
  forall os ls i l,
  nth_error ls i = Some l ->
  forallb is_ok (snd (run (cl_step D M verify fallback) ls os)) = true ->
  Forall (fun o => match op_mask o with Some w => nth_error w i = Some false
                   | None => match o with ClGet _ _ | ClLength => True | _ => False end end) os ->
  nth_error (fst (run (cl_step D M verify fallback) ls os)) i = Some l.
Proof. intros V D M verify fallback. exact (masked_run D M verify fallback). Qed.
Print Assumptions C02_clist_masked_items_untouched.

Example C02_example :
  let ls := [mkLane [1; 2; 3] 1 0; mkLane [4; 5; 6] 0 0] in
  let os := [ClPop (Some [true; false]); ClLength; ClApply MMul (Sc 0) (Sc 7) (Some [true; false]); ClGet (Sc 0) None] in
  forallb is_ok (snd (run (cl_step zops 3 true 0) ls os)) = true /\
  snd (run (cl_step zops 3 true 0) ls os) = [Ok (COVals [1; 4]); Ok (COLens [2; 1]); Ok COUnit; Ok (COVals [14; 4])] /\
  nth_error (fst (run (cl_step zops 3 true 0) ls os)) 1 = Some (mkLane [4; 5; 6] 0 0).
Proof. repeat split; vm_compute; reflexivity. Qed.

(* C03: false of the code, for every element type, value and batch. *)
Theorem C03_capacity_one_refuted :
  forall (V : Type) (D : dops V) (fallback v : V) bufs, bufs <> [] ->
  cl_step D 1 true fallback (cl_new bufs) (ClAppend (Sc v) None) = (cl_new bufs, Err IndexError) /\
  cl_step D 1 true fallback (cl_new bufs) ClLength = (cl_new bufs, Ok (COLens (map (fun _ => 1) bufs))).
Proof. intros V D. exact (cap1_append D). Qed.
Print Assumptions C03_capacity_one_refuted.

Theorem C03_index_max_length_refuted :
  forall (V : Type) (D : dops V) M fallback (v : V) (buf : list V), (2 <= M)%nat -> length buf = M ->
  exists s, cl_step D M true fallback (cl_new [buf]) (ClAppend (Sc v) None) = (s, Ok COUnit) /\
    cl_step D M true fallback s ClLength = (s, Ok (COLens [1])) /\
    cl_step D M true fallback s (ClGet (Sc (Z.of_nat M)) None) = (s, Ok (COVals [v])).
Proof. intros V D. exact (wrap_get D). Qed.
Print Assumptions C03_index_max_length_refuted.

(* Failing append_ because of a wrongly shaped value still moves the end of the list. *)
Theorem C03_append_not_exception_safe_refuted :
  exists (s : list (lane Z)),
    cl_step zops 3 true 0 (cl_new [[0; 0; 0]; [0; 0; 0]]) (ClAppend (Ba [1; 2; 3]) None) = (s, Err RuntimeError) /\
    cl_step zops 3 true 0 s ClLength = (s, Ok (COLens [1; 1])).
Proof. eexists. split; vm_compute; reflexivity. Qed.
Print Assumptions C03_append_not_exception_safe_refuted.

Theorem C62_clist_masked_clear_refuted :
  forall (V : Type) (D : dops V) M verify fallback (ls : list (lane V)) (w : list bool), length w = length ls ->
  cl_step D M verify fallback ls (ClClear (Some w)) = (ls, Err AttributeError).
Proof. intros V D. exact (masked_clear_fails D). Qed.
Print Assumptions C62_clist_masked_clear_refuted.

(* C04: a CMemory created with any contents is an array of independent cells. *)
Theorem C04_cmemory_is_array_of_cells :
  forall (V : Type) (D : dops V) (d0 : V) data K offset vf, (1 <= K)%nat -> unit_laws D ->
  Forall (fun lane : list V => length lane = K) data ->
  let off := match offset with None => 0 | Some o => o end in
  let m := mkCmem data K offset vf in
  forall os, forallb (mem_covered D (length data) off K) os = true ->
  vf = true \/ forallb is_ok (snd (run (mem_step D (length data) off K) (cells_of d0 off data) os)) = true ->
  snd (run (cm_step D) m os) = snd (run (mem_step D (length data) off K) (cells_of d0 off data) os).
Proof. intros V D. exact (cmem_cells D). Qed.
Print Assumptions C04_cmemory_is_array_of_cells.

Definition C04_ops : list (cm_op (V := Z)) :=
  [CmApply MSet (Ba [5; 6]) (Sc 8) None; CmGet (Sc 6); CmApply MAdd (Sc 6) (Ba [1; 2]) (Some [false; true]);
   CmGet (Sc 6); CmApply MSet (Sc 8) (Sc 0) None; CmCirc (Sc 5) (Sc 9) 7 None; CmGet (Sc 5)].
Example C04_example :
  forallb (mem_covered zops 2 5 3) C04_ops = true /\
  snd (run (cm_step zops) (mkCmem [[1; 2; 3]; [4; 5; 6]] 3 (Some 5) true) C04_ops) =
  [Ok []; Ok [2; 8]; Ok []; Ok [2; 10]; Err KeyError; Ok []; Ok [3; 6]].
Proof. split; vm_compute; reflexivity. Qed.

(* A key of a masked-out batch item is not used, yet far enough out of range it makes the call fail. *)
Theorem C04_masked_key_refuted :
  cm_apply zops MSet (mkCmem [[1; 2]; [3; 4]] 2 None true) (Ba [0; 50]) (Sc 9) (Some [true; false])
  = (mkCmem [[1; 2]; [3; 4]] 2 None true, Err IndexError).
Proof. vm_compute. reflexivity. Qed.
Print Assumptions C04_masked_key_refuted.

(* C05: without `where`, multiply_ is add_ for every non-boolean memory ... *)
Theorem C05_multiply_adds_refuted :
  forall (V : Type) (D : dops V) (m : cmem V) k v, d_isbool D = false ->
  cm_apply D MMul m k v None = cm_apply D MAdd m k v None.
Proof. intros V D. exact (multiply_adds D). Qed.
Print Assumptions C05_multiply_adds_refuted.
Example C05_refuted_example :
  snd (run (cm_step zops) (mkCmem [[10]] 1 None true) [CmApply MMul (Sc 0) (Sc 5) None; CmGet (Sc 0)]) = [Ok []; Ok [15]].
Proof. vm_compute. reflexivity. Qed.

(* ... with `where` it scales the selected cells and no other. *)
Theorem C05_masked_scaling_partial :
  forall (V : Type) (D : dops V) (d0 : V) data K offset vf, (1 <= K)%nat -> unit_laws D ->
  Forall (fun lane : list V => length lane = K) data ->
  let off := match offset with None => 0 | Some o => o end in
  let n := length data in
  forall mt k v w k2, (mt = MMul \/ mt = MDiv) ->
  shaped n k = true -> shaped n v = true -> length w = n -> shaped n k2 = true ->
  keys_in_range off K (arg_of n k) (repeat true n) = true ->
  keys_in_range off K (arg_of n k2) (repeat true n) = true ->
  snd (run (cm_step D) (mkCmem data K offset vf) [CmApply mt k v (Some w); CmGet k2]) =
    [Ok []; Ok (map2 (fun i kk => write (meth_meaning D mt) (cells_of d0 off data) (arg_of n k) (arg_of n v) w i kk)
                  (seq 0 n) (arg_of n k2))].
Proof. intros V D. exact (masked_scaling D). Qed.
Print Assumptions C05_masked_scaling_partial.
Example C05_example :
  snd (run (cm_step zops) (mkCmem [[10; 1]; [20; 1]] 2 None true)
    [CmApply MMul (Sc 0) (Sc 5) (Some [true; false]); CmGet (Sc 0)]) = [Ok []; Ok [50; 20]].
Proof. vm_compute. reflexivity. Qed.

(* C06: two batch dimensions.  Different sizes (neither 1): every access fails.  Equal sizes:
   position (i, j) reads the cell of position (j, j), so what was written is not read back. *)
Theorem C06_unequal_batch_dims_refuted :
  forall (V : Type) B1 B2 (m : nat -> nat -> nat -> V) keys,
  B1 <> B2 -> B1 <> 1%nat -> B2 <> 1%nat -> mb_get B1 B2 m keys = Err IndexError.
Proof. exact mb_mismatch. Qed.
Print Assumptions C06_unequal_batch_dims_refuted.

Theorem C06_square_batch_reads_diagonal_refuted :
  forall (V : Type) B (m : nat -> nat -> nat -> V) keys, (2 <= B)%nat ->
  mb_get B B m keys = Ok (map (fun i => map (fun j => m j j (keys i j)) (seq 0 B)) (seq 0 B)).
Proof. exact mb_square. Qed.
Print Assumptions C06_square_batch_reads_diagonal_refuted.

Theorem C06_read_after_write_refuted :
  forall (V : Type) B (order : list (nat * nat)) (m : nat -> nat -> nat -> V) k (value : nat -> nat -> V),
  (2 <= B)%nat -> value 0%nat 0%nat <> value 1%nat 0%nat ->
  exists m', mb_set B B order m (fun _ _ => k) value = Ok m' /\
  mb_get B B m' (fun _ _ => k) <> Ok (map (fun i => map (fun j => value i j) (seq 0 B)) (seq 0 B)).
Proof. exact read_after_write. Qed.
Print Assumptions C06_read_after_write_refuted.

Theorem C06_single_row_partial :
  forall (V : Type) B2 (m : nat -> nat -> nat -> V) keys, mb_get 1 B2 m keys = Ok (expected_get 1 B2 m keys) /\
  forall value order, Forall (fun p => fst p = 0%nat /\ (snd p < B2)%nat) order -> (forall j, (j < B2)%nat -> In (0%nat, j) order) ->
  exists m', mb_set 1 B2 order m keys value = Ok m' /\ (forall j, (j < B2)%nat -> m' 0%nat j (keys 0%nat j) = value 0%nat j) /\
    forall a b k, ~ (a = 0%nat /\ (b < B2)%nat /\ k = keys 0%nat b) -> m' a b k = m a b k.
Proof. intros V B2 m keys. split; [apply mb_one_row|intros value order; apply mb_one_row_set]. Qed.
Print Assumptions C06_single_row_partial.
Example C06_example :
  mb_get 1 3 (fun a b k => (a, b, k)) (fun _ j => (j + 4)%nat) = Ok [[(0, 0, 4); (0, 1, 5); (0, 2, 6)]%nat] /\
  mb_get 2 2 (fun a b k => (a, b, k)) (fun _ _ => 7%nat) = Ok [[(0, 0, 7); (1, 1, 7)]; [(0, 0, 7); (1, 1, 7)]]%nat.
Proof. split; reflexivity. Qed.

(* C07: once cleared, a CDict (whatever its memories contained) is a finite map. *)
Theorem C07_cdict_is_finite_map :
  forall (V : Type) (D : dops V) data ex K offset vf, (1 <= K)%nat -> unit_laws D ->
  length ex = length data ->
  Forall (fun lane : list V => length lane = K) data -> Forall (fun lane : list bool => length lane = K) ex ->
  let off := match offset with None => 0 | Some o => o end in
  let n := length data in
  let d := mkCdict (mkCmem data K offset vf) (mkCmem ex K offset vf) in
  forall os, forallb (dict_covered D n off K) os = true ->
  vf = true \/ forallb is_ok (snd (run (dict_step D n off K) (fun _ _ => None) os)) = true ->
  Forall2 dict_out_ok (snd (run (cd_step D) d (CdClear None :: os)))
                      (Ok DUnit :: snd (run (dict_step D n off K) (fun _ _ => None) os)).
Proof. intros V D. exact (cdict_map D). Qed.
Print Assumptions C07_cdict_is_finite_map.

Definition C07_ops : list (cd_op (V := Z)) :=
  [CdContains (Sc 1); CdApply MSet (Ba [0; 1]) (Ba [7; 8]) None; CdContains (Sc 1); CdGet (Sc 1) (Some (Sc (-1)));
   CdGet (Sc 2) (Some (Sc (-1))); CdClear None; CdGet (Sc 1) (Some (Sc 42)); CdContains (Sc 1)].
Example C07_example :
  forallb (dict_covered zops 2 0 2) C07_ops = true /\
  snd (run (cd_step zops) (mkCdict (mkCmem [[1; 2]; [3; 4]] 2 None true)
                             (mkCmem [[true; true]; [false; true]] 2 None true)) (CdClear None :: C07_ops)) =
  [Ok OutUnit; Ok (OutBools [false; false]); Ok OutUnit; Ok (OutBools [false; true]); Ok (OutVals [-1; 8]); Err KeyError;
   Ok OutUnit; Ok (OutVals [42; 42]); Ok (OutBools [false; false])].
Proof. split; vm_compute; reflexivity. Qed.

(* Without the clear() the first answer of a fresh dictionary is whatever the allocation left. *)
Theorem C07_fresh_cdict_refuted :
  exists ex, snd (cd_step zops (mkCdict (mkCmem [[0; 0]] 2 None true) (mkCmem ex 2 None true)) (CdContains (Sc 0)))
             = Ok (OutBools [true]).
Proof. exists [[true; false]]. reflexivity. Qed.
Print Assumptions C07_fresh_cdict_refuted.

Theorem C62_cdict_masked_clear_refuted :
  forall (V : Type) (D : dops V) (d : cdict V) (w : list bool), length w = length (cm_data (cd_data d)) ->
  cd_step D d (CdClear (Some w)) = (d, Err AttributeError).
Proof. intros V D. exact (dict_masked_clear_fails D). Qed.
Print Assumptions C62_cdict_masked_clear_refuted.

(* C08: every answer of a batch of bags is acceptable to the monitor, and at any moment
   everything pushed = everything popped + what is still inside, whatever noise is drawn. *)
Theorem C08_cbag_conserves_elements :
  forall (D : dops Z) (M : nat) (low high fallback : Z) (n : nat),
  (2 <= M)%nat -> low <= 1 -> unit_laws D ->
  forall os, forallb (bag_covered M n low high) os = true ->
  let outs := snd (run (cb_step D M low high true fallback 1) (cb_new M low n) os) in
  exists b, bag_history M (false, repeat [] n) os outs = Some b /\
    forall i, (i < n)%nat -> exists bag, nth_error (snd b) i = Some bag /\
      let lg := ledger n i ([], []) os outs in Permutation (fst lg) (snd lg ++ bag).
Proof. exact bag_conserves. Qed.
Print Assumptions C08_cbag_conserves_elements.

Definition C08_ops : list cb_op :=
  [CbPush (Ba [3; 0]) None; CbPush (Sc 5) None; CbPush (Sc 5) (Some [true; false]);
   CbPop [[2; 0; 1]; [0; 1; 2]] None; CbPop [] None; CbLength; CbPop [] (Some [true; false]); CbPush (Sc 1) None; CbPop [] None].
Example C08_example :
  forallb (bag_covered 3 2 0 6) (firstn 4 C08_ops) = true /\
  snd (run (cb_step zops 3 0 6 true (-7) 1) (cb_new 3 0 2) C08_ops) =
  [Ok COUnit; Ok COUnit; Ok COUnit; Ok (COVals [5; 0]); Ok (COVals [5; 5]); Ok (COLens [1; 0]);
   Ok (COVals [3; -7]); Err RuntimeError; Err IndexError].
Proof. split; vm_compute; reflexivity. Qed.

(* Unbatched bags cannot be popped at all; ranges starting above 1 lose elements. *)
Theorem C08_unbatched_pop_refuted :
  forall (D : dops Z) M low high verify fallback (s : cbag) noise w, cb_sampling s = false ->
  cb_step D M low high verify fallback 0 s (CbPop noise w) = (s, Err ValueError).
Proof. exact unbatched_pop. Qed.
Print Assumptions C08_unbatched_pop_refuted.

Theorem C08_low_range_refuted :
  snd (run (cb_step zops 2 2 4 true 0 1) (cb_new 2 2 1)
        [CbPush (Sc 3) None; CbPush (Sc 2) None; CbPop [[0; 1]] None; CbPop [] None])
  = [Ok COUnit; Ok COUnit; Ok (COVals [0]); Ok (COVals [2])].
Proof. vm_compute. reflexivity. Qed.
Print Assumptions C08_low_range_refuted.

(* Multi-objective selection: properties C13, C14, C15, C68. *)
From Coq Require Import QArith Qminmax Sorted.
From Verif Require Import Prelude FloatLib SortLib BatchModel BatchSpec ParetoModel ParetoSpec WorkSpec ParetoProofs ParetoProofs2 ParetoProofs3.
Close Scope Q_scope.
Open Scope nat_scope.

(* C13.  crowd_order stands for the crowding order of a front; the ranks do not depend on it. *)
Theorem C13_ranks_are_front_numbers : forall (V : Type) crowd_order (b : batch V) crowdsort,
  wf b -> all_no_nan b -> reordering crowd_order ->
  exists ranks cs, batch_pareto_ranks crowd_order b crowdsort = Ok (ranks, cs) /\
    front_numbers (b_desc b) (rows b) ranks.
Proof.
  intros V co b c Hwf HN HR. destruct (ranks_front_numbers co b c Hwf HN) as (r & cs & E & _ & F & _).
  - intros l. specialize (HR l). apply Permutation_length in HR. rewrite seq_length in HR. auto.
  - exists r, cs. split; assumption.
Qed.
Print Assumptions C13_ranks_are_front_numbers.
Theorem C13_fronts_partition : forall (V : Type) crowd_order (b : batch V) crowdsort,
  wf b -> all_no_nan b -> b_len b <> 0 -> reordering crowd_order ->
  exists fronts ranks, arg_pareto_sort crowd_order b crowdsort = Ok (fronts, ranks) /\
    front_numbers (b_desc b) (rows b) ranks /\
    Permutation (concat fronts) (seq 0 (b_len b)) /\
    (forall k front, nth_error fronts k = Some front -> front <> [] /\ (forall i, In i front <-> nth_error ranks i = Some k)).
Proof.
  intros V co b c Hwf HN Hne HR. destruct (pareto_sort_ok co b c Hwf HN Hne HR) as (f & r & E & F & P & K & _).
  exists f, r. repeat (split; [assumption|]). assumption.
Qed.
Print Assumptions C13_fronts_partition.
(* with crowdsort, each front is listed from the least to the most crowded solution *)
Theorem C13_fronts_sorted_by_distance : forall (V : Type) (dists : list (list fl) -> list dist) dsorter (b : batch V),
  (forall l, length (dists l) = length l) -> dargsort_desc_ok dsorter -> wf b -> all_no_nan b -> b_len b <> 0 ->
  exists fronts ranks, arg_pareto_sort (fun l => dsorter (dists l)) b true = Ok (fronts, ranks) /\
    front_numbers (b_desc b) (rows b) ranks /\
    Permutation (concat fronts) (seq 0 (b_len b)) /\
    forall k front, nth_error fronts k = Some front ->
      exists base ds, (forall i, In i front <-> nth_error ranks i = Some k) /\ Permutation front base /\ NoDup base /\
        ds = dists (map (fun i => uvec b (nth i (b_ev b) [])) base) /\
        (forall x y i j p q, x < y -> nth_error front x = Some i -> nth_error front y = Some j ->
           nth_error base p = Some i -> nth_error base q = Some j -> dle (nth q ds (DFin 0)) (nth p ds (DFin 0)) = true).
Proof. exact @sorted_front_desc. Qed.
Print Assumptions C13_fronts_sorted_by_distance.

(* the crowding order that the library uses, with sorts that are stable *)
Definition co2 : list (list fl) -> list nat := crowd_order_of zstable (1 # 1000) dstable_desc 2.
Definition exp_ : batch nat := (* minimize, maximize *)
  mkBatch [10; 11; 12; 13; 14; 15]
    [[Fin 1; Fin 1]; [Fin 2; Fin 5]; [Fin 3; Fin 5]; [Fin 2; Fin 5]; [Fin 4; Fin 0]; [Fin 3; NInf]] [false; true] 0.
Lemma co2_reordering : reordering co2.
Proof.
  intros l. unfold co2, crowd_order_of. destruct l as [|u l]; [reflexivity|].
  destruct (dstable_ok (crowding zstable (1 # 1000) 2 (map (map to_z) (u :: l)))) as [H _].
  rewrite (proj1 (crowding_ok zstable (1 # 1000) zstable_ok (map (map to_z) (u :: l)) 2 ltac:(discriminate))) in H.
  rewrite map_length in H. exact H.
Qed.
Example C13_example :
  wf exp_ /\ all_no_nan exp_ /\ reordering co2 /\ dargsort_desc_ok dstable_desc /\
  rmap fst (batch_pareto_ranks co2 exp_ false) = Ok [0; 0; 1; 0; 2; 2] /\
  rmap fst (arg_pareto_sort co2 exp_ false) = Ok [[0; 1; 3]; [2]; [4; 5]].
Proof.
  split; [split; [reflexivity|repeat constructor]|]. split.
  { intros k Hk. unfold no_nan. cbn in Hk. destruct k as [|[|k]]; [| |lia]; repeat constructor. }
  split; [exact co2_reordering|]. split; [exact dstable_ok|]. split; vm_compute; reflexivity.
Qed.

(* C14 *)
Theorem C14_take_best_respects_fronts : forall (V : Type) crowd_order qsorter (b : batch V) n,
  wf b -> all_no_nan b -> reordering crowd_order -> qargsort_ok qsorter ->
  exists b' ranks kept dropped, take_best_multi crowd_order qsorter b n = Ok b' /\
    front_numbers (b_desc b) (rows b) ranks /\
    Permutation (kept ++ dropped) (seq 0 (b_len b)) /\ length kept = Nat.min n (b_len b) /\
    length (rows b') = length kept /\
    (forall k i, nth_error kept k = Some i -> nth_error (rows b') k = nth_error (rows b) i) /\
    (forall i j, In i kept -> In j dropped -> nth i ranks 0 <= nth j ranks 0).
Proof.
  intros V co qs b n Hwf HN HR HQ. destruct (take_best_multi_ok co qs b n Hwf HN HR HQ) as (b' & r & k & d & H1 & H2 & H3 & H4 & H5 & H6 & H7 & _).
  exists b', r, k, d. repeat (split; [assumption|]). assumption.
Qed.
Print Assumptions C14_take_best_respects_fronts.
Example C14_example : qargsort_ok qstable /\
  rmap b_vals (take_best_multi co2 qstable exp_ 4) = Ok [10; 11; 13; 12] /\
  rmap b_vals (take_best_multi co2 qstable exp_ 9) = Ok [10; 11; 13; 12; 14; 15] /\
  rmap b_vals (take_best_multi co2 qstable (mkBatch [1; 2] [[Fin 1; NaN]; [Fin 2; Fin 2]] [true; true] 0) 1) = Err ValueError.
Proof. split; [exact qstable_ok|]. repeat split; vm_compute; reflexivity. Qed.

(* C15: a single front of five; solution 2 is the most crowded one, yet it is the one that is kept *)
Definition exc : batch nat :=
  mkBatch [0; 1; 2; 3; 4] [[Fin 60; Fin 40]; [Fin 10; Fin 90]; [Fin 5; Fin 95]; [Fin 0; Fin 100]; [Fin 100; Fin 0]] [false; false] 0.
Definition exdists (b : batch nat) : list dist :=
  crowding zstable (1 # 1000) 2 (map (map to_z) (map (uvec b) (b_ev b))).
Theorem C15_take_best_refuted : exists b kept,
  wf b /\ all_no_nan b /\ rmap fst (batch_pareto_ranks co2 b true) = Ok (repeat 0 (b_len b)) /\
  rmap b_vals (take_best_multi co2 qstable b 1) = Ok [kept] /\
  (forall i, i < b_len b -> i <> kept -> dle (nth i (exdists b) DInf) (nth kept (exdists b) DInf) = false).
Proof.
  exists exc, 2. split; [split; [reflexivity|repeat constructor]|]. split.
  { intros k Hk. unfold no_nan. cbn in Hk. destruct k as [|[|k]]; [| |lia]; repeat constructor. }
  split; [vm_compute; reflexivity|]. split; [vm_compute; reflexivity|].
  intros i Hi Hne. cbn in Hi. destruct i as [|[|[|[|[|i]]]]]; try lia; vm_compute; reflexivity.
Qed.
Print Assumptions C15_take_best_refuted.
(* True when the descending crowding order of a front, read as a function on positions, is its own
   inverse (then the order and the ranks that it stands for are the same list). *)
Theorem C15_take_best_partial : forall (V : Type) (dists : list (list fl) -> list dist) dsorter qsorter (b : batch V) n,
  (forall l, length (dists l) = length l) -> dargsort_desc_ok dsorter -> qargsort_ok qsorter -> wf b -> all_no_nan b ->
  (forall l p m, nth_error (dsorter (dists l)) p = Some m -> nth_error (dsorter (dists l)) m = Some p) ->
  exists b' ranks kept dropped, take_best_multi (fun l => dsorter (dists l)) qsorter b n = Ok b' /\
    front_numbers (b_desc b) (rows b) ranks /\
    Permutation (kept ++ dropped) (seq 0 (b_len b)) /\ length kept = Nat.min n (b_len b) /\ length (rows b') = length kept /\
    (forall k i, nth_error kept k = Some i -> nth_error (rows b') k = nth_error (rows b) i) /\
    (forall k, exists base, (forall i, In i base <-> nth_error ranks i = Some k) /\ NoDup base /\
       forall i j p q, In i kept -> In j dropped -> nth_error base p = Some i -> nth_error base q = Some j ->
         let ds := dists (map (fun i => uvec b (nth i (b_ev b) [])) base) in
         dle (nth q ds (DFin 0)) (nth p ds (DFin 0)) = true).
Proof. exact @take_best_least_crowded. Qed.
Print Assumptions C15_take_best_partial.
(* a distance function whose descending order is always the identity *)
Example C15_example :
  let dists := fun l : list (list fl) => map (fun _ => DFin 0) l in
  (forall l, length (dists l) = length l) /\
  (forall l p m, nth_error (dstable_desc (dists l)) p = Some m -> nth_error (dstable_desc (dists l)) m = Some p) /\
  rmap b_vals (take_best_multi (fun l => dstable_desc (dists l)) qstable exc 2) = Ok [0; 1] /\
  co2 (map (uvec exc) (b_ev exc)) = [3; 4; 0; 1; 2].
Proof.
  cbv zeta. split; [intros; apply map_length|]. split; [|split; vm_compute; reflexivity].
  intros l p m. assert (E : dstable_desc (map (fun _ => DFin 0) l) = seq 0 (length l)).
  { unfold dstable_desc. rewrite map_length. apply isort_id.
    assert (G : forall s n, StronglySorted (fun i j => dle (nth j (map (fun _ : list fl => DFin 0) l) (DFin 0)) (nth i (map (fun _ : list fl => DFin 0) l) (DFin 0)) = true) (seq s n)).
    { intros s n. revert s. induction n as [|n IH]; intros s; cbn [seq]; constructor; auto. apply Forall_forall. intros j _.
      assert (Z : forall i, nth i (map (fun _ : list fl => DFin 0) l) (DFin 0) = DFin 0).
      { intros i. destruct (nth_in_or_default i (map (fun _ : list fl => DFin 0) l) (DFin 0)) as [H|H]; auto.
        apply in_map_iff in H. destruct H as (? & <- & _). reflexivity. }
      rewrite !Z. reflexivity. }
    apply G. }
  rewrite E. intros H. change (seq 0 (length l)) with (seq 0 (length l)) in *.
  assert (Hp : p < length l). { rewrite <- (seq_length (length l) 0). apply nth_error_Some. congruence. }
  rewrite (nth_error_nth' _ 0) in H by (rewrite seq_length; auto). rewrite seq_nth in H by auto. injection H as <-.
  cbn. rewrite (nth_error_nth' _ 0) by (rewrite seq_length; auto). rewrite seq_nth; auto.
Qed.

(* C68 *)
Theorem C68_crowding_distance : forall zsorter tol, zargsort_ok zsorter -> forall us m, us <> [] ->
  length (crowding zsorter tol m us) = length us /\ forall i, i < length us ->
  let order k := zsorter (zcol us k) in
  ((exists k, k < m /\ at_end (order k) i) -> nth_error (crowding zsorter tol m us) i = Some DInf) /\
  ((forall k, k < m -> ~ at_end (order k) i) ->
     exists gaps q, nth_error (crowding zsorter tol m us) i = Some (DFin q) /\ (q == qsum gaps)%Q /\ length gaps = m /\
       forall k gap, nth_error gaps k = Some gap ->
         exists g r, neighbour_gap (order k) (fun x => nth x (zcol us k) 0%Z) i g /\ clamped_range tol (zcol us k) r /\
           (gap == inject_Z g / r)%Q).
Proof. exact crowding_ok. Qed.
Print Assumptions C68_crowding_distance.
Example C68_example : zargsort_ok zstable /\
  map (fun d => match d with DFin q => Some (Qred q) | DInf => None end)
    (crowding zstable (1 # 1000) 2 [[60; 40]; [10; 90]; [5; 95]; [0; 100]; [100; 0]]%Z) =
    [Some (9 # 5); Some (11 # 10); Some (1 # 5); None; None]%Q /\
  at_end (zstable [60; 10; 5; 0; 100]%Z) 3.
Proof. split; [exact zstable_ok|]. split; [vm_compute; reflexivity|]. left. reflexivity. Qed.

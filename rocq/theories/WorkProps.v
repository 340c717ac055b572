(* Property theorems: work splitting, parallel evaluation, gradient averaging, seeds, adaptive
   population size (C09-C12, C53, C54, C63). *)
From Coq Require Import QArith.
From Verif Require Import Prelude WorkModel WorkSpec WorkProofs WorkProofs2.
Close Scope Q_scope.
Open Scope nat_scope.

(* C09 *)
Theorem C09_split_workload_even : forall w n, 1 <= n ->
  exists l, split_workload w n = Ok l /\
    (length l = n /\ list_sum l = w /\
     forall i j x y, i <= j -> nth_error l i = Some x -> nth_error l j = Some y -> y <= x <= y + 1).
Proof. exact split_workload_ok. Qed.
Print Assumptions C09_split_workload_even.
Example C09_example : split_workload 11 4 = Ok [3; 3; 3; 2] /\ split_workload 2 5 = Ok [1; 1; 0; 0; 0].
Proof. split; reflexivity. Qed.

(* C10 *)
Theorem C10_split_by_count : forall (A : Type) (batch : list A) k, 1 <= k ->
  exists sl pieces, split_batch batch (Some k) None = Ok (sl, pieces) /\
    length sl = k /\ pieces = map (slice batch) sl /\
    chain 0 (length batch) sl /\ concat pieces = batch /\
    even_split (length batch) k (map (fun ab => snd ab - fst ab) sl).
Proof. exact @split_count. Qed.
Print Assumptions C10_split_by_count.
Theorem C10_split_by_max_size : forall (A : Type) (batch : list A) m, 1 <= m ->
  exists sl pieces, split_batch batch None (Some m) = Ok (sl, pieces) /\
    length sl = pieces_needed (length batch) m /\ pieces = map (slice batch) sl /\
    chain 0 (length batch) sl /\ concat pieces = batch /\
    Forall (fun ab => 1 <= snd ab - fst ab <= m) sl /\
    (forall i ab, nth_error sl i = Some ab -> i + 1 < length sl -> snd ab - fst ab = m).
Proof. exact @split_max. Qed.
Print Assumptions C10_split_by_max_size.
(* slice really is the rows with the reported indices *)
Theorem C10_slice_is_rows : forall (A : Type) (l : list A) a b i,
  nth_error (slice l (a, b)) i = if Nat.ltb i (b - a) then nth_error l (a + i) else None.
Proof. exact @slice_nth. Qed.
Print Assumptions C10_slice_is_rows.
Example C10_example :
  split_batch [10; 11; 12; 13; 14; 15; 16] (Some 3) None =
    Ok ([(0, 3); (3, 5); (5, 7)], [[10; 11; 12]; [13; 14]; [15; 16]]) /\
  split_batch [10; 11; 12; 13; 14; 15; 16] None (Some 3) =
    Ok ([(0, 3); (3, 6); (6, 7)], [[10; 11; 12]; [13; 14; 15]; [16]]) /\
  split_batch [10; 11] (Some 3) (Some 2) = Err ValueError.
Proof. repeat split. Qed.

(* C11: any completion order of the pieces. *)
Theorem C11_parallel_equals_sequential :
  forall (Row Ev : Type) (f : Row -> Ev) (g : list Row -> list Ev) actors ns ss order batch ev,
  (forall l, g l = map f l) -> 1 <= actors ->
  (forall k, ns = Some k -> 1 <= k) -> (forall m, ss = Some m -> 1 <= m) ->
  length ev = length batch ->
  Permutation order (seq 0 (num_pieces ns ss actors (length batch))) ->
  evaluate_all g (Some actors) ns ss order batch ev = Ok (map f batch).
Proof. exact @evaluate_parallel. Qed.
Print Assumptions C11_parallel_equals_sequential.
Example C11_example :
  Permutation [2; 0; 1] (seq 0 (num_pieces None (Some 2) 7 5)) /\
  evaluate_all (map (fun x => x * x)) (Some 7) None (Some 2) [2; 0; 1] [1; 2; 3; 4; 5] [0; 0; 0; 0; 0]
    = Ok [1; 4; 9; 16; 25].
Proof.
  split; [|reflexivity]. change (Permutation [2; 0; 1] ([0; 1] ++ [2])). change [2; 0; 1] with ([2] ++ [0; 1]).
  apply Permutation_app_comm.
Qed.

(* C12: weighted mean, uniform mean, order independence, convexity, reported mean. *)
Theorem C12_weighted_average : forall nkeys L fs a c, a < nkeys -> c < L ->
  Forall (fun f => grads_shaped nkeys L (f_grads f)) fs -> 0 < list_sum (map f_num fs) ->
  (comp a c (avg_gradients true nkeys L fs) ==
   qsum (map (fun f => qn (f_num f) * comp a c (f_grads f)) fs) / qn (list_sum (map f_num fs)))%Q.
Proof. exact avg_weighted. Qed.
Print Assumptions C12_weighted_average.
Theorem C12_uniform_average : forall nkeys L fs a c, a < nkeys -> c < L ->
  Forall (fun f => grads_shaped nkeys L (f_grads f)) fs ->
  (comp a c (avg_gradients false nkeys L fs) == qmean (map (fun f => comp a c (f_grads f)) fs))%Q.
Proof. exact avg_uniform. Qed.
Print Assumptions C12_uniform_average.
Theorem C12_order_independent : forall weighted nkeys L fs fs' a c, a < nkeys -> c < L ->
  Forall (fun f => grads_shaped nkeys L (f_grads f)) fs -> Permutation fs fs' ->
  (comp a c (avg_gradients weighted nkeys L fs) == comp a c (avg_gradients weighted nkeys L fs'))%Q.
Proof. exact avg_perm. Qed.
Print Assumptions C12_order_independent.
Theorem C12_convex : forall weighted nkeys L fs a c lo hi, a < nkeys -> c < L ->
  Forall (fun f => grads_shaped nkeys L (f_grads f)) fs -> fs <> [] ->
  (weighted = true -> 0 < list_sum (map f_num fs)) ->
  (forall f, In f fs -> (lo <= comp a c (f_grads f))%Q /\ (comp a c (f_grads f) <= hi)%Q) ->
  (lo <= comp a c (avg_gradients weighted nkeys L fs))%Q /\ (comp a c (avg_gradients weighted nkeys L fs) <= hi)%Q.
Proof. exact avg_between. Qed.
Print Assumptions C12_convex.
Theorem C12_mean_eval_is_global_mean : forall fs (evals : list (list Q)),
  Forall2 (fun f e => f_num f = length e /\ (f_mean f == qmean e)%Q) fs evals ->
  (forall e, In e evals -> e <> []) ->
  (avg_mean_eval fs == qmean (concat evals))%Q.
Proof. exact mean_eval_ok. Qed.
Print Assumptions C12_mean_eval_is_global_mean.
(* the tasks together sample the requested number of solutions, and their interaction quotas
   reach the requested number of interactions *)
Theorem C12_tasks_sum : forall popsize ss ns actors,
  (forall m, ss = Some m -> 1 <= m /\ popsize mod m = 0) -> (forall k, ns = Some k -> 1 <= k) -> 1 <= actors ->
  exists l, popsize_per_task popsize ss ns actors false = Ok l /\ list_sum l = popsize.
Proof. exact tasks_total. Qed.
Print Assumptions C12_tasks_sum.
Theorem C12_tasks_even : forall popsize ss ns actors,
  (forall m, ss = Some m -> 1 <= m /\ popsize mod m = 0) -> (forall k, ns = Some k -> 1 <= k) -> 1 <= actors ->
  exists l, popsize_per_task popsize ss ns actors true = Ok l /\ Forall (fun p => p mod 2 = 0) l /\
    popsize <= list_sum l <= popsize + length l.
Proof. exact tasks_even. Qed.
Print Assumptions C12_tasks_even.
Theorem C12_quotas_reach_total : forall popsize quota tasks, 1 <= popsize -> list_sum tasks = popsize ->
  quota <= list_sum (quota_per_task popsize quota tasks) <= quota + length tasks.
Proof. exact quota_total. Qed.
Print Assumptions C12_quotas_reach_total.
Definition C12_fs : list fetched :=
  [mkFetched [[1; 2]; [3; 4]]%Q 3 10%Q; mkFetched [[5; 6]; [7; 8]]%Q 1 (-2)%Q].
Example C12_example :
  Forall (fun f => grads_shaped 2 2 (f_grads f)) C12_fs /\ 0 < list_sum (map f_num C12_fs) /\
  (comp 1 0 (avg_gradients true 2 2 C12_fs) == 4)%Q /\ (comp 1 0 (avg_gradients false 2 2 C12_fs) == 5)%Q /\
  (avg_mean_eval C12_fs == 7)%Q /\
  popsize_per_task 11 None None 4 true = Ok [4; 4; 4; 2] /\ quota_per_task 11 100 [3; 3; 3; 2] = [28; 28; 28; 19].
Proof. split; [repeat constructor|]. split; [cbn; lia|]. repeat split. Qed.

(* C53 *)
Theorem C53_actor_seeds_distinct : forall base n, (4 * Z.of_nat n <= 2 ^ 32)%Z ->
  NoDup (concat (all_seeds base n)).
Proof. exact seeds_distinct. Qed.
Print Assumptions C53_actor_seeds_distinct.
Theorem C53_actor_seeds_in_range : forall base n s, In s (concat (all_seeds base n)) -> (0 <= s < 2 ^ 32)%Z.
Proof. exact seeds_range. Qed.
Print Assumptions C53_actor_seeds_in_range.
Example C53_example : all_seeds (2 ^ 32 - 3) 2 = [[4294967294; 4294967295; 0; 1]; [2; 3; 4; 5]]%Z.
Proof. reflexivity. Qed.
(* C54: the loop ends at the first batch count meeting a stopping condition. *)
Theorem C54_adaptive_popsize : forall popsize popsize_max num_interactions made fuel k total,
  adaptive_loop popsize popsize_max num_interactions made fuel 0 0 = Ok (k, total) ->
  1 <= k /\ total = k * popsize /\ stops popsize popsize_max num_interactions made k /\
  (forall j, 1 <= j < k -> ~ stops popsize popsize_max num_interactions made j) /\
  (forall m, popsize_max = Some m -> 1 <= m -> 1 <= popsize -> total < m + popsize).
Proof. exact adaptive_ok. Qed.
Print Assumptions C54_adaptive_popsize.
Theorem C54_terminates_with_maximum : forall popsize popsize_max num_interactions made m,
  popsize_max = Some m -> 1 <= popsize ->
  exists r, adaptive_loop popsize popsize_max num_interactions made (S m) 0 0 = Ok r.
Proof. exact adaptive_terminates. Qed.
Print Assumptions C54_terminates_with_maximum.
Theorem C54_remote_loop_agrees : forall popsize popsize_max num_interactions made fuel k total,
  adaptive_loop popsize popsize_max num_interactions made fuel k total =
  adaptive_loop_remote popsize popsize_max num_interactions made fuel k total.
Proof. exact loops_agree. Qed.
Print Assumptions C54_remote_loop_agrees.
Example C54_example :
  adaptive_loop 4 (Some 10) 100 (fun k => Z.of_nat k * 30)%Z 20 0 0 = Ok (3, 12) /\
  adaptive_loop 4 (Some 100) 100 (fun k => Z.of_nat k * 30)%Z 20 0 0 = Ok (4, 16).
Proof. split; reflexivity. Qed.
(* the documented maximum can be exceeded *)
Theorem C54_maximum_exceeded_refuted :
  exists popsize m made total, adaptive_loop popsize (Some m) 100 made (S m) 0 0 = Ok total /\ m < snd total.
Proof. exists 4, 10, (fun _ => 0%Z), (3, 12). split; [reflexivity|cbn; lia]. Qed.
Print Assumptions C54_maximum_exceeded_refuted.

(* C63 *)
Theorem C63_xnes_distributed_refuted : forall L w d M tasks, length d = L ->
  average_shaped L 2 ((w, xnes_grads d M) :: tasks) = Err RuntimeError.
Proof. exact xnes_fails. Qed.
Print Assumptions C63_xnes_distributed_refuted.
Theorem C63_vector_gradients_partial : forall L nkeys tasks,
  Forall (fun t => length (snd t) = nkeys /\ Forall (fun g => exists v, g = GVec v /\ length v = L) (snd t)) tasks ->
  exists r, average_shaped L nkeys tasks = Ok r.
Proof. exact vec_tasks_ok. Qed.
Print Assumptions C63_vector_gradients_partial.
Example C63_example :
  average_shaped 2 2 [((1#2)%Q, [GVec [2; 4]%Q; GVec [0; 0]%Q]); ((1#2)%Q, [GVec [2; 4]%Q; GVec [6; 8]%Q])] <> Err RuntimeError
  /\ average_shaped 1 2 [(1%Q, xnes_grads [1%Q] [[1%Q]])] = Err RuntimeError.
Proof. split; [discriminate|reflexivity]. Qed.

(* C64 *)
Theorem C64_own_generator_refuted : forall base n, 1 <= n -> start_actors true base n = Err AttributeError.
Proof. exact own_generator_fails. Qed.
Print Assumptions C64_own_generator_refuted.
Theorem C64_global_generator_partial : forall base n, (4 * Z.of_nat n <= 2 ^ 32)%Z ->
  exists l, start_actors false base n = Ok l /\ length l = n /\ NoDup (concat l) /\
    Forall (fun s => length s = 3) l.
Proof. exact global_generator_ok. Qed.
Print Assumptions C64_global_generator_partial.
Example C64_example : start_actors false 5 2 = Ok [[6; 7; 8]; [10; 11; 12]]%Z.
Proof. reflexivity. Qed.

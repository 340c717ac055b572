(* C217: what CMA-ES does on average where all solutions are equally good (see FlatProps for SNES, PGPE and CEM). *)
From Coq Require Import Reals Lra.
From Verif Require Import Prelude MatLib RankModel ExpProps FlatProps CmaModel.
Open Scope R_scope.

Lemma displacement_flat P topk D m (A : mat) ws j : total D = 1 -> (forall i, (i < p_d P)%nat -> avg D (fun z => z i) = 0) ->
  avg_n D m (fun zs => displacement P topk (map (mv (p_d P) A) zs) ws j) = 0.
Proof.
  intros T E. unfold displacement, vsum, pick. generalize (topk (mu_of (p_popsize P)) ws). intros idx.
  set (g := fun z : vect => sumn (p_d P) (fun i => A j i * z i)).
  assert (G0 : g (fun _ => 0) = 0) by (unfold g; apply sumn_zero; intros; ring).
  assert (GE : avg D g = 0).
  { unfold g. rewrite avg_sumn. apply sumn_zero. intros i Hi. rewrite avg_scale, E by auto. ring. }
  induction idx as [|k idx IH]; [rewrite (avg_n_ext D m _ (fun _ => 0)) by reflexivity; apply avg_n_const; auto|].
  rewrite (avg_n_ext D m _ (fun zs => nth k ws 0 * g (nth k zs (fun _ => 0)) + rsum (map (fun v => v j) (map2 vscale (map (fun i => nth i ws 0) idx) (map (fun i => nth i (map (mv (p_d P) A) zs) vzero) idx))))).
  - rewrite avg_n_plus, IH, avg_n_scale. destruct (Nat.lt_ge_cases k m) as [L|L]; [rewrite (avg_n_at D m k g) by auto; rewrite GE; ring|].
    rewrite (avg_n_ext D m _ (fun _ => 0)); [rewrite avg_n_const by auto; ring|]. intros zs Lz. rewrite nth_overflow by (rewrite Lz; auto). auto.
  - intros zs Lz. cbn [map map2]. rewrite rsum_cons. f_equal. unfold vscale at 1. f_equal. destruct (Nat.lt_ge_cases k m) as [L|L].
    + rewrite (nth_indep _ vzero (mv (p_d P) A (fun _ => 0))) by (rewrite map_length, Lz; auto). rewrite map_nth. reflexivity.
    + rewrite !nth_overflow by (rewrite ?map_length, Lz; auto). rewrite G0. reflexivity.
Qed.
(* every generation is sorted in the same way, since all fitnesses are equal *)
Theorem C217_cmaes : forall P cholesky topk indices D m, probabilities D -> (forall i, (i < p_d P)%nat -> avg D (fun z => z i) = 0) ->
  forall k s j, avg_runs D m k (fun ds => s_m (cma_run P cholesky topk s (map (fun zs => (zs, indices)) ds)) j) = s_m s j.
Proof.
  intros P cholesky topk indices D m Pr E. induction k as [|k IH]; intros s j; [reflexivity|]. cbn [avg_runs map cma_run].
  rewrite (avg_n_ext D m _ (fun zs => s_m s j + (p_c_m P * s_sigma s) * displacement P topk (map (mv (p_d P) (s_A s)) zs) (assigned P indices) j)).
  - rewrite avg_n_plus, avg_n_scale, avg_n_const, displacement_flat by (auto; apply Pr). ring.
  - intros zs _. rewrite (IH (cma_step P cholesky topk s zs indices) j). reflexivity.
Qed.
Print Assumptions C217_cmaes.
Example C217_cmaes_example : forall P, p_d P = 2%nat -> let D := [(1 / 2, fun _ : nat => 1); (1 / 2, fun _ : nat => -1)] in
  avg_runs D 4 3 (fun ds => s_m (cma_run P (fun A => A) (fun k _ => seq 0 k) (init_state (fun j => INR j) 1) (map (fun zs => (zs, [0; 1; 2; 3]%nat)) ds)) 1%nat) = 1.
Proof.
  intros P HP D. rewrite C217_cmaes; [reflexivity| |].
  - split; [unfold total, rsum; cbn; lra|repeat constructor; cbn; lra].
  - intros i _. unfold avg, rsum. cbn. lra.
Qed.

(* C218: runs with a seed are reproducible. *)
From Verif Require Import Prelude SeedModel.
Open Scope nat_scope.

(* ---- spec ---- *)
Section SPEC.
Variables rng tensor py : Type.
Variable draw : request -> rng -> tensor * rng.
Notation W := (world rng py).
Notation MM := (M rng py).
(* the state of the generator which the problem uses: its own one, or the global one *)
Definition source (w : W) : rng + rng := match own rng py w with Some g => inl g | None => inr (glob rng py w) end.
(* a run which is the same wherever the generator of the problem is in the same state *)
Definition reproducible {A} (m : MM A) : Prop := forall w w', source w = source w' -> fst (m w) = fst (m w') /\ source (snd (m w)) = source (snd (m w')).
(* it touches no generator but that of the problem *)
Definition discreet {A} (m : MM A) : Prop := forall w, pyg rng py (snd (m w)) = pyg rng py w /\
  (own rng py w <> None -> own rng py (snd (m w)) <> None /\ glob rng py (snd (m w)) = glob rng py w) /\ (own rng py w = None -> own rng py (snd (m w)) = None).
(* other code which leaves the generator of the problem alone *)
Definition foreign (o : W -> W) : Prop := forall w, source (o w) = source w.
(* the search algorithms: how they begin, and one generation *)
Inductive algorithm : forall S, MM S -> (S -> MM S) -> Prop :=
| Gaussian_search : forall dist pop len popsize mirrored start place update enough center_init adaptive,
    algorithm (dist * option (list pop)) (bindM rng py (gauss_init rng tensor py draw dist len start center_init) (fun d => ret rng py (d, None)))
      (gauss_step rng tensor py draw dist pop len popsize mirrored place update enough adaptive)
| Cma_es : forall cstate len popsize cstart cnext center_given,
    algorithm cstate (cma_init rng tensor py draw cstate len popsize cstart center_given) (cma_step rng tensor py draw cstate len popsize cnext)
| Genetic_or_map_elites : forall batch pair size shape shape1 len popsize as_batch os prepare select,
    algorithm batch (pop_init rng tensor py draw batch len popsize as_batch) (pop_step rng tensor py draw batch pair size shape shape1 os prepare select)
| Cosyne : forall batch pair size shape shape1 len popsize as_batch cross permutation mutation prepare best merge,
    algorithm batch (pop_init rng tensor py draw batch len popsize as_batch) (cosyne_step rng tensor py draw batch pair size shape shape1 cross permutation mutation prepare best merge).

(* ---- proofs ---- *)
Definition good {A} (m : MM A) : Prop := reproducible m /\ discreet m.
Lemma good_ret {A} (a : A) : good (ret rng py a).
Proof. split; [intros w w' E; auto|intros w; cbn; auto]. Qed.
Lemma good_bind {A B} (m : MM A) (k : A -> MM B) : good m -> (forall a, good (k a)) -> good (bindM rng py m k).
Proof.
  intros [R D] K. split.
  - intros w w' E. unfold bindM. destruct (R w w' E) as [R1 R2]. destruct (m w) as [a w1], (m w') as [a' w1']. cbn [fst snd] in *. subst a'. apply (K a); auto.
  - intros w. unfold bindM. specialize (D w). destruct (m w) as [a w1]. cbn [fst snd] in *. destruct D as (D1 & D2 & D3). destruct (proj2 (K a) w1) as (K1 & K2 & K3).
    split; [congruence|]. split; [|auto]. intros N. destruct (D2 N) as (N1 & G). destruct (K2 N1) as (N2 & G2). split; congruence.
Qed.
Lemma good_draw r : good (draw_attribute rng tensor py draw r).
Proof.
  split.
  - intros w w' E. unfold source in *. unfold draw_attribute, draw_global. destruct (own rng py w) as [g|], (own rng py w') as [g'|]; try discriminate; injection E as <-.
    + destruct (draw r g) as [t g1]. cbn. auto.
    + destruct (draw r (glob rng py w)) as [t g1]. cbn. auto.
  - intros w. unfold draw_attribute, draw_global. destruct (own rng py w) as [g|] eqn:EO.
    + destruct (draw r g) as [t g1]. cbn. repeat split; congruence.
    + destruct (draw r (glob rng py w)) as [t g1]. cbn. repeat split; congruence.
Qed.
Lemma good_problem g r : good (problem_make rng tensor py draw g r).
Proof. destruct g; apply good_draw. Qed.
Lemma good_dist r : good (distribution_make rng tensor py draw TheProblem r).
Proof. apply good_draw. Qed.
Ltac good := repeat (first [apply good_bind; [|intros]|apply good_ret|apply good_problem|apply good_dist|match goal with |- good (if ?c then _ else _) => destruct c end]).
Lemma good_sample_until dist pop len popsize mirrored place enough most : forall (d : dist) (got : list pop),
  good (sample_until rng tensor py draw dist pop len popsize mirrored place enough most d got).
Proof. induction most as [|most IH]; intros d got; cbn [sample_until]; [apply good_ret|]. unfold sample. good. apply IH. Qed.
Lemma good_gauss_step dist pop len popsize mirrored place update enough adaptive s : good (gauss_step rng tensor py draw dist pop len popsize mirrored place update enough adaptive s).
Proof.
  unfold gauss_step. cbv zeta. apply good_bind; [|intros; apply good_ret]. unfold fill_and_eval. destruct adaptive; [apply good_sample_until|]. unfold sample. good.
Qed.
Lemma good_cut_points l : good (cut_points rng tensor py draw l).
Proof. induction l as [|[a b] l IH]; cbn [cut_points]; [apply good_ret|]. good. apply IH. Qed.
Lemma good_op batch pair size shape shape1 o b : good (apply_op rng tensor py draw batch pair size shape shape1 o b).
Proof.
  destruct o as [f n t c r|m p|q m f|p|f]; cbn [apply_op].
  - unfold cross_over, tournament. apply good_bind; [good|]. intros p. destruct r; cbn [recombine]; [unfold multi_point; cbv zeta|unfold sbx|unfold cut_and_splice]; good. apply good_cut_points.
  - unfold gaussian_mutation. good.
  - unfold polynomial_mutation. good.
  - unfold cosyne_permutation. good.
  - apply good_ret.
Qed.
Lemma good_ops batch pair size shape shape1 os : forall b, good (apply_all rng tensor py draw batch pair size shape shape1 os b).
Proof. induction os as [|o os IH]; intros b; cbn [apply_all]; [apply good_ret|]. apply good_bind; [apply good_op|auto]. Qed.
Lemma good_algorithm S init step : algorithm S init step -> good init /\ forall s, good (step s).
Proof.
  destruct 1; split; intros.
  - unfold gauss_init, generate_values. destruct center_init; good.
  - apply good_gauss_step.
  - unfold cma_init, generate_values. good.
  - unfold cma_step. good.
  - unfold pop_init, generate_values. good.
  - unfold pop_step. cbv zeta. apply good_bind; [apply good_ops|intros; apply good_ret].
  - unfold pop_init, generate_values. good.
  - unfold cosyne_step. cbv zeta. apply good_bind; [apply good_op|intros c]. apply good_bind; [destruct mutation; [apply good_op|apply good_ret]|intros c1]. apply good_bind; [apply good_op|intros; apply good_ret].
Qed.
Lemma generations_same {S} (step : S -> MM S) : (forall s, good (step s)) -> forall os os' s w w', Forall foreign os -> Forall foreign os' -> length os = length os' -> source w = source w' ->
  fst (generations rng py step os s w) = fst (generations rng py step os' s w') /\ source (snd (generations rng py step os s w)) = source (snd (generations rng py step os' s w')).
Proof.
  intros G. induction os as [|o os IH]; intros [|o' os'] s w w' F F' L E; try discriminate; [cbn; auto|]. inversion F; inversion F'; subst. cbn [generations]. unfold bindM at 1 3 5 7.
  assert (E1 : source (o w) = source (o' w')) by congruence. destruct (proj1 (G s) (o w) (o' w') E1) as [R1 R2].
  destruct (step s (o w)) as [s1 w1], (step s (o' w')) as [s1' w1']. cbn [fst snd] in *. subst s1'. unfold bindM.
  destruct (IH os' s1 w1 w1') as [I1 I2]; auto. destruct (generations rng py step os s1 w1) as [l w2], (generations rng py step os' s1 w1') as [l' w2']. cbn [fst snd ret] in *. subst l'. auto.
Qed.
Lemma run_same {S} (init : MM S) (step : S -> MM S) : good init -> (forall s, good (step s)) -> forall os os' w w', Forall foreign os -> Forall foreign os' -> length os = length os' -> source w = source w' ->
  fst (run rng py init step os w) = fst (run rng py init step os' w') /\ source (snd (run rng py init step os w)) = source (snd (run rng py init step os' w')).
Proof.
  intros GI G os os' w w' F F' L E. unfold run, bindM. destruct (proj1 GI w w' E) as [R1 R2]. destruct (init w) as [s w1], (init w') as [s' w1']. cbn [fst snd] in *. subst s'.
  destruct (generations_same step G os os' s w1 w1' F F' L R2) as [I1 I2]. destruct (generations rng py step os s w1) as [l w2], (generations rng py step os' s w1') as [l' w2']. cbn [fst snd ret] in *. subst l'. auto.
Qed.
Lemma good_generations {S} (step : S -> MM S) : (forall s, good (step s)) -> forall n s, discreet (generations rng py step (repeat (fun w => w) n) s).
Proof.
  intros G. induction n as [|n IH]; intros s; cbn [repeat generations]; [apply good_ret|]. intros w. unfold bindM at 1. destruct (proj2 (G s) w) as (D1 & D2 & D3). unfold bindM. destruct (step s w) as [s1 w1]. cbn [fst snd] in *.
  destruct (IH s1 w1) as (I1 & I2 & I3). destruct (generations rng py step (repeat (fun w => w) n) s1 w1) as [l w2]. cbn [fst snd ret] in *.
  split; [congruence|]. split; [|auto]. intros N. destruct (D2 N) as (N1 & G1). destruct (I2 N1) as (N2 & G2). split; congruence.
Qed.
End SPEC.

(* C218: what a search finds (its initial state and the states after each generation) depends only on the state of the generator of the problem when
   the search begins. If the problem has a generator of its own, other code may draw from the global generators between the generations *)
Theorem C218_run : forall rng tensor py draw S init step, algorithm rng tensor py draw S init step ->
  forall others others' w w', Forall (foreign rng py) others -> Forall (foreign rng py) others' -> length others = length others' -> source rng py w = source rng py w' ->
  fst (run rng py init step others w) = fst (run rng py init step others' w').
Proof. intros rng tensor py draw S init step A others others' w w' F F' L E. destruct (good_algorithm rng tensor py draw S init step A) as [GI G]. apply (run_same rng py init step GI G others others' w w' F F' L E). Qed.
Print Assumptions C218_run.
(* So giving the problem a seed fixes the run, whatever was drawn before *)
Theorem C218_seed : forall rng tensor py draw seeded S init step, algorithm rng tensor py draw S init step ->
  forall seed others others' w w', Forall (foreign rng py) others -> Forall (foreign rng py) others' -> length others = length others' ->
  fst (bindM rng py (manual_seed rng py seeded (Some seed)) (fun _ => run rng py init step others) w) =
  fst (bindM rng py (manual_seed rng py seeded (Some seed)) (fun _ => run rng py init step others') w').
Proof. intros rng tensor py draw seeded S init step A seed others others' w w' F F' L. cbn. apply (C218_run rng tensor py draw S init step A); auto. Qed.
Print Assumptions C218_seed.
(* A search leaves the other generators as they are: those of Python always, and the global one of PyTorch if the problem has its own *)
Theorem C218_others_undisturbed : forall rng tensor py draw S init step, algorithm rng tensor py draw S init step ->
  forall n w, let w1 := snd (run rng py init step (repeat (fun w => w) n) w) in
  pyg rng py w1 = pyg rng py w /\ (own rng py w <> None -> glob rng py w1 = glob rng py w).
Proof.
  intros rng tensor py draw S init step A n w. cbv zeta. destruct (good_algorithm rng tensor py draw S init step A) as [GI G]. unfold run, bindM.
  destruct (proj2 GI w) as (D1 & D2 & D3). destruct (init w) as [s w1]. cbn [fst snd] in *. destruct (good_generations rng py step G n s w1) as (I1 & I2 & I3).
  destruct (generations rng py step (repeat (fun w => w) n) s w1) as [l w2]. cbn [fst snd ret] in *. split; [congruence|]. intros N. destruct (D2 N) as (N1 & G1). destruct (I2 N1) as (_ & G2). congruence.
Qed.
Print Assumptions C218_others_undisturbed.
(* The noise on the actions of GymNE comes from the generator of the problem, too *)
Theorem C218_gymne : forall rng tensor py draw act (add : act -> tensor -> act) len noisy a, good rng py (gymne_noise rng tensor py draw add len noisy a).
Proof. intros. unfold gymne_noise. destruct noisy; [apply good_bind; [apply good_problem|intros; apply good_ret]|apply good_ret]. Qed.
Print Assumptions C218_gymne.
(* But not that of VecGymNE: whatever the seed of the problem, the actions differ if the global generator gives different numbers; and environments
   which can be seeded get seeds of Python's generator *)
Theorem C218_vecgymne_refuted : forall rng tensor py draw py_randint seeded seed,
  (forall act (add : act -> tensor -> act) dims a g g' p, (forall t t', add a t = add a t' -> t = t') -> fst (draw (Uniform (dims a)) g) <> fst (draw (Uniform (dims a)) g') ->
   fst (bindM rng py (manual_seed rng py seeded (Some seed)) (fun _ => vecgymne_noise rng tensor py draw add dims true a) (World rng py None g p)) <>
   fst (bindM rng py (manual_seed rng py seeded (Some seed)) (fun _ => vecgymne_noise rng tensor py draw add dims true a) (World rng py None g' p))) /\
  (forall env (make : env) seed_env g p p', (forall s s', seed_env make s = seed_env make s' -> s = s') -> (forall s, seed_env make s <> None) -> fst (py_randint p) <> fst (py_randint p') ->
   fst (bindM rng py (manual_seed rng py seeded (Some seed)) (fun _ => vecgymne_new_env rng py py_randint make seed_env) (World rng py None g p)) <>
   fst (bindM rng py (manual_seed rng py seeded (Some seed)) (fun _ => vecgymne_new_env rng py py_randint make seed_env) (World rng py None g p'))).
Proof.
  intros rng tensor py draw py_randint seeded seed. split.
  - intros act add dims a g g' p Inj N. unfold bindM, manual_seed, vecgymne_noise, bindM, draw_global. cbn. destruct (draw (Uniform (dims a)) g) as [t g1], (draw (Uniform (dims a)) g') as [t' g1']. cbn in *. intros E. apply N, Inj, E.
  - intros env make seed_env g p p' Inj Tot N. unfold bindM, manual_seed, vecgymne_new_env, bindM, draw_py. cbn. destruct (py_randint p) as [s p1], (py_randint p') as [s' p1']. cbn in *.
    destruct (seed_env make s) as [e|] eqn:E1; [|destruct (Tot s E1)]. destruct (seed_env make s') as [e'|] eqn:E2; [|destruct (Tot s' E2)]. intros E. apply N, Inj. congruence.
Qed.
Print Assumptions C218_vecgymne_refuted.

(* generators which count: a search with cross-over and mutation, begun after the same seed in two worlds *)
Definition ex_draw (r : request) (g : nat) : nat * nat := match r with Uniform _ => (g, S g) | Gaussian _ _ => (2 * g, S g) | Integers b _ => (g mod b, S g) end.
Definition ex_ops : list (operator nat (list nat) (list nat)) :=
  [CrossOver nat (list nat) (list nat) false 4 2 (fun b _ i => i :: b) (Sbx nat (list nat) (list nat) (fun p u => u :: p)); GaussianMutation nat (list nat) (list nat) (fun b u => u) (fun b u g => u + g :: b)].
Definition ex_init := pop_init nat nat nat ex_draw (list nat) 3 4 (fun t => [t]).
Definition ex_step := pop_step nat nat nat ex_draw (list nat) (list nat) (@length nat) (fun _ => [4; 3]) (fun _ => [2; 3]) ex_ops (fun b => b) (fun a c => c).
Definition ex_other (w : world nat nat) : world nat nat := World nat nat (own nat nat w) (7 + glob nat nat w) (1 + pyg nat nat w).
Example C218_example : algorithm nat nat nat ex_draw (list nat) ex_init ex_step /\
  fst (bindM nat nat (manual_seed nat nat (fun s => 10 * s) (Some 5)) (fun _ => run nat nat ex_init ex_step [ex_other; ex_other]) (World nat nat None 1 1)) =
  ([50], [[161; 52; 0; 50]; [173; 56; 3; 161; 52; 0; 50]]) /\
  (forall g p, fst (bindM nat nat (manual_seed nat nat (fun s => 10 * s) (Some 5)) (fun _ => run nat nat ex_init ex_step [ex_other; ex_other]) (World nat nat None g p)) =
  ([50], [[161; 52; 0; 50]; [173; 56; 3; 161; 52; 0; 50]])) /\
  fst (run nat nat ex_init ex_step [ex_other] (World nat nat None 1 1)) <> fst (run nat nat ex_init ex_step [fun w => w] (World nat nat None 1 1)).
Proof. split; [apply Genetic_or_map_elites|]. split; [vm_compute; reflexivity|split; [intros g p; vm_compute; reflexivity|vm_compute; discriminate]]. Qed.

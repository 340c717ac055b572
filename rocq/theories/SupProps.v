(* Minibatches of supervised neuroevolution. *)
From Coq Require Import QArith Permutation.
From Verif Require Import Prelude SupModel SupSpec SupProofs.
Close Scope Q_scope.
Open Scope nat_scope.

(* ---- C57: minibatch sampling visits every batch once per epoch; common minibatches ---- *)
(* Every history of draws and evaluations within one process takes the minibatches one after the other from the concatenation of the
   epochs, none twice and none left out, and gives the mean losses on them; with common_minibatch all solutions of an evaluation are
   scored on the same minibatches. *)
Theorem C57_stream_partial {B N} (loss : N -> B -> Q) epoch n common ops stream : (forall k, epoch k <> []) -> is_stream epoch stream ->
  spec_run B N loss stream n common 0 ops (snd (sup_run loss epoch n common new_sup ops)).
Proof. intros HN HS. apply run_at; auto. exists []. split; reflexivity. Qed.
Print Assumptions C57_stream_partial.
(* the stream exists whenever all epochs have some batch *)
Theorem C57_stream_exists_partial {B} (epoch : nat -> list B) : (forall k, epoch k <> []) -> exists stream, is_stream epoch stream.
Proof. apply stream_exists. Qed.
Print Assumptions C57_stream_exists_partial.
(* an epoch of the default data loader contains every sample exactly once, in full batches except for the last one *)
Theorem C57_epoch_partial {A} (dataset : list A) bs perm k : bs <> 0 -> Permutation (perm k) (seq 0 (length dataset)) ->
  Permutation (concat (shuffled_epoch dataset bs perm k)) dataset /\
  (forall i c, nth_error (shuffled_epoch dataset bs perm k) i = Some c -> length c = Nat.min bs (length dataset - i * bs) /\ c <> []) /\
  (dataset <> [] -> shuffled_epoch dataset bs perm k <> []).
Proof.
  intros NB HP. unfold shuffled_epoch. set (l := flat_map _ (perm k)). assert (PL : Permutation l dataset) by (apply gather_perm; auto).
  assert (LL : length l = length dataset) by (apply Permutation_length; auto).
  assert (C : concat (chunks (length dataset) bs l) = l) by (apply chunks_concat; auto; lia).
  split; [rewrite C; auto|]. split.
  - intros i c E. rewrite <- LL. exact (chunks_sizes bs NB (length dataset) l i c ltac:(rewrite LL; auto) E).
  - intros ND E. rewrite E in C. cbn in C. rewrite <- C in LL. cbn in LL. destruct dataset; [congruence|discriminate].
Qed.
Print Assumptions C57_epoch_partial.
(* False across processes: with common_minibatch, actors score the solutions of one evaluation on different minibatches. The same network
   gets different losses in one evaluation as soon as the means over the first minibatches of the two actors differ. *)
Theorem C57_actors_refuted {B N} (loss : N -> B -> Q) epochs n net stream0 stream1 : (forall a k, epochs a k <> []) ->
  is_stream (epochs 0) stream0 -> is_stream (epochs 1) stream1 ->
  ~ (mean_loss loss net (map stream0 (seq 0 n)) == mean_loss loss net (map stream1 (seq 0 n)))%Q ->
  exists q0 q1, snd (sup_evaluate_pieces loss epochs n true [new_sup; new_sup] [(0, [net]); (1, [net])]) = Ok [q0; q1] /\ ~ (q0 == q1)%Q.
Proof.
  intros HN S0 S1 D.
  assert (A : forall a, at_pos B (epochs a) new_sup 0) by (intros a; exists []; split; reflexivity).
  destruct (evaluate_at B N loss (epochs 0) n stream0 S0 (HN 0) true new_sup 0 [net] (A 0)) as (s0 & qs0 & p0 & E0 & _ & P0).
  destruct (evaluate_at B N loss (epochs 1) n stream1 S1 (HN 1) true new_sup 0 [net] (A 1)) as (s1 & qs1 & p1 & E1 & _ & P1).
  cbn [sup_evaluate_pieces nth_error]. rewrite E0. cbn [upd nth_error sup_evaluate_pieces]. rewrite E1.
  inversion P0 as [|? ? ? _ F0|? ? ? F _]; [|discriminate]. subst. inversion P1 as [|? ? ? _ F1|? ? ? F _]; [|discriminate]. subst.
  cbn [map] in F0, F1. inversion F0 as [|q0 ? l0 ? V0 Fa]; subst. inversion Fa; subst. inversion F1 as [|q1 ? l1 ? V1 Fb]; subst. inversion Fb; subst.
  exists q0, q1. split; [reflexivity|]. intros Q. apply D. rewrite V0, V1 in Q. exact Q.
Qed.
Print Assumptions C57_actors_refuted.

(* three samples in batches of two; epoch k starts with another sample *)
Local Open Scope Q_scope.
Definition demo_data : list Q := [1#1; 2#1; 3#1].
Definition demo_perm (k : nat) : list nat := if Nat.even k then [0; 1; 2]%nat else [2; 0; 1]%nat.
Definition demo_loss (net : Q) (b : list Q) : Q := Qred (net * qsum b).
Definition demo_epoch := shuffled_epoch demo_data 2%nat demo_perm.
Example C57_example : map (fun o => match o with OutBatch (Ok b) => b | OutLosses (Ok l) => map Qred l | _ => [] end)
    (snd (sup_run demo_loss demo_epoch 2%nat true new_sup [GetMinibatch; Evaluate [1#1; 2#1]; GetMinibatch; GetMinibatch]))
  = [[1#1; 2#1]; [7#2; 7#1]; [2#1]; [1#1; 2#1]].
Proof. reflexivity. Qed.
Example C57_example_separate : map (fun o => match o with OutLosses (Ok l) => map Qred l | _ => [] end)
    (snd (sup_run demo_loss demo_epoch 1%nat false new_sup [Evaluate [1#1; 1#1; 1#1]])) = [[3#1; 3#1; 4#1]].
Proof. reflexivity. Qed.
Example C57_example_actors : rmap (map Qred) (snd (sup_evaluate_pieces demo_loss (fun a k => demo_epoch (a + k)%nat) 1%nat true [new_sup; new_sup] [(0%nat, [1#1]); (1%nat, [1#1])])) = Ok [3#1; 4#1].
Proof. reflexivity. Qed.

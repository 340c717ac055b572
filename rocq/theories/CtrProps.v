(* C224: searches start at the center they are given. *)
From Verif Require Import Prelude CtrModel.

(* ---------------------------------------------------------------- specification *)
Definition sized {num} (t : tensor num) : Prop := length (t_data t) = fold_right Nat.mul 1 (t_shape t).
(* The shape is that of a vector of length d, except for dimensions of length 1 around it. *)
Definition like_vector (d : nat) (shape : list nat) : Prop :=
  exists a b, shape = repeat 1 a ++ d :: repeat 1 b.

(* ---------------------------------------------------------------- proofs *)
Lemma filter_ones l : filter (fun n => negb (Nat.eqb n 1)) l = [] -> l = repeat 1 (length l).
Proof. induction l as [|x l IH]; cbn; auto. destruct (Nat.eqb_spec x 1) as [->|]; cbn; [intros H; f_equal; auto|discriminate]. Qed.
Lemma filter_repeat a : filter (fun n => negb (Nat.eqb n 1)) (repeat 1 a) = [].
Proof. induction a; cbn; auto. Qed.
Lemma filter_single d l : d <> 1 -> (filter (fun n => negb (Nat.eqb n 1)) l = [d] <-> like_vector d l).
Proof.
  intros D. split.
  - induction l as [|x l IH]; cbn; [discriminate|]. destruct (Nat.eqb_spec x 1) as [->|N]; cbn; intros H.
    + destruct (IH H) as [a [b ->]]. exists (S a), b. reflexivity.
    + injection H as -> H. exists 0, (length l). cbn. f_equal. apply filter_ones. exact H.
  - intros [a [b ->]]. rewrite filter_app, filter_repeat. cbn. destruct (Nat.eqb_spec d 1); [contradiction|]. cbn. rewrite filter_repeat. reflexivity.
Qed.

(* C224: PGPE, SNES, XNES and CEM start at the given vector, at the vector all of whose elements are the given number, or at
   the values which the problem generates, and reject everything else *)
Theorem C224_gaussian : forall (num : Type) d (generated : list num),
  gaussian_center d generated None = Ok generated /\
  (forall x : num, gaussian_center d generated (Some (mkT [] [x])) = Ok (repeat x d)) /\
  (forall v : list num, length v = d -> gaussian_center d generated (Some (mkT [d] v)) = Ok v) /\
  (forall t : tensor num, t_shape t <> [] -> t_shape t <> [d] -> gaussian_center d generated (Some t) = Err ValueError).
Proof.
  intros num d g. split; [reflexivity|]. split; [|split].
  - intros x. cbn. f_equal. induction d; cbn; f_equal; auto.
  - intros v L. cbn. rewrite Nat.eqb_refl. reflexivity.
  - intros [sh v]. cbn. intros H1 H2. destruct sh as [|n [|m sh]]; [congruence| |reflexivity]. destruct (Nat.eqb_spec n d); [congruence|reflexivity].
Qed.
Print Assumptions C224_gaussian.

(* CMA-ES starts there too if solutions have two or more values (or none), *)
Theorem C224_cmaes_partial : forall (num : Type) d (generated : list num), d <> 1 ->
  cmaes_center d generated None = Ok generated /\
  (forall v : list num, length v = d -> cmaes_center d generated (Some (ASolution v)) = Ok v) /\
  (forall (t : tensor num) m, cmaes_center d generated (Some (ATensor t)) = Ok m <-> like_vector d (t_shape t) /\ m = t_data t) /\
  (forall t : tensor num, sized t -> like_vector d (t_shape t) -> length (t_data t) = d) /\
  (forall t : tensor num, ~ like_vector d (t_shape t) -> cmaes_center d generated (Some (ATensor t)) = Err ValueError).
Proof.
  intros num d g D.
  assert (K : forall t : tensor num, (like_vector d (t_shape t) -> cmaes_center d g (Some (ATensor t)) = Ok (t_data t)) /\
                        (~ like_vector d (t_shape t) -> cmaes_center d g (Some (ATensor t)) = Err ValueError)).
  { intros [sh v]. unfold cmaes_center, squeeze. cbn [t_shape t_data]. rewrite <- (filter_single d sh D). split; intros H.
    - rewrite H, Nat.eqb_refl. reflexivity.
    - destruct (filter _ sh) as [|n [|? ?]]; auto. destruct (Nat.eqb_spec n d); [congruence|reflexivity]. }
  split; [|split; [|split; [|split]]].
  - unfold cmaes_center, squeeze. cbn. destruct (Nat.eqb_spec d 1); [contradiction|]. cbn. rewrite Nat.eqb_refl. reflexivity.
  - intros v L. unfold cmaes_center, squeeze. cbn. rewrite L. destruct (Nat.eqb_spec d 1); [contradiction|]. cbn. rewrite Nat.eqb_refl. reflexivity.
  - intros t m. destruct (K t) as [K1 K2]. split.
    + intros E. assert (Dec : {filter (fun n => negb (Nat.eqb n 1)) (t_shape t) = [d]} + {filter (fun n => negb (Nat.eqb n 1)) (t_shape t) <> [d]}) by (apply list_eq_dec, Nat.eq_dec).
      destruct Dec as [H|H]; rewrite (filter_single d (t_shape t) D) in H; [split; auto; rewrite K1 in E by exact H; congruence|rewrite K2 in E by exact H; discriminate].
    + intros [H ->]. apply K1. exact H.
  - intros [sh v]. unfold sized. cbn. intros -> [a [b ->]]. assert (P : forall n, fold_right Nat.mul 1 (repeat 1 n) = 1) by (induction n; cbn; lia).
    induction a; cbn; [rewrite P; lia|]. cbn in IHa. lia.
  - intros t. apply K.
Qed.
Print Assumptions C224_cmaes_partial.

(* but it cannot be started on a problem with solutions of length 1, whatever the center. *)
Theorem C224_cmaes_length_one_refuted : forall (num : Type) (generated : list num) (center : option (center_init num)),
  (forall v, center = Some (ASolution v) -> length v = 1) ->
  cmaes_center 1 generated center = Err ValueError.
Proof.
  intros num g c H. unfold cmaes_center, squeeze. destruct c as [[v|t]|]; cbn [t_shape t_data].
  - rewrite (H v eq_refl). reflexivity.
  - assert (N : ~ In 1 (filter (fun n => negb (Nat.eqb n 1)) (t_shape t))). { intros I. apply filter_In in I. destruct I as [_ I]. discriminate. }
    destruct (filter _ (t_shape t)) as [|n [|? ?]]; auto. destruct (Nat.eqb_spec n 1) as [->|]; [|reflexivity]. exfalso. apply N. left. reflexivity.
  - reflexivity.
Qed.
Print Assumptions C224_cmaes_length_one_refuted.

Example C224_example :
  like_vector 3 [1; 3; 1] /\ sized (mkT [1; 3; 1] [10; 20; 30]) /\
  cmaes_center 3 [7; 8; 9] (Some (ATensor (mkT [1; 3; 1] [10; 20; 30]))) = Ok [10; 20; 30] /\
  cmaes_center 3 [7; 8; 9] (Some (ATensor (mkT [] [10]))) = Err ValueError /\
  gaussian_center 3 [7; 8; 9] (Some (mkT [] [10])) = Ok [10; 10; 10] /\
  cmaes_center 1 [7] (Some (ATensor (mkT [1] [10]))) = Err ValueError.
Proof. split; [exists 1, 1; reflexivity|]. repeat split. Qed.

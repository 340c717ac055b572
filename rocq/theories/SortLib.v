(* Insertion sort with a boolean comparison: the sorting operations of torch are modelled by it. *)
From Verif Require Import Prelude.
From Coq Require Import Sorted.

Section Sort.
Context {A : Type} (le : A -> A -> bool).

Fixpoint insert (x : A) (l : list A) : list A :=
  match l with [] => [x] | y :: t => if le x y then x :: y :: t else y :: insert x t end.
(* stable: equal elements keep their order *)
Fixpoint isort (l : list A) : list A := match l with [] => [] | x :: t => insert x (isort t) end.

Lemma insert_perm x l : Permutation (x :: l) (insert x l).
Proof.
  induction l as [|y t IH]; simpl; auto. destruct (le x y); auto.
  transitivity (y :: x :: t); [constructor|]. constructor; auto.
Qed.
Lemma isort_perm l : Permutation l (isort l).
Proof. induction l as [|x t IH]; simpl; auto. transitivity (x :: isort t); auto. apply insert_perm. Qed.
Lemma isort_length l : length (isort l) = length l.
Proof. symmetry; apply Permutation_length, isort_perm. Qed.
Lemma isort_In x l : In x (isort l) <-> In x l.
Proof. split; apply Permutation_in; [symmetry|]; apply isort_perm. Qed.

Hypothesis total : forall x y, le x y = true \/ le y x = true.
Hypothesis trans : forall x y z, le x y = true -> le y z = true -> le x z = true.
Notation lep := (fun x y => le x y = true).

Lemma insert_sorted x l : StronglySorted lep l -> StronglySorted lep (insert x l).
Proof.
  induction 1 as [|y t H IH HF]; simpl; [repeat constructor|].
  destruct (le x y) eqn:E.
  - constructor; [constructor; auto|]. constructor; auto.
    eapply Forall_impl; [|exact HF]. cbn; intros z Hz. eapply trans; eauto.
  - constructor; auto. apply Forall_forall. intros z Hz.
    apply (Permutation_in z (Permutation_sym (insert_perm x t))) in Hz. destruct Hz as [<-|Hz].
    + destruct (total x y); congruence.
    + rewrite Forall_forall in HF. auto.
Qed.
Lemma isort_sorted l : StronglySorted lep (isort l).
Proof. induction l; simpl; [constructor|]. apply insert_sorted; auto. Qed.

(* an already sorted list is left as it is *)
Lemma isort_id l : StronglySorted lep l -> isort l = l.
Proof.
  induction 1 as [|y t H IH HF]; simpl; auto. rewrite IH. destruct t as [|z t]; auto. simpl.
  inversion HF; subst. rewrite H2. reflexivity.
Qed.

Lemma sorted_app l1 l2 : StronglySorted lep l1 -> StronglySorted lep l2 ->
  (forall x y, In x l1 -> In y l2 -> le x y = true) -> StronglySorted lep (l1 ++ l2).
Proof.
  induction 1 as [|y t H IH HF]; simpl; intros H2 Hxy; auto.
  constructor; [apply IH; auto|]. apply Forall_app; split; auto. apply Forall_forall. intros z Hz. apply Hxy; auto.
Qed.

Hypothesis antisym : forall x y, le x y = true -> le y x = true -> x = y.
Lemma sorted_unique : forall l l', StronglySorted lep l -> StronglySorted lep l' -> Permutation l l' -> l = l'.
Proof.
  induction l as [|x l IH]; intros l' H H' HP.
  - apply Permutation_nil in HP; auto.
  - destruct l' as [|y l']; [symmetry in HP; apply Permutation_nil in HP; discriminate|].
    inversion H as [|? ? Hs HF]; subst. inversion H' as [|? ? Hs' HF']; subst. rewrite Forall_forall in *.
    assert (E : x = y).
    { assert (Hx : In x (y :: l')) by (apply (Permutation_in _ HP); left; auto).
      assert (Hy : In y (x :: l)) by (apply (Permutation_in _ (Permutation_sym HP)); left; auto).
      destruct Hx as [->|Hx]; auto. destruct Hy as [->|Hy]; auto. }
    subst y. f_equal. apply IH; auto. eapply Permutation_cons_inv; eauto.
Qed.
End Sort.

Lemma sorted_nth {A} (R : A -> A -> Prop) : forall l i j x y, StronglySorted R l -> i < j ->
  nth_error l i = Some x -> nth_error l j = Some y -> R x y.
Proof.
  induction l as [|a l IH]; intros i j x y H Hij Hi Hj; [destruct i; discriminate|].
  inversion H; subst. destruct j as [|j]; [lia|]. destruct i as [|i]; simpl in *.
  - injection Hi as <-. rewrite Forall_forall in H3. apply H3. eapply nth_error_In; eauto.
  - apply (IH i j); auto; lia.
Qed.

From Verif Require Import Prelude StructMultiBatchModel.

(* what a user expects: entry (i,j) is the cell of batch position (i,j) *)
Definition expected_get {V} (B1 B2 : nat) (m : nat -> nat -> nat -> V) (keys : nat -> nat -> nat) : list (list V) :=
  map (fun i => map (fun j => m i j (keys i j)) (seq 0 B2)) (seq 0 B1).

Lemma mb_mismatch V B1 B2 (m : nat -> nat -> nat -> V) keys :
  B1 <> B2 -> B1 <> 1 -> B2 <> 1 -> mb_get B1 B2 m keys = Err IndexError.
Proof.
  intros H1 H2 H3. unfold mb_get, mb_cols, bc.
  rewrite (proj2 (Nat.eqb_neq B1 B2) H1), (proj2 (Nat.eqb_neq B1 1) H2), (proj2 (Nat.eqb_neq B2 1) H3). reflexivity.
Qed.

Lemma mb_square V B (m : nat -> nat -> nat -> V) keys : 2 <= B ->
  mb_get B B m keys = Ok (map (fun i => map (fun j => m j j (keys i j)) (seq 0 B)) (seq 0 B)).
Proof.
  intros H. unfold mb_get, mb_cols, bc. rewrite Nat.eqb_refl. cbn [mb_cell]. rewrite Nat.eqb_refl.
  unfold mb_cell, bcidx. rewrite (proj2 (Nat.eqb_neq B 1)) by lia. reflexivity.
Qed.

Lemma mb_one_row V B2 (m : nat -> nat -> nat -> V) keys : mb_get 1 B2 m keys = Ok (expected_get 1 B2 m keys).
Proof.
  unfold mb_get, mb_cols, bc. rewrite Nat.eqb_refl.
  assert (E : (if Nat.eqb 1 B2 then Some 1 else Some B2) = Some B2).
  { destruct (Nat.eqb_spec 1 B2); subst; reflexivity. }
  rewrite E, Nat.eqb_refl. f_equal. unfold expected_get. apply map_ext_in. intros i Hi.
  apply in_seq in Hi. assert (i = 0) by lia. subst. apply map_ext_in. intros j Hj. apply in_seq in Hj.
  unfold mb_cell, bcidx. rewrite Nat.eqb_refl. destruct (Nat.eqb_spec B2 1); [|reflexivity].
  assert (j = 0) by lia. subst. reflexivity.
Qed.

Lemma mb_one_row_cell B2 keys i j : j < B2 -> mb_cell 1 B2 keys i j = (0, j, keys i j).
Proof.
  intros H. unfold mb_cell, bcidx. rewrite Nat.eqb_refl. destruct (Nat.eqb_spec B2 1); [|reflexivity]. assert (j = 0) by lia. subst. reflexivity.
Qed.
Lemma mb_one_row_set V B2 (m : nat -> nat -> nat -> V) keys value order :
  Forall (fun p => fst p = 0 /\ snd p < B2) order -> (forall j, j < B2 -> In (0, j) order) ->
  exists m', mb_set 1 B2 order m keys value = Ok m' /\ (forall j, j < B2 -> m' 0 j (keys 0 j) = value 0 j) /\
    forall a b k, ~ (a = 0 /\ b < B2 /\ k = keys 0 b) -> m' a b k = m a b k.
Proof.
  intros F C. unfold mb_set, mb_cols, bc. rewrite Nat.eqb_refl.
  assert (E : (if Nat.eqb 1 B2 then Some 1 else Some B2) = Some B2).
  { destruct (Nat.eqb_spec 1 B2); subst; reflexivity. }
  rewrite E, Nat.eqb_refl. eexists. split; [reflexivity|].
  assert (G : forall m a b k, (exists j, j < B2 /\ In (0, j) order /\ (a, b, k) = (0, j, keys 0 j) /\ fold_left (fun m ij => put m (mb_cell 1 B2 keys (fst ij) (snd ij)) (value (fst ij) (bcidx B2 (snd ij)))) order m a b k = value 0 j) \/
    (forall j, In (0, j) order -> (a, b, k) <> (0, j, keys 0 j)) /\ fold_left (fun m ij => put m (mb_cell 1 B2 keys (fst ij) (snd ij)) (value (fst ij) (bcidx B2 (snd ij)))) order m a b k = m a b k).
  { clear C. induction F as [|[i j] order [Hi Hj] F IH]; intros m0 a b k; cbn [fold_left]; [right; split; auto; intros j []|]. cbn in Hi, Hj. subst i. cbn [fst snd].
    destruct (IH (put m0 (mb_cell 1 B2 keys 0 j) (value 0 (bcidx B2 j))) a b k) as [(q & H1 & H2 & H3 & H4)|[H1 H2]].
    - left. exists q. repeat split; auto. right. auto.
    - rewrite H2, mb_one_row_cell by auto. unfold put. destruct (Nat.eqb_spec a 0) as [->|Na]; cbn [andb]; [|right; split; auto; intros q [Q|Q]; [congruence|apply H1; auto]].
      destruct (Nat.eqb_spec b j) as [->|Nb]; cbn [andb]; [|right; split; auto; intros q [Q|Q]; [congruence|apply H1; auto]].
      destruct (Nat.eqb_spec k (keys 0 j)) as [->|Nk]; cbn [andb]; [|right; split; auto; intros q [Q|Q]; [injection Q as <-; congruence|apply H1; auto]].
      left. exists j. repeat split; auto; [left; auto|]. f_equal. unfold bcidx. destruct (Nat.eqb_spec B2 1); lia. }
  split.
  - intros j Hj. destruct (G m 0 j (keys 0 j)) as [(q & H1 & H2 & H3 & H4)|[H1 H2]]; [|exfalso; apply (H1 j); auto]. injection H3 as <- _. exact H4.
  - intros a b k N. destruct (G m a b k) as [(q & H1 & H2 & H3 & H4)|[H1 H2]]; [|exact H2]. injection H3 as -> -> ->. exfalso. apply N. auto.
Qed.

(* no pair of distinct batch positions of a square batch can be told apart *)
Lemma mb_square_rows_equal V B (m : nat -> nat -> nat -> V) k : 2 <= B ->
  exists row, mb_get B B m (fun _ _ => k) = Ok (repeat row B).
Proof.
  intros H. rewrite mb_square by auto. exists (map (fun j => m j j k) (seq 0 B)). f_equal.
  generalize (map (fun j => m j j k) (seq 0 B)) as row. intros row.
  assert (G : forall n s, map (fun _ : nat => row) (seq s n) = repeat row n).
  { induction n; intros; cbn; [reflexivity|]. f_equal. apply IHn. }
  apply G.
Qed.

Lemma read_after_write V B (order : list (nat * nat)) (m : nat -> nat -> nat -> V) k (value : nat -> nat -> V) :
  2 <= B -> value 0 0 <> value 1 0 ->
  exists m', mb_set B B order m (fun _ _ => k) value = Ok m' /\
  mb_get B B m' (fun _ _ => k) <> Ok (map (fun i => map (fun j => value i j) (seq 0 B)) (seq 0 B)).
Proof.
  intros HB Hv. unfold mb_set, mb_cols, bc. rewrite Nat.eqb_refl, Nat.eqb_refl. eexists. split; [reflexivity|].
  intros E. rewrite mb_square in E by auto. injection E as E.
  destruct B as [|[|B]]; try lia. cbn in E. injection E as E0 E1 E2 E3. congruence.
Qed.

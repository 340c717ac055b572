(* Properties of the questions about types and dtypes. *)
From Coq Require Import String.
From Verif Require Import Prelude TyModel TySpec.
Open Scope string_scope.

Ltac names := repeat match goal with |- context [String.eqb ?a ?b] => destruct (String.eqb_spec a b); [subst a|] end.
(* ------------------------------------------------------------------------------- C188 *)
Theorem C188_same_partial : forall other d t n, to_torch_dtype other d = Ok t -> to_numpy_dtype other d = Ok n ->
  d <> DName "float" -> d <> DName "int" -> same t n.
Proof.
  intros other d t n. assert (F : forall m, from_numpy m = Ok t -> same t m).
  { intros m. unfold same, same_table. destruct m; cbn [from_numpy]; intros Q; try discriminate; injection Q as <-; cbn; tauto. }
  destruct d as [u|m|s|p].
  - cbn [to_torch_dtype to_numpy_dtype]. intros Q1 Q2 _ _. injection Q1 as ->. unfold same, same_table. destruct t; cbn in Q2; try discriminate; injection Q2 as <-; cbn; tauto.
  - cbn [to_torch_dtype to_numpy_dtype is_dtype_object numpy_dtype bind]. intros Q1 Q2 _ _. injection Q2 as <-. auto.
  - unfold to_torch_dtype, to_numpy_dtype, is_dtype_object, numpy_dtype, torch_named, numpy_named. intros Q1 Q2 N1 N2. revert Q1 Q2. unfold same, same_table.
    names; cbn [orb bind]; intros Q1 Q2; try discriminate; try congruence; try (injection Q1 as <-; injection Q2 as <-; cbn; tauto).
    destruct (other s) as [m|]; [|discriminate]. cbn [bind] in Q1. injection Q2 as <-. apply F. auto.
  - unfold to_torch_dtype, to_numpy_dtype, is_dtype_object, numpy_dtype. destruct p; cbn; intros Q1 Q2 _ _; try discriminate; injection Q1 as <-; injection Q2 as <-; unfold same, same_table; cbn; tauto.
Qed.
(* "float" and "int" are 32 bits wide in PyTorch and 64 bits in numpy, and also as native types *)
Theorem C188_names_refuted : forall other,
  to_torch_dtype other (DName "float") = Ok TF32 /\ to_numpy_dtype other (DName "float") = Ok NF64 /\ to_torch_dtype other (DNative PyFloat) = Ok TF64 /\
  to_torch_dtype other (DName "int") = Ok TI32 /\ to_numpy_dtype other (DName "int") = Ok NI64 /\ to_torch_dtype other (DNative PyInt) = Ok TI64 /\
  ~ same TF32 NF64 /\ ~ same TI32 NI64.
Proof. intros other. do 6 (split; [reflexivity|]). unfold same, same_table. cbn. split; intuition discriminate. Qed.
Theorem C188_round_trip : forall other,
  (forall t, t <> TBF16 -> exists n, to_numpy_dtype other (DTorch t) = Ok n /\ to_torch_dtype other (DNumpy n) = Ok t) /\
  (forall n t, to_torch_dtype other (DNumpy n) = Ok t -> to_numpy_dtype other (DTorch t) = Ok n) /\
  to_numpy_dtype other (DTorch TBF16) = Err TypeError.
Proof.
  intros other. split; [|split; [|reflexivity]].
  - intros t N. destruct t; try congruence; eexists; split; reflexivity.
  - intros n t. destruct n; cbn; intros Q; try discriminate; injection Q as <-; reflexivity.
Qed.
Print Assumptions C188_same_partial.
Print Assumptions C188_names_refuted.
Print Assumptions C188_round_trip.
Example C188_example :
  to_torch_dtype (fun _ => None) (DName "double") = Ok TF64 /\ to_numpy_dtype (fun _ => None) (DName "double") = Ok NF64 /\
  to_torch_dtype (fun s => if String.eqb s "f4" then Some NF32 else None) (DName "f4") = Ok TF32 /\ to_torch_dtype (fun _ => None) (DName "Any") = Err TypeError.
Proof. repeat split; reflexivity. Qed.

(* ------------------------------------------------------------------------------- C189 *)
Ltac answer := eexists; split; [reflexivity|]; split;
  [ let H := fresh in intros H; first [discriminate H | solve [constructor; cbn; tauto] | left; solve [constructor; cbn; tauto] | right; solve [constructor; cbn; tauto]]
  | let H := fresh in intros H; first [reflexivity | exfalso; repeat match goal with H : _ \/ _ |- _ => destruct H | H : integer _ |- _ => inversion H; clear H | H : floating _ |- _ => inversion H; clear H | H : boolean _ |- _ => inversion H; clear H end; subst; cbn in *; intuition discriminate] ].
Theorem C189_kinds_partial : forall other x, x <> OTensor [] TBF16 ->
  answers (is_bool other x) (boolean x) /\ answers (is_integer other x) (integer x) /\ answers (is_real other x) (real x).
Proof.
  intros other x N. unfold answers, real.
  destruct x as [| | |n|[|a s] t|[|a s] n|l|l|c|]; try destruct n; try destruct t; try congruence; (split; [|split]); answer.
Qed.
Theorem C189_bfloat16_refuted : forall other,
  is_bool other (OTensor [] TBF16) = Err TypeError /\ is_integer other (OTensor [] TBF16) = Err TypeError /\ is_real other (OTensor [] TBF16) = Err TypeError.
Proof. intros. repeat split; reflexivity. Qed.
(* booleans are neither integers nor real numbers, integers are real numbers *)
Theorem C189_disjoint : forall x, (boolean x -> ~ real x) /\ (integer x -> real x /\ ~ floating x).
Proof.
  intros x. unfold real. split.
  - intros H [K|K]; destruct H; inversion K; subst; cbn in *; intuition discriminate.
  - intros H. split; [auto|]. intros K. destruct H; inversion K; subst; cbn in *; intuition (try congruence); subst; discriminate.
Qed.
Print Assumptions C189_kinds_partial.
Print Assumptions C189_bfloat16_refuted.
Print Assumptions C189_disjoint.
Example C189_example :
  is_integer (fun _ => None) (OTensor [] TU8) = Ok true /\ is_real (fun _ => None) OBool = Ok false /\ is_real (fun _ => None) (OArray [] NF16) = Ok true /\
  is_integer (fun _ => None) (OTensor [1] TI32) = Ok false /\ boolean (OScalar NBool).
Proof. repeat split; try reflexivity. constructor. Qed.

(* ------------------------------------------------------------------------------- C190 *)
Lemma all_items_spec f (P : obj -> Prop) l : (forall x, In x l -> answers (f x) (P x)) -> answers (all_items f l) (Forall P l).
Proof.
  intros H. induction l as [|x l IH]; [exists true; split; [reflexivity|split; auto]|]. cbn [all_items].
  destruct (H x (or_introl eq_refl)) as (b & -> & B). cbn [bind]. destruct b.
  - destruct IH as (c & -> & C); [intros; apply H; right; auto|]. exists c. split; [reflexivity|]. rewrite C. split; [intros F; constructor; [apply B; auto|auto]|intros F; inversion F; auto].
  - exists false. split; [reflexivity|]. split; [discriminate|]. intros F. inversion F; subst. apply B. auto.
Qed.
Lemma forall_repeat (P : obj -> Prop) x n : n <> 0 -> (Forall P (repeat x n) <-> P x).
Proof. intros N. split; [destruct n; [congruence|]; intros H; inversion H; auto|]. intros H. apply Forall_forall. intros y I. apply repeat_spec in I. subst. auto. Qed.
Lemma answers_ext r (P Q : Prop) : (P <-> Q) -> answers r Q -> answers r P.
Proof. intros E (b & H & B). exists b. split; [auto|]. rewrite E. auto. Qed.
Theorem C190_vectors_partial : forall other x, iterable x -> no_bfloat16 x -> items x <> [] -> (forall l, x <> OObjects l) ->
  answers (is_bool_vector other x) (Forall boolean (items x)) /\ answers (is_integer_vector other x) (Forall integer (items x)) /\ answers (is_real_vector other x) (Forall real (items x)).
Proof.
  intros other x It [Nb1 Nb2] Ne No. destruct x as [| | |n|[|a [|b s]] t|[|a [|b s]] n|l|l|c|]; try contradiction.
  - cbn [items] in *. assert (A : a <> 0) by (intros ->; auto). assert (T : OTensor [] t <> OTensor [] TBF16) by (intros Q; injection Q as ->; apply (Nb1 [a]); reflexivity).
    destruct (C189_kinds_partial other (OTensor [] t) T) as (H1 & H2 & H3). split; [|split]; (eapply answers_ext; [apply forall_repeat; auto|]); clear A; try clear T;
    unfold is_bool_vector, is_integer_vector, is_real_vector; cbn [is_vector]; assert (t <> TBF16) by (intros ->; apply (Nb1 [a]); reflexivity); revert H1 H2 H3; destruct t; try congruence; cbn; auto.
  - cbn [items] in *. assert (A : a <> 0) by (intros ->; auto).
    destruct (C189_kinds_partial other (OScalar n)) as (H1 & H2 & H3); [discriminate|]. split; [|split]; (eapply answers_ext; [apply forall_repeat; auto|]); clear A;
    unfold is_bool_vector, is_integer_vector, is_real_vector; cbn [is_vector]; revert H1 H2 H3; destruct n; cbn; auto.
  - exfalso. apply (No l). auto.
  - unfold is_bool_vector, is_integer_vector, is_real_vector. cbn [is_vector items] in *. split; [|split]; apply all_items_spec; intros x Ix; apply C189_kinds_partial; auto.
  - unfold is_bool_vector, is_integer_vector, is_real_vector. cbn [is_vector items] in *. split; [|split]; apply all_items_spec; intros x Ix; apply C189_kinds_partial; auto.
Qed.
(* nothing else is a vector: numbers, tensors and arrays with no or with several dimensions *)
Theorem C190_not_vectors : forall other x, ~ iterable x ->
  is_bool_vector other x = Ok false /\ is_integer_vector other x = Ok false /\ is_real_vector other x = Ok false.
Proof. intros other x H. destruct x as [| | |n|[|a [|b s]] t|[|a [|b s]] n|l|l|c|]; try (exfalso; apply H; exact I); repeat split; reflexivity. Qed.
(* vectors without elements: a list (or a string) is everything, a tensor is what its dtype says *)
Theorem C190_empty_refuted : forall other t, t <> TBF16 ->
  is_bool_vector other (OList []) = Ok true /\ is_integer_vector other (OList []) = Ok true /\ is_real_vector other (OList []) = Ok true /\ is_integer_vector other (OString 0) = Ok true /\
  (is_bool_vector other (OTensor [0] t) = Ok true <-> t = TBool) /\ (is_integer_vector other (OTensor [0] t) = Ok true <-> In t torch_ints).
Proof. intros other t N. do 4 (split; [reflexivity|]). destruct t; try congruence; cbn; split; intuition (try discriminate; try congruence). Qed.
(* numbers in an array with dtype object are not seen *)
Theorem C190_objects_refuted : forall other l,
  is_bool_vector other (OObjects l) = Ok false /\ is_integer_vector other (OObjects l) = Ok false /\ is_real_vector other (OObjects l) = Ok false.
Proof. intros. repeat split; reflexivity. Qed.
(* only things with at least one dimension are sequences, strings are not *)
Theorem C190_sequences : forall x, is_sequence x = true <->
  (exists n s t, x = OTensor (n :: s) t) \/ (exists n s d, x = OArray (n :: s) d) \/ (exists l, x = OObjects l) \/ exists l, x = OList l.
Proof.
  intros x. split.
  - destruct x as [| | |n|[|a s] t|[|a s] n|l|l|c|]; cbn; try discriminate; intros _; eauto 8.
  - intros [(n & s & t & ->)|[(n & s & d & ->)|[(l & ->)|(l & ->)]]]; reflexivity.
Qed.
Print Assumptions C190_vectors_partial.
Print Assumptions C190_not_vectors.
Print Assumptions C190_empty_refuted.
Print Assumptions C190_objects_refuted.
Print Assumptions C190_sequences.
Example C190_example :
  is_real_vector (fun _ => None) (OList [OInt; OScalar NF32; OTensor [] TI8]) = Ok true /\ is_real_vector (fun _ => None) (OList [OInt; OBool]) = Ok false /\
  is_integer_vector (fun _ => None) (OArray [3] NU16) = Ok true /\ is_integer_vector (fun _ => None) (OTensor [2; 3] TI8) = Ok false /\ no_bfloat16 (OList [OInt; OScalar NF32; OTensor [] TI8]).
Proof. do 4 (split; [reflexivity|]). split; [discriminate|]. cbn. intros y Q. intuition (subst; discriminate). Qed.

(* ------------------------------------------------------------------------------- C191 *)
Theorem C191_copy_partial : forall other castable x,
  (numpy_copy other castable x None = match x with STensor t => to_numpy_dtype other (DTorch t) | SObjects => Ok NObject | SArray n => Ok n | SOther n => Ok n end) /\
  forall d n, (forall t, d <> DTorch t) -> d <> DName "Any" -> d <> DNative TypingAny -> to_numpy_dtype other d = Ok n -> x <> STensor TBF16 -> (forall m, castable m n = true) ->
    numpy_copy other castable x (Some d) = Ok n.
Proof.
  intros other castable x. split; [destruct x; try reflexivity; unfold numpy_copy; cbn [to_numpy_dtype]; destruct (tensor_numpy t); reflexivity|].
  intros d n N1 N2 N3 E X C. assert (D : numpy_dtype other d = Ok n).
  { destruct d as [t|m|s|p]; [exfalso; apply (N1 t); reflexivity|exact E| |].
    - unfold to_numpy_dtype, is_dtype_object in E. destruct (String.eqb_spec s "object") as [->|A1]; [exact E|]. destruct (String.eqb_spec s "Any") as [->|A2]; [congruence|].
      destruct (String.eqb_spec s "O") as [->|A3]; [exact E|exact E].
    - destruct p; try exact E. congruence. }
  unfold numpy_copy. rewrite D. destruct x as [|t|m|m]; cbn [bind]; rewrite ?C; try reflexivity.
  destruct t; cbn [tensor_numpy bind]; rewrite ?C; try reflexivity. congruence.
Qed.
(* a PyTorch dtype, which the documentation allows, is refused *)
Theorem C191_torch_refuted : forall other castable x t, numpy_copy other castable x (Some (DTorch t)) = Err TypeError.
Proof. intros. destruct x as [|u|m|m]; try reflexivity. destruct u; reflexivity. Qed.
Print Assumptions C191_copy_partial.
Print Assumptions C191_torch_refuted.
Example C191_example :
  numpy_copy (fun _ => None) (fun _ _ => true) (STensor TF32) (Some (DName "float64")) = Ok NF64 /\ numpy_copy (fun _ => None) (fun _ _ => true) (STensor TF32) None = Ok NF32 /\
  numpy_copy (fun _ => None) (fun _ _ => true) (SArray NF32) (Some (DTorch TF32)) = Err TypeError.
Proof. repeat split; reflexivity. Qed.

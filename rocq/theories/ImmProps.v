(* C235: comparing immutable containers, looking for elements in them, and pickling them. *)
From Verif Require Import Prelude ImmModel.

(* ---- spec: the data which programs make of lists, tuples, sets and dictionaries, and when Python calls two of them equal ---- *)
Definition zipped (R : pv -> pv -> Prop) := fix go (l k : list pv) : Prop :=
  match l, k with [], [] => True | x :: l, y :: k => R x y /\ go l k | _, _ => False end.
Definition each (P : pv -> Prop) := fix go (l : list pv) : Prop := match l with [] => True | x :: l => P x /\ go l end.
Definition entries (P : atom -> pv -> Prop) := fix go (d : list (atom * pv)) : Prop := match d with [] => True | (k, v) :: d => P k v /\ go d end.
(* no immutable containers inside; keys and elements of sets occur once *)
Fixpoint plain (x : pv) : Prop :=
  match x with
  | PNone | PNum _ | PStr _ => True
  | PList l | PTup l => each plain l
  | PSet l => NoDup l
  | PDict d => NoDup (map fst d) /\ entries (fun _ v => plain v) d
  | _ => False
  end.
Fixpoint same (x y : pv) : Prop :=
  match x, y with
  | PNone, PNone => True
  | PNum a, PNum b => a = b
  | PStr a, PStr b => a = b
  | PList l, PList k | PTup l, PTup k => zipped same l k
  | PSet l, PSet k => forall a, In a l <-> In a k
  | PDict d, PDict e => (forall k, In k (map fst d) <-> In k (map fst e)) /\ entries (fun k v => exists w, In (k, w) e /\ same v w) d
  | _, _ => False
  end.
(* lists of lists of ... of numbers *)
Fixpoint nested (x : pv) : Prop := match x with PNum _ => True | PList l => each nested l | _ => False end.
(* lists face lists, tuples face tuples, and neither of them faces a string, a set or a dictionary *)
Definition paired (R : pv -> pv -> Prop) := fix go (l k : list pv) : Prop := match l, k with x :: l, y :: k => R x y /\ go l k | _, _ => True end.
Fixpoint aligned (x y : pv) : Prop :=
  match x, y with
  | PList l, PList k | PTup l, PTup k => paired aligned l k
  | PList _, (PTup _ | PStr _ | PSet _ | PDict _) | PTup _, (PList _ | PStr _ | PSet _ | PDict _) => False
  | PDict d, PDict e => entries (fun k v => forall w, In (k, w) e -> aligned v w) d
  | _, _ => True
  end.
(* an immutable set somewhere inside *)
Inductive set_inside : pv -> Prop :=
  | set_here l : set_inside (ISet l)
  | set_in_list l x : In x l -> set_inside x -> set_inside (PList l)
  | set_in_tuple l x : In x l -> set_inside x -> set_inside (PTup l)
  | set_in_ilist l x : In x l -> set_inside x -> set_inside (IList l)
  | set_in_dict d k x : In (k, x) d -> set_inside x -> set_inside (PDict d)
  | set_in_idict d k x : In (k, x) d -> set_inside x -> set_inside (IDict d).

(* ---- basics ---- *)
Lemma atom_eqb_ok a b : atom_eqb a b = true <-> a = b.
Proof. destruct a as [x|x], b as [y|y]; cbn; try (split; discriminate); [rewrite Z.eqb_eq; split; congruence|]. destruct (list_eq_dec Nat.eq_dec x y); split; congruence. Qed.
Lemma member_ok a l : member a l = true <-> In a l.
Proof. unfold member. rewrite existsb_exists. split; [intros (b & H & E); apply atom_eqb_ok in E; congruence|intros H; exists a; split; [auto|apply atom_eqb_ok; auto]]. Qed.
Lemma lookup_in k d v : NoDup (map fst d) -> In (k, v) d -> lookup k d = Some v.
Proof.
  induction d as [|[k' v'] d IH]; intros N H; [contradiction|]. cbn in N. inversion N as [|? ? N1 N2]; subst. cbn. destruct H as [H|H].
  - injection H as -> ->. rewrite (proj2 (atom_eqb_ok k k) eq_refl). reflexivity.
  - destruct (atom_eqb k' k) eqn:E; [|auto]. apply atom_eqb_ok in E. subst. exfalso. apply N1. apply (in_map fst) in H. exact H.
Qed.
Lemma lookup_some k d v : lookup k d = Some v -> In (k, v) d.
Proof. induction d as [|[k' v'] d IH]; cbn; [discriminate|]. destruct (atom_eqb k' k) eqn:E; [apply atom_eqb_ok in E; subst; intros Q; injection Q as ->; auto|auto]. Qed.
Lemma size_in x l : In x l -> size x <= list_sum (map size l).
Proof. induction l as [|y l IH]; intros H; [contradiction|]. change (list_sum (map size (y :: l))) with (size y + list_sum (map size l)). destruct H as [->|H]; [lia|]. specialize (IH H). lia. Qed.
Lemma size_entry k v d : In (k, v) d -> size v <= list_sum (map (fun kv : atom * pv => size (snd kv)) d).
Proof.
  induction d as [|y d IH]; intros H; [contradiction|]. change (list_sum (map (fun kv : atom * pv => size (snd kv)) (y :: d))) with (size (snd y) + list_sum (map (fun kv : atom * pv => size (snd kv)) d)). destruct H as [->|H]; [cbn [snd]; lia|]. specialize (IH H). lia.
Qed.
Lemma size_pos x : 1 <= size x. Proof. destruct x; cbn; lia. Qed.
Lemma size_iterate y k x : iterate y = Some k -> In x k -> size x <= size y.
Proof.
  destruct y; cbn [iterate]; intros E H; try discriminate; injection E as <-;
    try (apply in_map_iff in H; destruct H as (c & <- & _)); try (destruct c as [z|z]); try (destruct (fst c)); try (cbn; lia);
    pose proof (size_in _ _ H); cbn [size]; lia.
Qed.

(* comparisons end *)
Lemma sequence_total (eq : pv -> pv -> result bool) : forall l k, (forall x y, In x l -> In y k -> eq x y <> Err OutOfFuel) -> sequence_eq eq l k <> Err OutOfFuel.
Proof.
  induction l as [|x l IH]; intros [|y k] H; cbn; try discriminate. specialize (IH k). pose proof (H x y (or_introl eq_refl) (or_introl eq_refl)) as H0. destruct (eq x y) as [[|]|e]; cbn; try discriminate; [|congruence].
  apply IH. intros a b Ha Hb. apply H; right; auto.
Qed.
Lemma items_total (eq : pv -> pv -> result bool) e : forall d, (forall k v w, In (k, v) d -> In (k, w) e -> eq v w <> Err OutOfFuel) -> items_eq eq d e <> Err OutOfFuel.
Proof.
  induction d as [|[k v] d IH]; intros H; cbn; [discriminate|]. destruct (lookup k e) as [w|] eqn:L; [|discriminate]. apply lookup_some in L. pose proof (H k v w (or_introl eq_refl) L) as H0.
  destruct (eq v w) as [[|]|x]; cbn; try discriminate; [|congruence]. apply IH. intros; eapply H; eauto. right. eauto.
Qed.
Theorem C235_terminates : forall x y, equals x y <> Err OutOfFuel.
Proof.
  assert (G : forall f x y, size x + size y < f -> py_eq f x y <> Err OutOfFuel).
  { induction f as [|f IH]; intros x y F; [lia|].
    assert (SQ : forall l u k, S (list_sum (map size l)) + size u < S f -> iterate u = Some k -> sequence_eq (py_eq f) l k <> Err OutOfFuel).
    { intros l u k F' E. apply sequence_total. intros a b Ha Hb. apply IH. pose proof (size_in _ _ Ha). pose proof (size_iterate _ _ _ E Hb). lia. }
    assert (DQ : forall d e, S (list_sum (map (fun kv : atom * pv => size (snd kv)) d)) + S (list_sum (map (fun kv : atom * pv => size (snd kv)) e)) < S f -> python_dict_eq (py_eq f) d e <> Err OutOfFuel).
    { intros d e F'. unfold python_dict_eq. destruct (_ =? _); [|discriminate]. apply items_total. intros k v w Hv Hw. apply IH. pose proof (size_entry _ _ _ Hv). pose proof (size_entry _ _ _ Hw). lia. }
    assert (LQ : forall l k, S (list_sum (map size l)) + S (list_sum (map size k)) < S f -> python_list_eq (py_eq f) l k <> Err OutOfFuel).
    { intros l k F'. unfold python_list_eq. destruct (_ =? _); [|discriminate]. apply sequence_total. intros a b Ha Hb. apply IH. pose proof (size_in _ _ Ha). pose proof (size_in _ _ Hb). lia. }
    destruct x, y; cbn [py_eq iterate]; cbn [size] in F; try discriminate; try (apply LQ; lia); try (apply DQ; lia);
      match goal with
      | |- context [sequence_eq _ ?l (map (fun c => PStr [c]) ?s)] => apply (SQ l (PStr s)); [cbn [size]; lia|reflexivity]
      | |- context [sequence_eq _ ?l (map of_atom ?s)] => apply (SQ l (PSet s)); [cbn [size]; lia|reflexivity]
      | |- context [sequence_eq _ ?l (map (fun kv : atom * pv => of_atom (fst kv)) ?s)] => apply (SQ l (PDict s)); [cbn [size]; lia|reflexivity]
      | |- context [sequence_eq _ ?l ?k] => apply (SQ l (PList k)); [cbn [size]; lia|reflexivity]
      end. }
  intros x y. apply G. lia.
Qed.

(* ---- equal data stay equal ---- *)
(* an immutable container and what it is to be equal to *)
Fixpoint alike (x y : pv) : Prop :=
  match x, y with
  | PNone, PNone => True
  | PNum a, PNum b => a = b
  | PStr a, PStr b => a = b
  | IList l, PList k | IList l, PTup k | IList l, IList k => zipped alike l k
  | ISet l, PSet k | ISet l, ISet k => set_eq l k = true
  | IDict d, PDict e | IDict d, IDict e => length d = length e /\ entries (fun k v => exists w, lookup k e = Some w /\ alike v w) d
  | _, _ => False
  end.
Lemma zipped_sequence (R : pv -> pv -> Prop) eq : forall l k, zipped R l k -> (forall x y, In x l -> In y k -> R x y -> eq x y = Ok true) -> sequence_eq eq l k = Ok true.
Proof.
  induction l as [|x l IH]; intros [|y k] Z H; cbn in Z |- *; try contradiction; [reflexivity|]. destruct Z as [Z1 Z2]. rewrite (H x y) by (auto; left; reflexivity). cbn [bind]. apply IH; [exact Z2|]. intros a b Ha Hb. apply H; right; auto.
Qed.
Lemma entries_items eq e : forall d, entries (fun k v => exists w, lookup k e = Some w /\ eq v w = Ok true) d -> items_eq eq d e = Ok true.
Proof. induction d as [|[k v] d IH]; intros H; cbn in H |- *; [reflexivity|]. destruct H as [(w & L & E) H]. rewrite L, E. cbn [bind]. apply IH. exact H. Qed.
Lemma entries_impl (P Q : atom -> pv -> Prop) : forall d, entries P d -> (forall k v, In (k, v) d -> P k v -> Q k v) -> entries Q d.
Proof. induction d as [|[k v] d IH]; intros H I0; cbn in *; [auto|]. destruct H as [H1 H2]. split; [apply I0; auto|]. apply IH; auto. Qed.
Lemma entries_all (P : atom -> pv -> Prop) : forall d k v, entries P d -> In (k, v) d -> P k v.
Proof. induction d as [|[k' v'] d IH]; intros k v H I0; cbn in *; [contradiction|]. destruct H as [H1 H2]. destruct I0 as [E|I0]; [injection E as -> ->; exact H1|eauto]. Qed.
Lemma each_all (P : pv -> Prop) : forall l x, each P l -> In x l -> P x.
Proof. induction l as [|y l IH]; intros x H I0; cbn in *; [contradiction|]. destruct H as [H1 H2]. destruct I0 as [->|I0]; [exact H1|eauto]. Qed.
Lemma alike_equal : forall f x y, alike x y -> size x + size y < f -> py_eq f x y = Ok true.
Proof.
  induction f as [|f IH]; intros x y A F; [lia|].
  assert (SQ : forall l k, S (list_sum (map size l)) + S (list_sum (map size k)) < S f -> zipped alike l k -> sequence_eq (py_eq f) l k = Ok true).
  { intros l k F' Z. apply (zipped_sequence alike); [exact Z|]. intros a b Ha Hb R. apply IH; [exact R|]. pose proof (size_in _ _ Ha). pose proof (size_in _ _ Hb). lia. }
  assert (DQ : forall d e, S (list_sum (map (fun kv : atom * pv => size (snd kv)) d)) + S (list_sum (map (fun kv : atom * pv => size (snd kv)) e)) < S f ->
    length d = length e /\ entries (fun k v => exists w, lookup k e = Some w /\ alike v w) d -> python_dict_eq (py_eq f) d e = Ok true).
  { intros d e F' [L H]. unfold python_dict_eq. rewrite (proj2 (Nat.eqb_eq _ _) L). apply entries_items. apply (entries_impl _ _ _ H). intros k v Hv (w & Lw & R). exists w. split; [exact Lw|].
    apply IH; [exact R|]. pose proof (size_entry _ _ _ Hv). pose proof (size_entry _ _ _ (lookup_some _ _ _ Lw)). lia. }
  destruct x, y; cbn [alike] in A; try contradiction; cbn [py_eq iterate]; cbn [size] in F; try reflexivity; try (apply SQ; [lia|exact A]); try (apply DQ; [lia|exact A]); try (rewrite A; reflexivity).
  - subst. rewrite Z.eqb_refl. reflexivity.
  - subst. destruct (list_eq_dec _ _ _); [reflexivity|congruence].
Qed.
Lemma map_fst_frozen d : map fst (map (fun kv : atom * pv => (fst kv, as_immutable (snd kv))) d) = map fst d.
Proof. rewrite map_map. reflexivity. Qed.
Lemma lookup_frozen k d : lookup k (map (fun kv => (fst kv, as_immutable (snd kv))) d) = option_map as_immutable (lookup k d).
Proof. induction d as [|[k' v] d IH]; cbn; [reflexivity|]. destruct (atom_eqb k' k); [reflexivity|exact IH]. Qed.
Lemma set_eq_ok l k : NoDup l -> NoDup k -> (forall a, In a l <-> In a k) -> set_eq l k = true.
Proof.
  intros N M H. unfold set_eq. apply andb_true_iff. split.
  - apply Nat.eqb_eq. apply Nat.le_antisymm; apply NoDup_incl_length; auto; intros a; apply H.
  - apply forallb_forall. intros a Ha. apply member_ok, H, Ha.
Qed.
Lemma frozen_alike : forall n x y, size x < n -> plain x -> plain y -> same x y -> alike (as_immutable x) y /\ alike (as_immutable x) (as_immutable y).
Proof.
  induction n as [|n IH]; intros x y F Px Py S0; [lia|].
  assert (ZQ : forall l k, S (list_sum (map size l)) < S n -> each plain l -> each plain k -> zipped same l k -> zipped alike (map as_immutable l) k /\ zipped alike (map as_immutable l) (map as_immutable k)).
  { intros l. induction l as [|a l IHl]; intros [|b k] F' Pl Pk Z; cbn in Z; try contradiction; [cbn; auto|]. change (list_sum (map size (a :: l))) with (size a + list_sum (map size l)) in F'. destruct Pl as [Pa Pl], Pk as [Pb Pk], Z as [Z1 Z2].
    destruct (IH a b ltac:(lia) Pa Pb Z1) as [A1 A2]. destruct (IHl k ltac:(lia) Pl Pk Z2) as [B1 B2]. cbn. auto. }
  destruct x, y; cbn [same] in S0; try contradiction; cbn [plain] in Px, Py; try contradiction; cbn [size] in F; cbn [as_immutable alike]; auto.
  - pose proof (set_eq_ok _ _ Px Py S0). auto.
  - destruct Px as [Nd Pd], Py as [Ne Pe], S0 as [K En].
    assert (L : length d = length d0). { rewrite <- (map_length fst d), <- (map_length fst d0). apply Nat.le_antisymm; apply NoDup_incl_length; auto; intros a; apply K. }
    assert (W : forall k v, In (k, v) d -> exists w, lookup k d0 = Some w /\ alike (as_immutable v) w /\ alike (as_immutable v) (as_immutable w)).
    { intros k v Hv. destruct (entries_all _ _ _ _ En Hv) as (w & Hw & Sw). exists w. split; [apply lookup_in; auto|]. apply IH; [pose proof (size_entry _ _ _ Hv); lia|exact (entries_all _ _ _ _ Pd Hv)|exact (entries_all _ _ _ _ Pe Hw)|exact Sw]. }
    assert (G : forall (P : atom -> pv -> Prop), (forall k v, In (k, v) d -> P k (as_immutable v)) -> entries P (map (fun kv => (fst kv, as_immutable (snd kv))) d)).
    { intros P. clear. induction d as [|[k v] d IHd]; intros H; cbn; [auto|]. split; [apply H; left; auto|]. apply IHd. intros; apply H; right; auto. }
    rewrite !map_length. split; (split; [exact L|]); apply G; intros k v Hv; destruct (W k v Hv) as (w & W1 & W2 & W3).
    + exists w. auto.
    + exists (as_immutable w). rewrite lookup_frozen, W1. auto.
Qed.
Lemma turned : forall x y f, plain x -> plain y -> same x y -> py_eq f y (as_immutable x) = py_eq f (as_immutable x) y.
Proof.
  intros x y [|f] Px Py S0; [reflexivity|]. destruct x, y; cbn [same] in S0; try contradiction; cbn [plain] in Px, Py; try contradiction; cbn [as_immutable py_eq iterate]; try reflexivity.
  - f_equal. apply Z.eqb_sym.
  - subst. destruct (list_eq_dec _ _ _); congruence.
Qed.
(* what Python calls equal is equal to its immutable version, in both orders, and the immutable versions are equal to each other *)
Theorem C235_equal_partial : forall x y, plain x -> plain y -> same x y ->
  equals (as_immutable x) y = Ok true /\ equals y (as_immutable x) = Ok true /\ equals (as_immutable x) (as_immutable y) = Ok true.
Proof.
  intros x y Px Py S0. destruct (frozen_alike (S (size x)) x y ltac:(lia) Px Py S0) as [A B]. unfold equals. split; [apply alike_equal; [exact A|lia]|]. split; [|apply alike_equal; [exact B|lia]].
  rewrite turned by auto. rewrite (Nat.add_comm (size y)). apply alike_equal; [exact A|lia].
Qed.
(* and for nested lists of numbers nothing else is *)
Theorem C235_different_partial : forall x y, nested x -> nested y -> equals (as_immutable x) y = Ok true -> same x y.
Proof.
  assert (G : forall f x y, nested x -> nested y -> py_eq f (as_immutable x) y = Ok true -> same x y).
  { induction f as [|f IH]; intros x y Nx Ny E; [discriminate|]. destruct x, y; cbn [nested] in Nx, Ny; try contradiction; cbn [as_immutable py_eq iterate] in E; try discriminate; cbn [same].
    - injection E as E. apply Z.eqb_eq. exact E.
    - revert l0 Ny E. induction l as [|a l IHl]; intros [|b k] Ny E; cbn [map sequence_eq zipped] in *; try discriminate; [exact I|]. destruct Nx as [Na Nl], Ny as [Nb Nk].
      destruct (py_eq f (as_immutable a) b) as [[|]|] eqn:Eab; try discriminate. cbn [bind] in E. split; [apply IH; auto|]. apply IHl; auto. }
  intros x y Nx Ny. apply G; auto.
Qed.
(* nor for any data of which no list or tuple faces another kind of container *)
Lemma items_true eq e : forall d, items_eq eq d e = Ok true -> forall k v, In (k, v) d -> exists w, In (k, w) e /\ eq v w = Ok true.
Proof.
  induction d as [|[k0 v0] d IH]; intros E k v H; [contradiction|]. cbn [items_eq] in E. destruct (lookup k0 e) as [w|] eqn:L; [|discriminate]. destruct (eq v0 w) as [[|]|] eqn:Q; try discriminate. cbn [bind] in E.
  destruct H as [H|H]; [injection H as -> ->; exists w; split; [apply lookup_some; exact L|exact Q]|]. apply IH; auto.
Qed.
Theorem C235_converse_partial : forall x y, plain x -> plain y -> aligned x y -> equals (as_immutable x) y = Ok true -> same x y.
Proof.
  assert (G : forall f x y, plain x -> plain y -> aligned x y -> py_eq f (as_immutable x) y = Ok true -> same x y).
  { induction f as [|f IH]; intros x y Px Py A E; [discriminate|].
    assert (ZQ : forall l k, each plain l -> each plain k -> paired aligned l k -> sequence_eq (py_eq f) (map as_immutable l) k = Ok true -> zipped same l k).
    { induction l as [|a l IHl]; intros [|b k] Pl Pk Q E'; cbn [map sequence_eq zipped] in *; try discriminate; [exact I|]. destruct Pl as [Pa Pl], Pk as [Pb Pk], Q as [Qa Ql].
      destruct (py_eq f (as_immutable a) b) as [[|]|] eqn:Eab; try discriminate. cbn [bind] in E'. split; [apply IH; auto|apply IHl; auto]. }
    destruct x, y; cbn [plain] in Px, Py; try contradiction; cbn [aligned] in A; try contradiction; cbn [as_immutable py_eq iterate] in E; try discriminate; cbn [same]; auto.
    - injection E as E. apply Z.eqb_eq. exact E.
    - destruct (list_eq_dec Nat.eq_dec s s0); [auto|discriminate].
    - injection E as E. unfold set_eq in E. apply andb_true_iff in E. destruct E as [L M]. apply Nat.eqb_eq in L. rewrite forallb_forall in M.
      assert (I1 : incl l l0) by (intros a Ha; apply member_ok, M, Ha). intros a. split; [apply I1|]. apply (NoDup_length_incl Px); [lia|exact I1].
    - destruct Px as [Nd Pd], Py as [Ne Pe]. unfold python_dict_eq in E. rewrite map_length in E. destruct (length d =? length d0) eqn:L; [|discriminate]. apply Nat.eqb_eq in L.
      pose proof (items_true _ _ _ E) as T.
      assert (W : forall k v, In (k, v) d -> exists w, In (k, w) d0 /\ py_eq f (as_immutable v) w = Ok true).
      { intros k v Hv. apply T. apply in_map_iff. exists (k, v). auto. }
      assert (I1 : incl (map fst d) (map fst d0)). { intros a Ha. apply in_map_iff in Ha. destruct Ha as ([k v] & <- & Hv). destruct (W k v Hv) as (w & Hw & _). apply in_map_iff. exists (k, w). auto. }
      split; [intros k; split; [apply I1|apply (NoDup_length_incl Nd); [rewrite !map_length; lia|exact I1]]|].
      apply (entries_impl _ _ _ A). intros k v Hv Al. destruct (W k v Hv) as (w & Hw & Ew). exists w. split; [exact Hw|]. apply IH; [exact (entries_all _ _ _ _ Pd Hv)|exact (entries_all _ _ _ _ Pe Hw)|apply Al; exact Hw|exact Ew]. }
  intros x y. apply G.
Qed.
(* ---- where it is false ---- *)
(* Two nested lists which agree up to a place where the one has a list and the other one a number are different; to compare the immutable version of
   the first one with the second one, or with its immutable version, raises TypeError. *)
Lemma prefix_eq f : forall pre, (forall x, In x pre -> py_eq f (as_immutable x) x = Ok true /\ py_eq f (as_immutable x) (as_immutable x) = Ok true) -> forall l k,
  sequence_eq (py_eq f) (map as_immutable (pre ++ l)) (pre ++ k) = sequence_eq (py_eq f) (map as_immutable l) k /\
  sequence_eq (py_eq f) (map as_immutable (pre ++ l)) (map as_immutable (pre ++ k)) = sequence_eq (py_eq f) (map as_immutable l) (map as_immutable k).
Proof.
  induction pre as [|x pre IH]; intros H l k; [auto|]. destruct (H x (or_introl eq_refl)) as [A B]. destruct (IH ltac:(intros; apply H; right; auto) l k) as [C D].
  cbn [app map sequence_eq]. rewrite A, B. cbn [bind]. auto.
Qed.
Lemma same_refl : forall n x, size x < n -> plain x -> same x x.
Proof.
  induction n as [|n IH]; intros x F P; [lia|].
  assert (ZQ : forall l, S (list_sum (map size l)) < S n -> each plain l -> zipped same l l).
  { induction l as [|a l IHl]; intros F' Pl; cbn; [auto|]. change (list_sum (map size (a :: l))) with (size a + list_sum (map size l)) in F'. destruct Pl as [Pa Pl]. split; [apply IH; auto; lia|apply IHl; auto; lia]. }
  destruct x; cbn [plain] in P; try contradiction; cbn [size] in F; cbn [same]; auto; try reflexivity; try tauto. split; [tauto|]. destruct P as [_ P].
  assert (G : forall e, incl e d -> entries (fun k v => exists w, In (k, w) d /\ same v w) e).
  { induction e as [|[k v] e IHe]; intros I0; cbn; [auto|]. split; [|apply IHe; intros a Ha; apply I0; right; auto]. exists v. assert (Hv : In (k, v) d) by (apply I0; left; auto). split; [exact Hv|].
    apply IH; [pose proof (size_entry _ _ _ Hv); lia|exact (entries_all _ _ _ _ P Hv)]. }
  apply G. apply incl_refl.
Qed.
Theorem C235_raises_refuted : forall pre l z, each plain pre -> let x := PList (pre ++ [PList l]) in let y := PList (pre ++ [PNum z]) in
  ~ same x y /\ equals (as_immutable x) y = Err TypeError /\ equals (as_immutable x) (as_immutable y) = Err TypeError.
Proof.
  intros pre l z Pp x y. split.
  - unfold x, y. cbn [same]. induction pre as [|a pre IH]; cbn; [tauto|]. destruct Pp as [_ Pp]. intros [_ H]. exact (IH Pp H).
  - assert (H : forall f, 2 * list_sum (map size pre) < f -> size (as_immutable (PList pre)) <= size (PList pre) -> forall a, In a pre -> py_eq f (as_immutable a) a = Ok true /\ py_eq f (as_immutable a) (as_immutable a) = Ok true).
    { intros f F _ a Ha. pose proof (each_all _ _ _ Pp Ha) as Pa. destruct (frozen_alike (S (size a)) a a ltac:(lia) Pa Pa (same_refl (S (size a)) a ltac:(lia) Pa)) as [A B].
      assert (SI : forall n v, size v < n -> size (as_immutable v) = size v).
      { induction n as [|n IHn]; intros v Fv; [lia|].
        assert (SL : forall m, S (list_sum (map size m)) < S n -> map size (map as_immutable m) = map size m).
        { induction m as [|c m IHm]; intros Fm; [reflexivity|]. change (list_sum (map size (c :: m))) with (size c + list_sum (map size m)) in Fm. cbn [map]. f_equal; [apply IHn; lia|apply IHm; lia]. }
        destruct v; cbn [as_immutable size] in *; try reflexivity; try (f_equal; f_equal; apply SL; lia).
        f_equal. f_equal. rewrite map_map. apply map_ext_in. intros [k v] Hv. cbn [fst snd]. apply IHn. pose proof (size_entry _ _ _ Hv). lia. }
      pose proof (size_in _ _ Ha). split; apply alike_equal; auto; rewrite ?(SI (S (size a))) by lia; lia. }
    assert (SM : forall u v : list pv, list_sum (map size (u ++ v)) = list_sum (map size u) + list_sum (map size v)).
    { intros u v. rewrite map_app, list_sum_app. reflexivity. }
    assert (FZ : forall n v, size v < n -> size (as_immutable v) = size v).
    { induction n as [|n IHn]; intros v Fv; [lia|].
      assert (SL : forall m, S (list_sum (map size m)) < S n -> map size (map as_immutable m) = map size m).
      { induction m as [|c m IHm]; intros Fm; [reflexivity|]. change (list_sum (map size (c :: m))) with (size c + list_sum (map size m)) in Fm. cbn [map]. f_equal; [apply IHn; lia|apply IHm; lia]. }
      destruct v; cbn [as_immutable size] in *; try reflexivity; try (f_equal; f_equal; apply SL; lia).
      f_equal. f_equal. rewrite map_map. apply map_ext_in. intros [k v] Hv. cbn [fst snd]. apply IHn. pose proof (size_entry _ _ _ Hv). lia. }
    assert (ZX : size x = S (list_sum (map size pre) + S (list_sum (map size l)))) by (unfold x; cbn [size]; rewrite SM; cbn [map size list_sum fold_right]; unfold list_sum; cbn [fold_right]; lia).
    assert (ZY : size y = S (list_sum (map size pre) + 1)) by (unfold y; cbn [size]; rewrite SM; unfold list_sum; cbn [map size fold_right]; lia).
    unfold equals. rewrite (FZ (S (size x)) x), (FZ (S (size y)) y), ZX, ZY by lia.
    set (f := S (list_sum (map size pre) + S (list_sum (map size l))) + S (list_sum (map size pre) + 1)).
    assert (F : 2 * list_sum (map size pre) < f) by (unfold f; lia).
    destruct (prefix_eq f pre (H f F ltac:(rewrite (FZ (S (size (PList pre)))) by lia; lia)) [PList l] [PNum z]) as [A B].
    unfold x, y. cbn [as_immutable py_eq iterate]. rewrite A, B. cbn [map sequence_eq as_immutable]. destruct f as [|f']; [lia|]. cbn [py_eq iterate bind]. auto.
Qed.
(* The kind of a container is forgotten: the immutable version of a tuple is equal to the list with the same elements, that of the list of the characters
   of a string is equal to the string, and that of the list of the keys of a dictionary is equal to the dictionary.  Hence equality is not transitive. *)
Lemma atoms_eq f l : sequence_eq (py_eq (S f)) (map of_atom l) (map of_atom l) = Ok true.
Proof. induction l as [|[z|s] l IH]; [reflexivity| |]; cbn [map of_atom sequence_eq py_eq]; [rewrite Z.eqb_refl|destruct (list_eq_dec Nat.eq_dec s s); [|congruence]]; exact IH. Qed.
Lemma frozen_atoms l : map as_immutable (map of_atom l) = map of_atom l.
Proof. rewrite map_map. apply map_ext. intros [z|s]; reflexivity. Qed.
Lemma keys_equal l y : iterate y = Some (map of_atom l) -> equals (as_immutable (PList (map of_atom l))) y = Ok true.
Proof.
  intros E. unfold equals. cbn [as_immutable]. rewrite frozen_atoms. set (n := size (IList (map of_atom l)) + size y).
  assert (P : 1 <= n) by (unfold n; pose proof (size_pos y); lia). destruct n as [|n]; [lia|]. change (py_eq (S (S n)) (IList (map of_atom l)) y) with (match iterate y with None => Err TypeError | Some k => sequence_eq (py_eq (S n)) (map of_atom l) k end).
  rewrite E. apply atoms_eq.
Qed.
Theorem C235_tuple_refuted : forall l, each plain l -> ~ same (PTup l) (PList l) /\ equals (as_immutable (PTup l)) (PList l) = Ok true /\ equals (as_immutable (PList l)) (PTup l) = Ok true.
Proof.
  intros l P. split; [cbn; tauto|]. assert (Q : plain (PList l)) by exact P. pose proof (same_refl _ (PList l) (Nat.lt_succ_diag_r _) Q) as S0. split; [exact (proj1 (C235_equal_partial _ _ Q Q S0))|].
  exact (proj1 (C235_equal_partial (PTup l) (PTup l) P P S0)).
Qed.
Theorem C235_keys_refuted :
  (forall s, let l := PList (map (fun c => PStr [c]) s) in ~ same l (PStr s) /\ equals (as_immutable l) (PStr s) = Ok true) /\
  forall (d e : list (atom * Z)) k v w, map fst d = map fst e -> NoDup (map fst d) -> In (k, v) d -> In (k, w) e -> v <> w ->
    let dict := fun d : list (atom * Z) => PDict (map (fun kv : atom * Z => (fst kv, PNum (snd kv))) d) in
    let keys := as_immutable (PList (map (fun kv => of_atom (fst kv)) d)) in
    equals keys (dict d) = Ok true /\ equals keys (dict e) = Ok true /\ equals (as_immutable (dict d)) (dict e) = Ok false.
Proof.
  split.
  - intros s l. split; [cbn; tauto|]. unfold l. replace (map (fun c => PStr [c]) s) with (map of_atom (map (fun c => AStr [c]) s)) by (rewrite map_map; reflexivity). apply keys_equal. cbn [iterate]. rewrite map_map. reflexivity.
  - intros d e k v w K N Hd He D dict keys. unfold keys. replace (map (fun kv => of_atom (fst kv)) d) with (map of_atom (map fst d)) by (rewrite map_map; reflexivity). split; [|split].
    + apply keys_equal. cbn [iterate dict]. rewrite !map_map. reflexivity.
    + rewrite K. apply keys_equal. cbn [iterate dict]. rewrite !map_map. reflexivity.
    + unfold dict, equals. cbn [as_immutable]. rewrite map_map. cbn [fst snd as_immutable]. set (D1 := map (fun kv : atom * Z => (fst kv, PNum (snd kv))) d). set (E1 := map (fun kv : atom * Z => (fst kv, PNum (snd kv))) e).
      set (n := size (IDict D1) + size (PDict E1)). assert (P : 1 <= n) by (unfold n; pose proof (size_pos (PDict E1)); lia). destruct n as [|n]; [lia|].
      change (py_eq (S (S n)) (IDict D1) (PDict E1)) with (python_dict_eq (py_eq (S n)) D1 E1). unfold python_dict_eq. replace (length D1) with (length E1) by (unfold D1, E1; rewrite !map_length, <- (map_length fst d), K, map_length; reflexivity). rewrite Nat.eqb_refl.
      assert (NE : NoDup (map fst E1)) by (unfold E1; rewrite map_map; cbn [fst]; change (map (fun x : atom * Z => fst x) e) with (map fst e); rewrite <- K; exact N).
      assert (HE : lookup k E1 = Some (PNum w)) by (apply lookup_in; [exact NE|]; unfold E1; apply in_map_iff; exists (k, w); auto).
      assert (NUM : forall k u, lookup k E1 = Some u -> exists z, u = PNum z). { intros k' u L. apply lookup_some in L. unfold E1 in L. apply in_map_iff in L. destruct L as ([a b] & L & _). injection L as _ <-. eauto. }
      unfold D1. clear D1 K N NE. clearbody E1. induction d as [|[k0 v0] d IH]; [contradiction|]. cbn [map items_eq fst snd]. destruct Hd as [Hd|Hd].
      * injection Hd as -> ->. rewrite HE. cbn [py_eq bind]. rewrite (proj2 (Z.eqb_neq v w) D). reflexivity.
      * destruct (lookup k0 E1) as [u|] eqn:L; [|reflexivity]. destruct (py_eq (S n) (PNum v0) u) as [[|]|x] eqn:Q; cbn [bind]; [apply IH; exact Hd|reflexivity|].
        destruct (NUM _ _ L) as (z & ->). discriminate.
Qed.
(* ---- looking for elements ---- *)
(* numbers and strings are found iff they are elements; Python's sets say of a tuple which is not an element that it is not, and the immutable ones raise TypeError *)
Theorem C235_contains_partial : forall l, NoDup l -> forall a, exists b, (forall s, as_immutable (PSet l) = ISet s -> contains s (of_atom a) = Ok b) /\ (b = true <-> In a l).
Proof. intros l N a. exists (member a l). split; [|apply member_ok]. intros s E. injection E as <-. destruct a; reflexivity. Qed.
Theorem C235_contains_refuted : forall l x, (exists s, x = PTup s) -> contains l x = Err TypeError /\ ~ exists a, In a l /\ of_atom a = x.
Proof. intros l x (s & ->). split; [reflexivity|]. intros (a & _ & E). destruct a; discriminate. Qed.
(* ---- pickling ---- *)
Lemma sequence_ok {A} (f : A -> result A) l : (forall x, In x l -> f x = Ok x) -> sequence (map f l) = Ok l.
Proof. induction l as [|x l IH]; intros H; [reflexivity|]. cbn. rewrite (H x) by (left; auto). cbn. rewrite IH by (intros; apply H; right; auto). reflexivity. Qed.
Lemma sequence_raises {A} (f : A -> result A) e l x : In x l -> f x = Err e -> (forall y e', In y l -> f y = Err e' -> e' = e) -> sequence (map f l) = Err e.
Proof.
  induction l as [|y l IH]; intros H E U; [contradiction|]. cbn. destruct (f y) as [v|e'] eqn:Q; [|rewrite (U y e' (or_introl eq_refl) Q); reflexivity]. destruct H as [->|H]; [congruence|].
  cbn. rewrite IH; [reflexivity|exact H|exact E|]. intros z e' Hz. apply U. right. exact Hz.
Qed.
Lemma sequence_err {A} (f : A -> result A) e l : sequence (map f l) = Err e -> exists x, In x l /\ f x = Err e.
Proof.
  induction l as [|y l IH]; cbn; [discriminate|]. destruct (f y) as [v|e'] eqn:Q; cbn; [|intros E; injection E as ->; exists y; auto].
  destruct (sequence (map f l)) as [r|e'] eqn:R; cbn; [discriminate|]. intros E. injection E as ->. destruct (IH eq_refl) as (x & H & F). exists x. auto.
Qed.
Lemma rmap_err {A B} (f : A -> B) r e : rmap f r = Err e -> r = Err e. Proof. destruct r; cbn; congruence. Qed.
Lemma pickle_error : forall n x e, size x < n -> unpickled x = Err e -> e = NotImplementedError.
Proof.
  induction n as [|n IH]; intros x e F E; [lia|]. destruct x; cbn [unpickled size] in *; try discriminate; try congruence; apply rmap_err in E; apply sequence_err in E; destruct E as (y & H & E).
  all: try (apply (IH y e); [pose proof (size_in _ _ H); lia|exact E]).
  all: destruct y as [k v]; cbn [fst snd] in E; apply rmap_err in E; apply (IH v e); [pose proof (size_entry _ _ _ H); lia|exact E].
Qed.
(* without an immutable set inside, pickling and unpickling changes nothing; with one, at any depth, unpickling raises NotImplementedError *)
Theorem C235_pickle_partial : forall x, ~ set_inside x -> unpickled x = Ok x.
Proof.
  assert (G : forall n x, size x < n -> ~ set_inside x -> unpickled x = Ok x).
  { induction n as [|n IH]; intros x F S0; [lia|]. destruct x; cbn [unpickled size] in *; try reflexivity; try (exfalso; apply S0; constructor; fail).
    all: rewrite sequence_ok; [reflexivity|].
    all: first [intros [k v] H; cbn [fst snd]; rewrite IH; [reflexivity|pose proof (size_entry _ _ _ H); lia|intros C; apply S0]
               |intros v H; apply IH; [pose proof (size_in _ _ H); lia|intros C; apply S0]].
    - eapply set_in_list; eauto.
    - eapply set_in_tuple; eauto.
    - eapply set_in_dict; eauto.
    - eapply set_in_ilist; eauto.
    - eapply set_in_idict; eauto. }
  intros x. apply (G (S (size x))). lia.
Qed.
Theorem C235_pickle_refuted : forall x, set_inside x -> unpickled x = Err NotImplementedError.
Proof.
  intros x H. induction H as [l|l x Hx H IH|l x Hx H IH|l x Hx H IH|d k x Hx H IH|d k x Hx H IH]; cbn [unpickled]; [reflexivity| | | | |].
  1-3: rewrite (sequence_raises unpickled NotImplementedError l x Hx IH); [reflexivity|]; intros y e _ E; exact (pickle_error _ _ _ (Nat.lt_succ_diag_r _) E).
  all: rewrite (sequence_raises (fun kv : atom * pv => rmap (pair (fst kv)) (unpickled (snd kv))) NotImplementedError d (k, x) Hx); [reflexivity|cbn [fst snd]; rewrite IH; reflexivity|];
    intros y e _ E; apply rmap_err in E; exact (pickle_error _ _ _ (Nat.lt_succ_diag_r _) E).
Qed.
Print Assumptions C235_terminates.
Print Assumptions C235_equal_partial.
Print Assumptions C235_different_partial.
Print Assumptions C235_converse_partial.
Print Assumptions C235_raises_refuted.
Print Assumptions C235_tuple_refuted.
Print Assumptions C235_keys_refuted.
Print Assumptions C235_contains_partial.
Print Assumptions C235_contains_refuted.
Print Assumptions C235_pickle_partial.
Print Assumptions C235_pickle_refuted.

Definition c235_d := PDict [(ANum 1, PList [PNum 2; PTup [PNone]]); (AStr [7], PSet [ANum 1; ANum 2])].
Definition c235_e := PDict [(AStr [7], PSet [ANum 2; ANum 1]); (ANum 1, PList [PNum 2; PTup [PNone]])].
Example C235_equal_ex : plain c235_d /\ plain c235_e /\ same c235_d c235_e /\ equals (as_immutable c235_d) c235_e = Ok true /\ c235_d <> c235_e.
Proof.
  assert (P : plain c235_d) by (cbn; repeat constructor; cbn; intuition discriminate). assert (Q : plain c235_e) by (cbn; repeat constructor; cbn; intuition discriminate).
  assert (R : same c235_d c235_e).
  { cbn. split; [intros; tauto|]. split; [|split; [|exact I]].
    - exists (PList [PNum 2; PTup [PNone]]). split; [auto|]. auto.
    - exists (PSet [ANum 2; ANum 1]). split; [auto|]. intros; cbn; tauto. }
  split; [exact P|]. split; [exact Q|]. split; [exact R|]. split; [exact (proj1 (C235_equal_partial _ _ P Q R))|discriminate].
Qed.
Example C235_converse_ex : aligned c235_d c235_e /\ equals (as_immutable c235_d) (PDict [(AStr [7], PSet [ANum 2; ANum 1])]) = Ok false /\
  equals (as_immutable (PSet [ANum 1])) (PSet [ANum 1; ANum 2]) = Ok false.
Proof. split; [|split; vm_compute; reflexivity]. cbn. intuition (try discriminate); repeat match goal with H : (_, _) = (_, _) |- _ => injection H as <- end; cbn; auto. Qed.
Example C235_different_ex : nested (PList [PNum 1; PList [PNum 2; PNum 3]]) /\ equals (as_immutable (PList [PNum 1; PList [PNum 2; PNum 3]])) (PList [PNum 1; PList [PNum 2; PNum 3]]) = Ok true /\
  equals (as_immutable (PList [PNum 1; PList [PNum 2; PNum 3]])) (PList [PNum 1; PList [PNum 2; PNum 4]]) = Ok false /\ equals (as_immutable (PList [PNum 1])) (PList [PNum 1; PNum 2]) = Ok false.
Proof. split; [cbn; tauto|]. repeat split; vm_compute; reflexivity. Qed.
Example C235_raises_ex : each plain [PNum 1; PList [PNum 5]] /\ equals (as_immutable (PList [PNum 1; PList [PNum 5]; PList [PNum 2]])) (PList [PNum 1; PList [PNum 5]; PNum 2]) = Err TypeError.
Proof. split; [cbn; tauto|]. repeat split; vm_compute; reflexivity. Qed.
Example C235_keys_ex : let d := [(AStr [1], 5%Z); (ANum 3, 6%Z)] in let e := [(AStr [1], 5%Z); (ANum 3, 7%Z)] in map fst d = map fst e /\ NoDup (map fst d) /\ In (ANum 3, 6%Z) d /\ In (ANum 3, 7%Z) e.
Proof. cbn. split; [reflexivity|]. split; [repeat constructor; cbn; intuition discriminate|auto]. Qed.
Example C235_contains_ex : NoDup [ANum 1; AStr [2]] /\ contains [ANum 1; AStr [2]] (PStr [2]) = Ok true /\ contains [ANum 1; AStr [2]] (PNum 3) = Ok false /\ contains [ANum 1] (PTup []) = Err TypeError.
Proof. split; [repeat constructor; cbn; intuition discriminate|auto]. Qed.
Example C235_pickle_ex : ~ set_inside (as_immutable (PList [PNum 1; PDict [(ANum 1, PTup [PNone])]])) /\ set_inside (as_immutable (PList [PNum 1; PDict [(ANum 1, PTup [PSet [ANum 1]])]])).
Proof.
  split.
  - intros H. apply C235_pickle_refuted in H. vm_compute in H. discriminate.
  - cbn. eapply set_in_ilist; [right; left; reflexivity|]. eapply set_in_idict; [left; reflexivity|]. eapply set_in_ilist; [left; reflexivity|]. constructor.
Qed.

(* Search distributions: the names of parameters; shallow copies. *)
From Verif Require Import Prelude CloneModel CloneSpec CloneProofs ConModel ConSpec.

Lemma key_eqb_eq : forall a b, key_eqb a b = true <-> a = b.
Proof.
  fix IH 1. intros a b. destruct a as [x|x|l|x], b as [y|y|k|y]; cbn [key_eqb]; try (split; intros H; discriminate).
  - rewrite Z.eqb_eq. split; congruence.
  - rewrite Z.eqb_eq. split; congruence.
  - assert (X : (fix go l k := match l, k with [], [] => true | x :: l, y :: k => key_eqb x y && go l k | _, _ => false end) l k = true <-> l = k).
    { revert k. induction l as [|x l IHl]; intros [|y k]; try (split; intros H; discriminate); [tauto|].
      rewrite andb_true_iff, IHl, (IH x y). split; [intros [-> ->]; auto|intros E; injection E as -> ->; auto]. }
    rewrite X. split; congruence.
  - rewrite Z.eqb_eq. split; congruence.
Qed.
Lemma has_key_in l k : has_key l k = true <-> In k l.
Proof.
  unfold has_key. rewrite existsb_exists. split; [intros (x & I & E); apply key_eqb_eq in E; subst; auto|intros I; exists k; split; auto; apply key_eqb_eq; auto].
Qed.
Lemma key_dec (a b : key) : {a = b} + {a <> b}.
Proof. destruct (key_eqb a b) eqn:E; [left; apply key_eqb_eq; auto|right; intros ->]. rewrite (proj2 (key_eqb_eq b b) eq_refl) in E. discriminate. Qed.
Section NAMES.
Variables mandatory optional : list key.
Lemma check_names_spec keys : forall found,
  check_names mandatory optional found keys =
    if forallb (fun k => has_key mandatory k || has_key optional k) keys then Ok (found + length (filter (has_key mandatory) keys)) else Err ValueError.
Proof.
  induction keys as [|k t IH]; intros found; cbn [check_names forallb filter length]; [rewrite Nat.add_0_r; auto|].
  destruct (has_key mandatory k) eqn:E; cbn [orb andb].
  - rewrite IH. destruct (forallb _ t); auto. cbn [length]. f_equal. lia.
  - destruct (has_key optional k); cbn [andb]; auto.
Qed.
Lemma check_correct keys : NoDup keys -> NoDup mandatory ->
  (check_correctness mandatory optional keys = Ok tt <-> (forall k, In k keys -> In k mandatory \/ In k optional) /\ (forall k, In k mandatory -> In k keys)) /\
  (check_correctness mandatory optional keys <> Ok tt -> check_correctness mandatory optional keys = Err ValueError).
Proof.
  intros N1 N2. unfold check_correctness. rewrite check_names_spec.
  destruct (forallb (fun k => has_key mandatory k || has_key optional k) keys) eqn:F.
  - cbn [bind]. rewrite Nat.add_0_l. rewrite forallb_forall in F.
    assert (F' : forall k, In k keys -> In k mandatory \/ In k optional) by (intros k I; specialize (F k I); rewrite orb_true_iff, !has_key_in in F; auto).
    assert (NF : NoDup (filter (has_key mandatory) keys)) by (apply NoDup_filter; auto).
    destruct (Nat.ltb_spec (length (filter (has_key mandatory) keys)) (length mandatory)) as [L|L].
    + split; [|intros; auto]. split; [discriminate|]. intros [_ G]. exfalso.
      assert (I : incl mandatory (filter (has_key mandatory) keys)) by (intros k I; apply filter_In; split; [auto|apply has_key_in; auto]).
      pose proof (NoDup_incl_length N2 I). lia.
    + split; [|intros H; congruence]. split; auto. intros _. split; auto. intros k I.
      assert (J : incl (filter (has_key mandatory) keys) mandatory) by (intros x X; apply filter_In in X; apply has_key_in; tauto).
      pose proof (NoDup_length_incl NF L J k I) as X. apply filter_In in X. tauto.
  - cbn [bind]. split; [|auto]. split; [discriminate|]. intros [G _]. exfalso.
    assert (F' : forallb (fun k => has_key mandatory k || has_key optional k) keys = true).
    { apply forallb_forall. intros k I. rewrite orb_true_iff, !has_key_in. auto. }
    congruence.
Qed.
End NAMES.

(* a heap with a further object at its end *)
Lemma push_old (h : heap) n a : a < length h -> nth_error (h ++ [n]) a = nth_error h a.
Proof. intros. apply nth_error_app1. auto. Qed.
Lemma push_new (h : heap) n : nth_error (h ++ [n]) (length h) = Some n.
Proof. rewrite nth_error_app2, Nat.sub_diag by auto. reflexivity. Qed.
Lemma push_reach h n a b : wf_heap h -> a < length h -> reach (h ++ [n]) a b <-> reach h a b.
Proof.
  intros W L. split.
  - intros R. induction R as [|a b c R IH (m & E & I)]; [constructor|]. specialize (IH L). pose proof (wf_reach h a b W L IH) as Lb.
    rewrite push_old in E by auto. apply (reach_step _ a b c); auto. exists m. auto.
  - intros R. induction R as [|a b c R IH (m & E & I)]; [constructor|]. specialize (IH L). apply (reach_step _ a b c); auto. exists m. split; auto. rewrite push_old; auto. apply nth_lt in E. auto.
Qed.
(* what is within reach of the new object *)
Lemma push_within h n b : wf_heap h -> (forall c, In (VRef c) (n_items n) -> c < length h) -> within (h ++ [n]) (VRef (length h)) b ->
  b = length h \/ exists c, In (VRef c) (n_items n) /\ reach h c b.
Proof.
  intros W L R. cbn in R.
  assert (G : forall r, reach (h ++ [n]) r b -> r = length h -> b = length h \/ exists c, In (VRef c) (n_items n) /\ reach h c b).
  { clear R. intros r R. induction R as [r|r b c R IH (m & E & I)]; intros Er; auto. right. destruct (IH Er) as [->|(x & Ix & Rx)].
    - rewrite push_new in E. injection E as <-. exists c. split; auto. constructor.
    - exists x. split; auto. pose proof (wf_reach h x b W (L x Ix) Rx) as Lb. rewrite push_old in E by auto. apply (reach_step _ x b c); auto. exists m. auto. }
  apply (G (length h)); auto.
Qed.

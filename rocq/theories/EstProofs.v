From Coq Require Import QArith String Permutation.
From Verif Require Import Prelude RandModel EstModel EstSpec.
Open Scope nat_scope.

Section Dict.
  Context {V : Type}.
  Implicit Types d a b : dict V.
  Lemma lookup_cons k k' v d : lookup k ((k', v) :: d) = if String.eqb k' k then Some v else lookup k d.
  Proof. unfold lookup; cbn [find fst]. destruct (String.eqb k' k); reflexivity. Qed.
  Lemma lookup_none k d : lookup k d = None <-> ~ In k (map fst d).
  Proof.
    induction d as [| [k' v] d IH]; [cbn; intuition congruence|].
    rewrite lookup_cons. cbn [map fst In]. destruct (String.eqb_spec k' k) as [-> | N].
    - split; [discriminate| intros H; destruct H; auto].
    - rewrite IH. tauto.
  Qed.
  Lemma lookup_some k v d : wf d -> (lookup k d = Some v <-> In (k, v) d).
  Proof.
    induction d as [| [k' v'] d IH]; intros W; [cbn; intuition congruence|].
    inversion W as [| ? ? N1 N2]; subst. rewrite lookup_cons. cbn [In]. destruct (String.eqb_spec k' k) as [-> | N].
    - split; [intros H; injection H as ->; auto|]. intros [H | H]; [injection H as ->; auto|].
      exfalso; apply N1; apply (in_map fst) in H; exact H.
    - rewrite (IH N2). split; [auto|]. intros [H | H]; [injection H as -> ->; congruence|auto].
  Qed.
  Lemma lookup_perm k a b : wf a -> Permutation a b -> lookup k a = lookup k b.
  Proof.
    intros W P. assert (W' : wf b) by (unfold wf in *; eapply Permutation_NoDup; [apply Permutation_map; exact P|auto]).
    destruct (lookup k a) as [v|] eqn:E.
    - apply (lookup_some _ _ _ W) in E. symmetry; apply (lookup_some _ _ _ W'). eapply Permutation_in; eauto.
    - apply lookup_none in E. symmetry; apply lookup_none. intros H; apply E.
      eapply Permutation_in; [apply Permutation_map; apply Permutation_sym; exact P|auto].
  Qed.
  Lemma lookup_put k k' v d : lookup k (put k' v d) = if String.eqb k' k then Some v else lookup k d.
  Proof.
    induction d as [| [k1 v1] d IH]; cbn [put].
    - rewrite lookup_cons; reflexivity.
    - destruct (String.eqb_spec k1 k') as [-> | N].
      + rewrite !lookup_cons. destruct (String.eqb k' k); reflexivity.
      + rewrite !lookup_cons, IH. destruct (String.eqb_spec k1 k) as [-> |]; [|reflexivity].
        destruct (String.eqb_spec k' k); [congruence|reflexivity].
  Qed.
  Lemma put_keys k v d : forall x, In x (map fst (put k v d)) <-> x = k \/ In x (map fst d).
  Proof.
    intros x. pose proof (lookup_none x (put k v d)) as A. pose proof (lookup_none x d) as B.
    rewrite lookup_put in A. destruct (String.eqb_spec k x) as [-> | N].
    - split; [auto|]. intros _. destruct (in_dec string_dec x (map fst (put x v d))); [auto|].
      apply A in n; discriminate.
    - destruct (in_dec string_dec x (map fst d)) as [I1|I1], (in_dec string_dec x (map fst (put k v d))) as [I2|I2]; try tauto.
      split; [tauto|]. intros [H | H]; [congruence|tauto].
  Qed.
  Lemma put_wf k v d : wf d -> wf (put k v d).
  Proof.
    unfold wf. induction d as [| [k1 v1] d IH]; cbn [put map fst]; intros W.
    - constructor; [intros []|constructor].
    - inversion W as [| ? ? N1 N2]; subst. destruct (String.eqb_spec k1 k) as [-> | N]; cbn [map fst]; constructor; auto.
      intros H; apply put_keys in H. destruct H; [congruence|auto].
  Qed.
  Lemma merge_wf a b : wf a -> wf (merge a b).
  Proof. revert a; induction b as [| [k v] b IH]; intros a W; [exact W|]. apply IH. apply put_wf; auto. Qed.
  Lemma lookup_merge k a b : wf b -> lookup k (merge a b) = match lookup k b with Some v => Some v | None => lookup k a end.
  Proof.
    revert a; induction b as [| [k1 v1] b IH]; intros a W; [reflexivity|].
    inversion W as [| ? ? N1 N2]; subst. change (merge a ((k1, v1) :: b)) with (merge (put k1 v1 a) b).
    rewrite (IH _ N2), lookup_cons, lookup_put. destruct (String.eqb_spec k1 k) as [-> | N]; [|reflexivity].
    apply lookup_none in N1. rewrite N1; reflexivity.
  Qed.
  Lemma combine_keys (names : list string) (values : list V) : length values = length names -> map fst (combine names values) = names.
  Proof. revert values; induction names; intros [| v values]; cbn; intros; try discriminate; f_equal; auto. Qed.
  Lemma in_combine_nth (names : list string) (values : list V) k v :
    In (k, v) (combine names values) <-> exists i, nth_error names i = Some k /\ nth_error values i = Some v.
  Proof.
    revert values; induction names as [| n names IH]; intros [| w values]; cbn [combine In].
    - split; [tauto|]. intros ([] & ? & ?); discriminate.
    - split; [tauto|]. intros ([] & ? & ?); discriminate.
    - split; [tauto|]. intros ([] & ? & ?); discriminate.
    - rewrite IH. split.
      + intros [H | (i & A & B)]; [injection H as -> ->; exists 0; auto| exists (S i); auto].
      + intros ([| i] & A & B); cbn in A, B; [injection A as ->; injection B as ->; auto| right; eauto].
  Qed.
  Lemma wf_nil : wf (@nil (string * V)). Proof. constructor. Qed.
End Dict.

Lemma nodup_left {A} (a b : list A) : NoDup (a ++ b) -> NoDup a.
Proof.
  induction a as [| x a IH]; cbn; intros N; [constructor|]. inversion N; subst. constructor; auto.
  intros H; apply H1, in_or_app; auto.
Qed.
Lemma nodup_right {A} (a b : list A) : NoDup (a ++ b) -> NoDup b.
Proof. induction a as [| x a IH]; cbn; intros N; auto. inversion N; subst; auto. Qed.

Section Bind.
  Context {V : Type}.
  Variable none : V.
  Definition bstep (required : list string) (acc : result (list V)) (kv : string * V) : result (list V) :=
    bind acc (fun parameters =>
                   match lookup (fst kv) (required_param_pos required) with
                   | None => Err KeyError
                   | Some i => Ok (upd parameters i (snd kv))
                   end).
  Lemma pos_wf required : NoDup required -> wf (combine required (seq 0 (length required))).
  Proof. intros N. unfold wf. rewrite combine_keys; auto. rewrite seq_length; auto. Qed.
  Lemma pos_some required k i : NoDup required -> lookup k (required_param_pos required) = Some i <-> nth_error required i = Some k.
  Proof.
    intros N. unfold required_param_pos. rewrite lookup_merge by (apply pos_wf; auto).
    assert (H : lookup k (combine required (seq 0 (length required))) = Some i <-> nth_error required i = Some k).
    { rewrite lookup_some by (apply pos_wf; auto). rewrite in_combine_nth. split.
      - intros (j & A & B). assert (L : j < length required) by (apply nth_error_Some; congruence).
        assert (Q : nth_error (seq 0 (length required)) j = Some j).
        { rewrite (nth_error_nth' _ 0) by (rewrite seq_length; auto). rewrite seq_nth; auto. }
        congruence.
      - intros A. exists i. split; auto. assert (L : i < length required) by (apply nth_error_Some; congruence).
        rewrite (nth_error_nth' _ 0) by (rewrite seq_length; auto). rewrite seq_nth; auto. }
    rewrite <- H. destruct (lookup k (combine required (seq 0 (length required)))); [tauto|]. cbn. intuition congruence.
  Qed.
  Lemma pos_none required k : NoDup required -> lookup k (required_param_pos required) = None <-> ~ In k required.
  Proof.
    intros N. destruct (lookup k (required_param_pos required)) as [i|] eqn:E.
    - apply (pos_some _ _ _ N) in E. split; [discriminate|]. intros H; exfalso; apply H. eapply nth_error_In; eauto.
    - split; [|auto]. intros _ H. apply In_nth_error in H. destruct H as [i H]. apply (pos_some _ _ _ N) in H. congruence.
  Qed.
  Lemma fold_err required kw e : fold_left (bstep required) kw (Err e) = Err e.
  Proof. induction kw; auto. Qed.
  Lemma fold_bind required kw l : NoDup required -> wf kw -> length l = length required ->
    (forall k, In k (map fst kw) -> In k required) ->
    exists l', fold_left (bstep required) kw (Ok l) = Ok l' /\ length l' = length required /\
      forall i k, nth_error required i = Some k ->
        nth_error l' i = match lookup k kw with Some v => Some v | None => nth_error l i end.
  Proof.
    intros N. revert l. induction kw as [| [k v] kw IH]; intros l W L Sub.
    - exists l. repeat split; auto.
    - inversion W as [| ? ? N1 N2]; subst. cbn [fold_left bstep bind fst snd].
      destruct (lookup k (required_param_pos required)) as [i|] eqn:E.
      2:{ apply (pos_none _ _ N) in E. exfalso; apply E; apply Sub; left; reflexivity. }
      apply (pos_some _ _ _ N) in E.
      destruct (IH (upd l i v) N2) as (l' & A & B & C); [rewrite upd_length; auto| intros; apply Sub; right; auto|].
      exists l'. repeat split; auto. intros j k' H. rewrite (C _ _ H), lookup_cons.
      destruct (String.eqb_spec k k') as [-> | NE].
      + apply lookup_none in N1. rewrite N1. rewrite NoDup_nth_error in N.
        assert (i = j) by (apply N; [apply nth_error_Some; congruence|congruence]). subst j.
        apply upd_same. rewrite L. apply nth_error_Some; congruence.
      + destruct (lookup k' kw); auto. apply upd_other. intros ->; congruence.
  Qed.
  Lemma fold_unknown required kw l k : NoDup required -> In k (map fst kw) -> ~ In k required ->
    fold_left (bstep required) kw (Ok l) = Err KeyError.
  Proof.
    intros N. revert l. induction kw as [| [k1 v1] kw IH]; intros l H U; [destruct H|].
    cbn [fold_left bstep bind fst snd]. destruct (lookup k1 (required_param_pos required)) as [i|] eqn:E.
    - destruct H as [H | H]; [|auto]. cbn in H; subst k1. apply (pos_some _ _ _ N) in E. exfalso; apply U; eapply nth_error_In; eauto.
    - apply fold_err.
  Qed.
  (* a bound call *)
  Definition assigned (required : list string) (l : list V) (args : list V) (kwargs : dict V) : Prop :=
    length l = length required /\ forall k v, In (k, v) (combine required l) <-> given required args kwargs k v.
  Lemma bind_accepted required args (kwargs : dict V) : NoDup required -> wf kwargs -> required <> [] -> accepted required args kwargs ->
    exists l, bind_parameters none required args kwargs = Ok l /\ assigned required l args kwargs.
  Proof.
    intros N W NE [[-> LA] | [-> P]].
    - exists args. split.
      + unfold bind_parameters. rewrite LA. destruct required; [congruence|]. cbn. rewrite Nat.eqb_refl; reflexivity.
      + split; auto. intros k v. rewrite in_combine_nth. split.
        * intros (i & A & B). econstructor; eauto.
        * intros H; inversion H as [i k' v' A B | k' v' []]; subst. eauto.
    - assert (LK : length kwargs = length required) by (apply Permutation_length in P; rewrite map_length in P; auto).
      destruct (fold_bind required kwargs (repeat none (length required)) N W) as (l & A & B & C).
      { apply repeat_length. }
      { intros k H. eapply Permutation_in; eauto. }
      exists l. split.
      + unfold bind_parameters. rewrite LK. cbn [length Nat.eqb andb]. rewrite Nat.eqb_refl. exact A.
      + split; auto. intros k v. rewrite in_combine_nth. split.
        * intros (i & D & E). rewrite (C _ _ D) in E. destruct (lookup k kwargs) as [w|] eqn:F.
          -- injection E as ->. apply by_name. apply (lookup_some _ _ _ W); auto.
          -- apply lookup_none in F. exfalso; apply F. eapply Permutation_in; [apply Permutation_sym; exact P|]. eapply nth_error_In; eauto.
        * intros H; inversion H as [i k' v' D E | k' v' D]; subst; [destruct i; discriminate|].
          assert (In k required) by (eapply Permutation_in; [exact P|]; apply (in_map fst) in D; exact D).
          apply In_nth_error in H0. destruct H0 as [i Hi]. exists i. split; auto. rewrite (C _ _ Hi).
          apply (lookup_some _ _ _ W) in D. rewrite D; reflexivity.
  Qed.
  Lemma bind_rejected required args (kwargs : dict V) : NoDup required -> wf kwargs -> ~ accepted required args kwargs ->
    bind_parameters none required args kwargs =
      Err (if Nat.eqb (length args) 0 && Nat.eqb (length kwargs) (length required) then KeyError else TypeError).
  Proof.
    intros N W R. unfold bind_parameters.
    destruct (Nat.eqb_spec (length args) 0) as [A0|A0]; cbn [andb].
    - destruct (Nat.eqb_spec (length kwargs) (length required)) as [K|K].
      + destruct args; [|discriminate].
        destruct (Forall_Exists_dec (fun k => In k required) (fun k => in_dec string_dec k required) (map fst kwargs)) as [F|E].
        * exfalso. apply R. right. split; auto. apply NoDup_Permutation_bis; auto.
          -- rewrite map_length, K; auto.
          -- intros k; rewrite Forall_forall in F; auto.
        * apply Exists_exists in E. destruct E as (k & E1 & E2). apply (fold_unknown _ _ _ k); auto.
      + rewrite A0. destruct (Nat.eqb_spec 0 (length required)) as [Z|Z]; cbn [andb].
        * destruct (Nat.eqb_spec (length kwargs) 0); [congruence|]. cbn. destruct (Nat.ltb 0 (length kwargs)); reflexivity.
        * destruct (Nat.eqb (length kwargs) 0); cbn; reflexivity.
    - destruct (Nat.eqb_spec (length args) (length required)) as [L|L]; cbn [andb].
      + destruct (Nat.eqb_spec (length kwargs) 0) as [K|K].
        * exfalso. apply R. left. destruct kwargs; [auto|discriminate].
        * destruct (_ && _); reflexivity.
      + destruct (_ && _); reflexivity.
  Qed.
  Lemma zip_wf (required : list string) (l : list V) : wf (zip_dict required l).
  Proof. apply merge_wf, wf_nil. Qed.
  Lemma zip_some required (l : list V) k v : NoDup required -> length l = length required ->
    lookup k (zip_dict required l) = Some v <-> In (k, v) (combine required l).
  Proof.
    intros N L. assert (W : wf (combine required l)) by (unfold wf; rewrite combine_keys; auto).
    unfold zip_dict. rewrite lookup_merge by auto. rewrite <- (lookup_some _ _ _ W).
    destruct (lookup k (combine required l)); [tauto|]. cbn; intuition congruence.
  Qed.
  Lemma assigned_means required l args (kwargs fixed : dict V) : NoDup required -> wf fixed -> assigned required l args kwargs ->
    means required args kwargs fixed (merge (zip_dict required l) fixed).
  Proof.
    intros N W (L & A). assert (WM : wf (merge (zip_dict required l) fixed)) by (apply merge_wf, zip_wf).
    split; auto. intros k v. rewrite <- (lookup_some _ _ _ WM), lookup_merge by auto.
    rewrite <- A, <- (zip_some _ _ _ _ N L), <- (lookup_some _ _ _ W), <- lookup_none.
    destruct (lookup k fixed) as [w|] eqn:E; intuition congruence.
  Qed.
  Lemma nth_eq (required : list string) (l l' : list V) : NoDup required -> length l = length required -> length l' = length required ->
    (forall k v, In (k, v) (combine required l) <-> In (k, v) (combine required l')) -> l = l'.
  Proof.
    intros N L L' H. apply nth_error_ext. intros i.
    destruct (nth_error l i) as [v|] eqn:E.
    - assert (I1 : i < length required) by (rewrite <- L; apply nth_error_Some; congruence).
      destruct (nth_error required i) as [k|] eqn:K; [|apply nth_error_None in K; lia].
      assert (In (k, v) (combine required l)) as Hi by (apply in_combine_nth; eauto).
      apply H in Hi. apply in_combine_nth in Hi. destruct Hi as (j & J1 & J2).
      rewrite NoDup_nth_error in N. assert (i = j) by (apply N; [auto|congruence]). subst; auto.
    - apply nth_error_None in E. symmetry; apply nth_error_None. lia.
  Qed.
  Lemma bind_perm required args (a b : dict V) : NoDup required -> required <> [] -> wf a -> Permutation a b ->
    bind_parameters none required args a = bind_parameters none required args b.
  Proof.
    intros N NE Wa P. assert (Wb : wf b) by (unfold wf in *; eapply Permutation_NoDup; [apply Permutation_map; exact P|auto]).
    assert (PK : Permutation (map fst a) (map fst b)) by (apply Permutation_map; auto).
    assert (AB : accepted required args a -> accepted required args b).
    { intros [[-> H] | [-> H]]; [left; split; auto; apply Permutation_nil; auto|].
      right; split; auto. eapply Permutation_trans; [apply Permutation_sym; exact PK|auto]. }
    assert (BA : accepted required args b -> accepted required args a).
    { intros [[-> H] | [-> H]]; [left; split; auto; apply Permutation_nil, Permutation_sym; auto|].
      right; split; auto. eapply Permutation_trans; [exact PK|auto]. }
    assert (DEC : accepted required args a \/ ~ accepted required args a).
    { destruct (bind_parameters none required args a) eqn:E.
      - left. destruct args as [| x args].
        + destruct (Nat.eq_dec (length a) (length required)) as [K|K].
          * destruct (Forall_Exists_dec (fun k => In k required) (fun k => in_dec string_dec k required) (map fst a)) as [F|E'].
            -- right. split; auto. apply NoDup_Permutation_bis; auto; [rewrite map_length, K; auto|].
               intros k; rewrite Forall_forall in F; auto.
            -- apply Exists_exists in E'. destruct E' as (k & E1 & E2).
               unfold bind_parameters in E. rewrite K in E. cbn [length Nat.eqb andb] in E. rewrite Nat.eqb_refl in E.
               rewrite (fold_unknown required a _ k N E1 E2 : fold_left _ _ _ = _) in E. discriminate.
          * exfalso. unfold bind_parameters in E. apply Nat.eqb_neq in K. rewrite K in E. cbn [length Nat.eqb andb] in E.
            destruct required; [congruence|]. cbn [length Nat.eqb andb] in E. destruct (Nat.eqb (length a) 0); discriminate.
        + unfold bind_parameters in E. cbn [length] in E. change (Nat.eqb (S (length args)) 0) with false in E. cbn [andb] in E.
          destruct (Nat.eqb_spec (S (length args)) (length required)) as [L|L]; cbn [andb] in E.
          * destruct (Nat.eqb_spec (length a) 0) as [K|K].
            -- left. split; [destruct a; [auto|discriminate]|exact L].
            -- destruct (_ && _); discriminate.
          * destruct (_ && _); discriminate.
      - right. intros H. destruct (bind_accepted required args a N Wa NE H) as (l & A & _). congruence. }
    destruct DEC as [D | D].
    - destruct (bind_accepted required args a N Wa NE D) as (l & A1 & A2 & A3).
      destruct (bind_accepted required args b N Wb NE (AB D)) as (l' & B1 & B2 & B3).
      rewrite A1, B1. f_equal. apply (nth_eq required); auto. intros k v. rewrite A3, B3.
      split; intros H; inversion H as [i k' v' X Y | k' v' X]; subst.
      + econstructor; eauto.
      + apply by_name. eapply Permutation_in; eauto.
      + econstructor; eauto.
      + apply by_name. eapply Permutation_in; [apply Permutation_sym; exact P|auto].
    - rewrite (bind_rejected required args a N Wa D), (bind_rejected required args b N Wb) by tauto.
      apply Permutation_length in P. rewrite P. reflexivity.
  Qed.
  (* the same parameters by name and by position *)
  Lemma bind_named required (args : list V) (kwargs : dict V) : NoDup required -> required <> [] -> length args = length required ->
    Permutation kwargs (combine required args) ->
    bind_parameters none required [] kwargs = Ok args /\ bind_parameters none required args [] = Ok args.
  Proof.
    intros N NE L P.
    assert (K : Permutation (map fst kwargs) required) by (rewrite <- (combine_keys required args L) at 1; apply Permutation_map; auto).
    assert (W : wf kwargs) by (unfold wf; eapply Permutation_NoDup; [apply Permutation_sym; exact K|auto]).
    destruct (bind_accepted required [] kwargs N W NE (or_intror (conj eq_refl K))) as (l & A1 & A2 & A3).
    split.
    - rewrite A1; f_equal. apply (nth_eq required); auto. intros k v. rewrite A3. split.
      + intros H; inversion H as [i k' v' X Y | k' v' X]; subst; [destruct i; discriminate|]. eapply Permutation_in; eauto.
      + intros H; apply by_name. eapply Permutation_in; [apply Permutation_sym; exact P|auto].
    - unfold bind_parameters. rewrite L. destruct required; [congruence|]. cbn. rewrite Nat.eqb_refl; reflexivity.
  Qed.
  Definition param (kv : string * V) : bool := negb (String.eqb (fst kv) "objective_sense" || String.eqb (fst kv) "ranking_method").
  Lemma param_spec kv : param kv = false <-> special (fst kv).
  Proof.
    unfold param, special. destruct (String.eqb_spec (fst kv) "objective_sense"), (String.eqb_spec (fst kv) "ranking_method"); cbn; intuition congruence.
  Qed.
  Lemma filter_perm (f : string * V -> bool) a b : Permutation a b -> Permutation (filter f a) (filter f b).
  Proof.
    induction 1; cbn; auto.
    - destruct (f x); auto.
    - destruct (f x), (f y); auto. constructor.
    - eapply Permutation_trans; eauto.
  Qed.
  Lemma filter_none (f : string * V -> bool) l : (forall x, In x l -> f x = false) -> filter f l = [].
  Proof. induction l; cbn; intros H; auto. rewrite (H a) by auto. apply IHl; auto. Qed.
  Lemma filter_all (f : string * V -> bool) l : (forall x, In x l -> f x = true) -> filter f l = l.
  Proof. induction l; cbn; intros H; auto. rewrite (H a) by auto. f_equal. apply IHl; auto. Qed.
  Lemma splits_filter (kw settings params : dict V) : splits kw settings params -> Permutation (filter param kw) params.
  Proof.
    intros (W & P & A & B). eapply Permutation_trans; [apply filter_perm; exact P|]. rewrite filter_app.
    rewrite filter_none by (intros x H; apply param_spec; auto).
    rewrite filter_all; [apply Permutation_refl|]. intros x H. destruct (param x) eqn:E; auto.
    apply param_spec in E. exfalso; eapply B; eauto.
  Qed.
  Lemma filtered (kw : dict V) : (if has "objective_sense" kw || has "ranking_method" kw then filter param kw else kw) = filter param kw.
  Proof.
    destruct (_ || _) eqn:E; auto. symmetry; apply filter_all. intros x H.
    apply orb_false_iff in E. destruct E as [E1 E2]. unfold has in *.
    destruct (lookup "objective_sense" kw) eqn:F1; [discriminate|]. destruct (lookup "ranking_method" kw) eqn:F2; [discriminate|].
    apply lookup_none in F1. apply lookup_none in F2. destruct (param x) eqn:G; auto. apply param_spec in G.
    apply (in_map fst) in H. destruct G as [G | G]; rewrite G in H; tauto.
  Qed.
  Lemma splits_lookup (kw settings params : dict V) k : splits kw settings params -> special k -> lookup k kw = lookup k settings.
  Proof.
    intros (W & P & A & B) SP. rewrite (lookup_perm k _ _ W P).
    assert (W' : wf (settings ++ params)) by (unfold wf in *; eapply Permutation_NoDup; [apply Permutation_map; exact P|auto]).
    assert (WS : wf settings) by (unfold wf in *; rewrite map_app in W'; eapply nodup_left; eauto).
    destruct (lookup k (settings ++ params)) as [v|] eqn:E.
    - apply (lookup_some _ _ _ W') in E. apply in_app_or in E. symmetry. apply (lookup_some _ _ _ WS).
      destruct E as [E | E]; auto. exfalso; apply (B _ E); exact SP.
    - apply lookup_none in E. symmetry; apply lookup_none. intros H; apply E. rewrite map_app. apply in_or_app; auto.
  Qed.
  Lemma splits_wf (kw settings params : dict V) : splits kw settings params -> wf settings /\ wf params.
  Proof.
    intros (W & P & _ & _).
    assert (W' : wf (settings ++ params)) by (unfold wf in *; eapply Permutation_NoDup; [apply Permutation_map; exact P|auto]).
    unfold wf in *; rewrite map_app in W'. split; [eapply nodup_left; eauto|eapply nodup_right; eauto].
  Qed.
End Bind.

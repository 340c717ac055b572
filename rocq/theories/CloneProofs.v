(* Proofs about the traversal of object graphs. *)
From Verif Require Import Prelude CloneModel CloneSpec.

Lemma nth_lt {X} (l : list X) i x : nth_error l i = Some x -> i < length l.
Proof. intros E. apply nth_error_Some. congruence. Qed.
Lemma nth_some {X} (l : list X) i : i < length l -> exists x, nth_error l i = Some x.
Proof. intros L. destruct (nth_error l i) eqn:E; eauto. apply nth_error_None in E. lia. Qed.
Lemma reach_trans h a b c : reach h a b -> reach h b c -> reach h a c.
Proof. intros R1 R2. revert R1. induction R2 as [|b x c R2 IH E]; intros R1; auto. apply (reach_step _ a x c); auto. Qed.
Lemma edge_reach h a b c : edge h a b -> reach h b c -> reach h a c.
Proof. intros E R. apply (reach_trans h a b); auto. apply (reach_step _ a a); auto. constructor. Qed.
Lemma wf_reach h a b : wf_heap h -> a < length h -> reach h a b -> b < length h.
Proof. intros W L R. induction R as [|a b c R IH E]; auto. destruct E as (n & En & Hin). eapply W; eauto. Qed.
Lemma Forall2_imp {X Y} (P Q : X -> Y -> Prop) l k : (forall x y, In x l -> P x y -> Q x y) -> Forall2 P l k -> Forall2 Q l k.
Proof. intros HI F. induction F as [|x y l k Pxy F IH]; constructor; [apply HI; cbn; auto|apply IH; intros; apply HI; cbn; auto]. Qed.

Lemma add_item_nth h b v x : x <> b -> nth_error (add_item h b v) x = nth_error h x.
Proof. intros Hx. unfold add_item. destruct (nth_error h b); auto. rewrite nth_error_upd. destruct (Nat.eqb_spec b x); [lia|reflexivity]. Qed.
Lemma add_item_self h b v n : nth_error h b = Some n -> nth_error (add_item h b v) b = Some (Node (n_kind n) (n_data n) (n_keys n) (n_items n ++ [v])).
Proof. intros E. unfold add_item. rewrite E. rewrite nth_error_upd, Nat.eqb_refl. apply nth_lt in E. apply Nat.ltb_lt in E. rewrite E. reflexivity. Qed.
Lemma add_item_length h b v : length (add_item h b v) = length h.
Proof. unfold add_item. destruct (nth_error h b); auto. apply upd_length. Qed.

Section P.
Variable visit : heap -> node -> action.
Variable h0 : heap.
Variable root : val.
Notation N := (length h0).
Hypothesis Hwf : wf_heap h0.
Hypothesis Hroot : wf_val h0 root.
(* visits do not depend on objects made later *)
Hypothesis Hstable : forall h n, (forall x, x < N -> nth_error h x = nth_error h0 x) -> (forall c, In (VRef c) (n_items n) -> c < N) -> visit h n = visit h0 n.
Definition action_of (a : nat) : action := match nth_error h0 a with Some n => visit h0 n | None => Fail RuntimeError end.
Hypothesis Htuple : forall a b, within h0 root a -> action_of a = FillTuple -> edge h0 a b -> ~ reach h0 b a.

Definition image (m : memo) (v w : val) : Prop :=
  match v with
  | VAtom _ => w = v
  | VRef c => if match action_of c with Keep => true | _ => false end then w = v else exists b, mlookup m c = Some b /\ w = VRef b
  end.
(* the object at b is the finished copy of the one at a *)
Definition done (h : heap) (m : memo) (a b : nat) : Prop :=
  exists n, nth_error h0 a = Some n /\
  match visit h0 n with
  | Copy n1 => nth_error h b = Some n1
  | Fill k => exists ws, nth_error h b = Some (Node k (n_data n) (n_keys n) ws) /\ Forall2 (image m) (n_items n) ws
  | FillTuple => exists ws, nth_error h b = Some (Node KTup (n_data n) (n_keys n) ws) /\ Forall2 (image m) (n_items n) ws
  | _ => False
  end.
Definition not_grey_tuple (G : list nat) (v : val) : Prop := match v with VAtom _ => True | VRef c => In c G -> action_of c <> FillTuple end.
Record inv (h : heap) (m : memo) (G : list nat) : Prop := {
  i_old : forall x, x < N -> nth_error h x = nth_error h0 x;
  i_len : N <= length h;
  i_range : forall a b, mlookup m a = Some b -> a < N /\ N <= b < length h /\ within h0 root a /\ action_of a <> Keep;
  i_inj : forall a a' b, mlookup m a = Some b -> mlookup m a' = Some b -> a = a';
  i_done : forall a b, mlookup m a = Some b -> ~ In a G -> done h m a b /\ (forall n v, (exists k, action_of a = Fill k) \/ action_of a = FillTuple -> nth_error h0 a = Some n -> In v (n_items n) -> not_grey_tuple G v);
  i_grey : forall g, In g G -> mlookup m g <> None
}.
Definition extends (m m' : memo) : Prop := forall a b, mlookup m a = Some b -> mlookup m' a = Some b.
Lemma image_extends m m' v w : extends m m' -> image m v w -> image m' v w.
Proof. intros E. destruct v; cbn; auto. destruct (action_of a); auto; intros (b & L & Ew); exists b; auto. Qed.
Lemma done_extends h m h' m' a b : extends m m' -> nth_error h' b = nth_error h b -> done h m a b -> done h' m' a b.
Proof.
  intros E Eb (n & En & D). exists n. split; auto. destruct (visit h0 n); auto; [congruence| |]; destruct D as (ws & D1 & D2); exists ws; (split; [congruence|]);
    (apply (Forall2_imp (image m)); auto; intros x y _; apply image_extends; auto).
Qed.
(* the second part of i_done follows from acyclicity when the greys lead to a *)
Lemma grey_ok G a n v : within h0 root a -> nth_error h0 a = Some n -> In v (n_items n) -> (forall g, In g G -> within h0 root g /\ exists c, edge h0 g c /\ reach h0 c a) -> not_grey_tuple G v.
Proof.
  intros Wa En Hin HG. destruct v as [|c]; cbn; auto. intros Hc. destruct (HG c Hc) as (Wc & c' & Ec & Rc). intros Ht.
  apply (Htuple c c' Wc Ht Ec). apply (reach_step _ c' a c); auto. exists n. auto.
Qed.

(* what one call does *)
Definition post (h : heap) (m : memo) (G : list nat) (v : val) (h' : heap) (m' : memo) (w : val) : Prop :=
  inv h' m' G /\ extends m m' /\ length h <= length h' /\ (forall x, x < length h -> nth_error h' x = nth_error h x) /\ image m' v w.
Definition leads (G : list nat) (v : val) : Prop :=
  match v with VAtom _ => True | VRef c => forall g, In g G -> within h0 root g /\ exists x, edge h0 g x /\ reach h0 x c end.
Definition in_scope (v : val) : Prop := match v with VAtom _ => True | VRef c => within h0 root c end.

Lemma root_lt a : within h0 root a -> a < N.
Proof. destruct root as [|r]; cbn; [tauto|]. intros R. eapply wf_reach; eauto. Qed.

Lemma inv_add h m G a b v : inv h m G -> In a G -> mlookup m a = Some b -> inv (add_item h b v) m G.
Proof.
  intros HI Ha Hb. destruct (i_range h m G HI a b Hb) as (La & Lb & _). constructor.
  - intros x Lx. rewrite add_item_nth by lia. apply (i_old h m G HI x Lx).
  - rewrite add_item_length. apply (i_len h m G HI).
  - intros a' b' E. rewrite add_item_length. apply (i_range h m G HI a' b' E).
  - exact (i_inj h m G HI).
  - intros a' b' E Hn. destruct (i_done h m G HI a' b' E Hn) as [D1 D2]. split; auto. apply (done_extends h m); auto; [intros x y; auto|].
    apply add_item_nth. intros ->. apply Hn. rewrite (i_inj h m G HI a' a b E Hb). exact Ha.
  - exact (i_grey h m G HI).
Qed.

Lemma items_post w G : (forall h m v h' m' v', inv h m G -> leads G v -> in_scope v -> w h m v = Ok (h', m', v') -> post h m G v h' m' v') ->
  forall l h m a b nb h' m', inv h m G -> In a G -> mlookup m a = Some b -> nth_error h b = Some nb ->
  (forall v, In v l -> leads G v /\ in_scope v) -> walk_items w h m b l = Ok (h', m') ->
  inv h' m' G /\ extends m m' /\ length h <= length h' /\ (forall x, x < length h -> x <> b -> nth_error h' x = nth_error h x) /\
  exists ws, nth_error h' b = Some (Node (n_kind nb) (n_data nb) (n_keys nb) (n_items nb ++ ws)) /\ Forall2 (image m') l ws.
Proof.
  intros Hw. induction l as [|v l IH]; intros h m a b nb h' m' HI Ha Hb Eb Hl E; cbn [walk_items] in E.
  - injection E as <- <-. split; auto. split; [intros x y; auto|]. split; auto. split; auto. exists []. rewrite app_nil_r. destruct nb; cbn. auto.
  - destruct (w h m v) as [[[h1 m1] v1]|e] eqn:Ew; cbn [bind] in E; [|discriminate].
    destruct (Hl v (or_introl eq_refl)) as [Hv1 Hv2]. destruct (Hw h m v h1 m1 v1 HI Hv1 Hv2 Ew) as (HI1 & X1 & L1 & S1 & I1).
    destruct (i_range h m G HI a b Hb) as (_ & Lb & _).
    assert (Eb1 : nth_error h1 b = Some nb) by (rewrite S1; auto; lia).
    destruct (IH (add_item h1 b v1) m1 a b _ h' m' (inv_add h1 m1 G a b v1 HI1 Ha (X1 _ _ Hb)) Ha (X1 _ _ Hb) (add_item_self h1 b v1 nb Eb1)) as (HI' & X' & L' & S' & ws & Ews & F); auto.
    { intros u Hu. apply Hl. cbn. auto. }
    rewrite add_item_length in L', S'. split; auto. split; [intros x y Hx; auto|]. split; [lia|]. split.
    + intros x Lx Hx. rewrite S' by (auto; lia). rewrite add_item_nth by auto. apply S1; auto.
    + exists (v1 :: ws). cbn [n_kind n_data n_keys n_items] in Ews. rewrite <- app_assoc in Ews. split; auto. constructor; auto. apply (image_extends m1); auto.
Qed.

Lemma extends_cons m a b : mlookup m a = None -> extends m ((a, b) :: m).
Proof. intros E x y Hx. cbn. destruct (Nat.eqb_spec a x); [congruence|auto]. Qed.

(* start of the copy of a container *)
Lemma inv_start h m G a k d ks : inv h m G -> mlookup m a = None -> within h0 root a -> action_of a <> Keep ->
  (forall g, In g G -> within h0 root g /\ exists x, edge h0 g x /\ reach h0 x a) ->
  inv (h ++ [Node k d ks []]) ((a, length h) :: m) (a :: G).
Proof.
  intros HI En Wa Hk HG. pose proof (i_len h m G HI) as Ln. constructor.
  - intros x Lx. rewrite nth_error_app1 by lia. apply (i_old h m G HI x Lx).
  - rewrite app_length. lia.
  - intros a' b' E. rewrite app_length. cbn [length mlookup] in *. destruct (Nat.eqb_spec a a').
    + injection E as <-. subst a'. pose proof (root_lt a Wa). repeat split; auto; lia.
    + destruct (i_range h m G HI a' b' E) as (R1 & R2 & R3 & R4). repeat split; auto; lia.
  - intros x y b' E1 E2. cbn in E1, E2. destruct (Nat.eqb_spec a x), (Nat.eqb_spec a y); subst; auto.
    + injection E1 as <-. apply (i_range h m G HI) in E2. lia.
    + injection E2 as <-. apply (i_range h m G HI) in E1. lia.
    + exact (i_inj h m G HI x y b' E1 E2).
  - intros a' b' E Hn. cbn in E, Hn. destruct (Nat.eqb_spec a a'); [tauto|].
    destruct (i_done h m G HI a' b' E ltac:(tauto)) as [D1 D2]. split.
    + apply (done_extends h m); auto; [apply extends_cons; auto|]. apply (i_range h m G HI) in E. rewrite nth_error_app1 by lia. reflexivity.
    + intros n0 v Hact E0 Hin. specialize (D2 n0 v Hact E0 Hin). destruct v as [|c]; cbn in *; auto. intros [<-|Hc]; [|auto].
      (* a is a child of the finished object a', so it is in the memo or kept *)
      exfalso. destruct D1 as (n1 & En1 & D1). rewrite E0 in En1. injection En1 as <-. unfold action_of in Hact. rewrite E0 in Hact.
      assert (X : exists ws, Forall2 (image m) (n_items n0) ws) by (destruct Hact as [[k' Hact]|Hact]; rewrite Hact in D1; destruct D1 as (ws & _ & F); eauto).
      destruct X as [ws F]. clear - F Hin En Hk. induction F as [|x y l k' Pxy F IH]; [contradiction|]. destruct Hin as [->|Hin]; auto.
      cbn in Pxy. destruct (action_of a) eqn:Ea; try congruence; destruct Pxy as (b & Eb & _); congruence.
  - intros g [<-|Hg]; cbn; [rewrite Nat.eqb_refl; discriminate|]. destruct (Nat.eqb_spec a g); [discriminate|]. exact (i_grey h m G HI g Hg).
Qed.

Lemma leads_ref G a : leads G (VRef a) -> forall g, In g G -> within h0 root g /\ exists x, edge h0 g x /\ reach h0 x a.
Proof. intros L. exact L. Qed.
Lemma children_lead G a n v : leads G (VRef a) -> within h0 root a -> nth_error h0 a = Some n -> In v (n_items n) -> leads (a :: G) v /\ in_scope v.
Proof.
  intros L W En Hin. destruct v as [|c]; cbn; auto. assert (Ed : edge h0 a c) by (exists n; auto). split.
  - intros g [<-|Hg]; [split; auto; exists c; split; auto; constructor|]. destruct (L g Hg) as (Wg & x & E1 & R). split; auto. exists x. split; auto. apply (reach_step _ x a c); auto.
  - destruct root as [|r]; [contradiction|]. cbn in *. apply (reach_step _ r a c); auto.
Qed.

Theorem walk_post : forall f h m G v h' m' w, inv h m G -> leads G v -> in_scope v -> walk visit f h m v = Ok (h', m', w) -> post h m G v h' m' w.
Proof.
  induction f as [|f IH]; intros h m G v h' m' w HI HL HS E.
  - cbn [walk] in E. destruct v as [z|a].
    + injection E as <- <- <-. split; auto. split; [intros x y; auto|]. split; auto. split; auto. reflexivity.
    + destruct (mlookup m a) as [b|] eqn:Em; [|discriminate]. injection E as <- <- <-. split; auto. split; [intros x y; auto|]. split; auto. split; auto.
      cbn. pose proof (i_range h m G HI a b Em) as (_ & _ & _ & Hk). destruct (action_of a); try congruence; eauto.
  - cbn [walk] in E. destruct v as [z|a].
    { injection E as <- <- <-. split; auto. split; [intros x y; auto|]. split; auto. split; auto. reflexivity. }
    destruct (mlookup m a) as [b|] eqn:Em.
    { injection E as <- <- <-. split; auto. split; [intros x y; auto|]. split; auto. split; auto.
      cbn. pose proof (i_range h m G HI a b Em) as (_ & _ & _ & Hk). destruct (action_of a); try congruence; eauto. }
    cbn in HS. pose proof (root_lt a HS) as La. pose proof (i_len h m G HI) as Ln.
    rewrite (i_old h m G HI a La) in E. destruct (nth_error h0 a) as [n|] eqn:En; [|discriminate].
    rewrite Hstable in E; [|exact (i_old h m G HI)|intros c Hc; exact (Hwf a n c En Hc)].
    assert (Ea : action_of a = visit h0 n) by (unfold action_of; rewrite En; reflexivity).
    destruct (visit h0 n) as [|n1|k| |e] eqn:Ev.
    + injection E as <- <- <-. split; auto. split; [intros x y; auto|]. split; auto. split; auto. cbn. rewrite Ea. reflexivity.
    + injection E as <- <- <-. split; [|split; [apply extends_cons; auto|split; [rewrite app_length; lia|split]]].
      * (* like a container which is finished at once *)
        constructor.
        -- intros x Lx. rewrite nth_error_app1 by lia. apply (i_old h m G HI x Lx).
        -- rewrite app_length. lia.
        -- intros a' b' E'. rewrite app_length. cbn [length mlookup] in *. destruct (Nat.eqb_spec a a').
           ++ injection E' as <-. subst a'. repeat split; auto; try lia. congruence.
           ++ destruct (i_range h m G HI a' b' E') as (R1 & R2 & R3 & R4). repeat split; auto; lia.
        -- intros x y b' E1 E2. cbn in E1, E2. destruct (Nat.eqb_spec a x), (Nat.eqb_spec a y); subst; auto.
           ++ injection E1 as <-. apply (i_range h m G HI) in E2. lia.
           ++ injection E2 as <-. apply (i_range h m G HI) in E1. lia.
           ++ exact (i_inj h m G HI x y b' E1 E2).
        -- intros a' b' E' Hn. cbn in E'. destruct (Nat.eqb_spec a a').
           ++ injection E' as <-. subst a'. split.
              ** exists n. split; auto. rewrite Ev. rewrite nth_error_app2, Nat.sub_diag by lia. reflexivity.
              ** intros n0 v [[k Hk]|Hk]; congruence.
           ++ destruct (i_done h m G HI a' b' E' Hn) as [D1 D2]. split; auto.
              apply (done_extends h m); auto; [apply extends_cons; auto|]. apply (i_range h m G HI) in E'. rewrite nth_error_app1 by lia. reflexivity.
        -- intros g Hg. cbn. destruct (Nat.eqb_spec a g); [discriminate|]. exact (i_grey h m G HI g Hg).
      * intros x Lx. rewrite nth_error_app1 by lia. reflexivity.
      * cbn. rewrite Ea, Nat.eqb_refl. eauto.
    + set (h1 := h ++ [Node k (n_data n) (n_keys n) []]) in *. set (m1 := (a, length h) :: m) in *.
      destruct (walk_items (walk visit f) h1 m1 (length h) (n_items n)) as [[h2 m2]|] eqn:Ei; cbn [bind] in E; [|discriminate]. injection E as <- <- <-.
      assert (HI1 : inv h1 m1 (a :: G)) by (apply inv_start; auto; congruence).
      assert (Hb : mlookup m1 a = Some (length h)) by (cbn; rewrite Nat.eqb_refl; reflexivity).
      assert (Eb : nth_error h1 (length h) = Some (Node k (n_data n) (n_keys n) [])) by (unfold h1; rewrite nth_error_app2, Nat.sub_diag by lia; reflexivity).
      destruct (items_post (walk visit f) (a :: G) (fun h m v h' m' v' HI HL HS => IH h m (a :: G) v h' m' v' HI HL HS) (n_items n) h1 m1 a (length h) _ h2 m2 HI1 (or_introl eq_refl) Hb Eb) as (HI2 & X2 & L2 & S2 & ws & Ews & F); auto.
      { intros v Hv. exact (children_lead G a n v HL HS En Hv). }
      assert (Lh1 : length h1 = S (length h)) by (unfold h1; rewrite app_length; cbn; lia).
      split; [|split; [|split; [lia|split]]].
      * constructor.
        -- exact (i_old _ _ _ HI2).
        -- exact (i_len _ _ _ HI2).
        -- exact (i_range _ _ _ HI2).
        -- exact (i_inj _ _ _ HI2).
        -- intros a' b' E' Hn. destruct (Nat.eq_dec a' a) as [->|Ha].
           ++ assert (b' = length h) by (pose proof (X2 _ _ Hb); congruence). subst b'. split.
              ** exists n. split; auto. rewrite Ev. exists ws. cbn in Ews. auto.
              ** intros n0 v _ E0 Hin. apply (grey_ok G a n0 v HS E0 Hin). exact HL.
           ++ destruct (i_done _ _ _ HI2 a' b' E' ltac:(cbn; intros [?|?]; [congruence|auto])) as [D1 D2]. split; auto.
              intros n0 v Hact E0 Hin. specialize (D2 n0 v Hact E0 Hin). destruct v as [|c]; cbn in *; auto.
        -- intros g Hg. apply (i_grey _ _ _ HI2). cbn. auto.
      * intros x y Hx. apply X2. unfold m1. cbn. destruct (Nat.eqb_spec a x); [congruence|auto].
      * intros x Lx. rewrite S2 by lia. unfold h1. rewrite nth_error_app1 by lia. reflexivity.
      * cbn. rewrite Ea. exists (length h). split; auto.
    + set (h1 := h ++ [Node KList [] [] []]) in *. set (m1 := (a, length h) :: m) in *.
      destruct (walk_items (walk visit f) h1 m1 (length h) (n_items n)) as [[h2 m2]|] eqn:Ei; cbn [bind] in E; [|discriminate].
      assert (HI1 : inv h1 m1 (a :: G)) by (apply inv_start; auto; congruence).
      assert (Hb : mlookup m1 a = Some (length h)) by (cbn; rewrite Nat.eqb_refl; reflexivity).
      assert (Eb : nth_error h1 (length h) = Some (Node KList [] [] [])) by (unfold h1; rewrite nth_error_app2, Nat.sub_diag by lia; reflexivity).
      destruct (items_post (walk visit f) (a :: G) (fun h m v h' m' v' HI HL HS => IH h m (a :: G) v h' m' v' HI HL HS) (n_items n) h1 m1 a (length h) _ h2 m2 HI1 (or_introl eq_refl) Hb Eb) as (HI2 & X2 & L2 & S2 & ws & Ews & F); auto.
      { intros v Hv. exact (children_lead G a n v HL HS En Hv). }
      cbn in Ews. rewrite Ews in E. cbn [n_items] in E. injection E as <- <- <-.
      assert (Lh1 : length h1 = S (length h)) by (unfold h1; rewrite app_length; cbn; lia).
      assert (Xa : forall x y, x <> a -> mlookup m2 x = Some y -> mlookup ((a, length h2) :: m2) x = Some y) by (intros x y Hx Hy; cbn; destruct (Nat.eqb_spec a x); [congruence|auto]).
      assert (Lm2 : length h2 > length h) by lia.
      (* images of values other than a are the same in the new memo *)
      assert (Im : forall v u, v <> VRef a -> image m2 v u -> image ((a, length h2) :: m2) v u).
      { intros v u Hv Hu. destruct v as [|c]; auto. unfold image in *. destruct (action_of c); auto; destruct Hu as (b' & Eb' & ->); exists b'; split; auto; apply Xa; auto; congruence. }
      pose proof (i_len _ _ _ HI2) as Ln2.
      split; [|split; [|split; [rewrite app_length; lia|split]]].
      * constructor.
        -- intros x Lx. rewrite nth_error_app1 by lia. apply (i_old _ _ _ HI2 x Lx).
        -- rewrite app_length. lia.
        -- intros a' b' E'. rewrite app_length. cbn [length mlookup] in *. destruct (Nat.eqb_spec a a').
           ++ injection E' as <-. subst a'. repeat split; auto; try lia. congruence.
           ++ destruct (i_range _ _ _ HI2 a' b' E') as (R1 & R2 & R3 & R4). repeat split; auto; lia.
        -- intros x y b' E1 E2. cbn in E1, E2. destruct (Nat.eqb_spec a x), (Nat.eqb_spec a y); subst; auto.
           ++ injection E1 as <-. apply (i_range _ _ _ HI2) in E2. lia.
           ++ injection E2 as <-. apply (i_range _ _ _ HI2) in E1. lia.
           ++ exact (i_inj _ _ _ HI2 x y b' E1 E2).
        -- intros a' b' E' Hn. cbn in E'. destruct (Nat.eqb_spec a a').
           ++ injection E' as <-. subst a'. split.
              ** exists n. split; auto. rewrite Ev. exists ws. rewrite nth_error_app2, Nat.sub_diag by lia. split; auto.
                 apply (Forall2_imp (image m2)); auto. intros v u Hin Hu. apply Im; auto. intros ->.
                 apply (Htuple a a HS Ea); [exists n; auto|constructor].
              ** intros n0 v _ E0 Hin. apply (grey_ok G a n0 v HS E0 Hin). exact HL.
           ++ destruct (i_done _ _ _ HI2 a' b' E' ltac:(cbn; intros [?|?]; [congruence|auto])) as [D1 D2]. split.
              ** destruct D1 as (n' & En' & D1). exists n'. split; auto. apply (i_range _ _ _ HI2) in E'.
                 assert (Ea' : action_of a' = visit h0 n') by (unfold action_of; rewrite En'; reflexivity).
                 destruct (visit h0 n') as [|n1'|k'| |e']; auto.
                 --- rewrite nth_error_app1 by lia. exact D1.
                 --- destruct D1 as (ws' & D1 & D3). exists ws'. rewrite nth_error_app1 by lia. split; auto.
                     apply (Forall2_imp (image m2)); auto. intros v u Hin Hu. apply Im; auto. intros ->.
                     specialize (D2 n' (VRef a) (or_introl (ex_intro _ k' Ea')) En' Hin). exact (D2 (or_introl eq_refl) Ea).
                 --- destruct D1 as (ws' & D1 & D3). exists ws'. rewrite nth_error_app1 by lia. split; auto.
                     apply (Forall2_imp (image m2)); auto. intros v u Hin Hu. apply Im; auto. intros ->.
                     specialize (D2 n' (VRef a) (or_intror Ea') En' Hin). exact (D2 (or_introl eq_refl) Ea).
              ** intros n9 v Hact E0 Hin. specialize (D2 n9 v Hact E0 Hin). destruct v as [|c]; cbn in *; auto.
        -- intros g Hg. cbn. destruct (Nat.eqb_spec a g); [discriminate|]. apply (i_grey _ _ _ HI2). cbn. auto.
      * intros x y Hx. assert (x <> a) by congruence. apply Xa; auto. apply X2. unfold m1. cbn. destruct (Nat.eqb_spec a x); [congruence|auto].
      * intros x Lx. rewrite nth_error_app1 by lia. rewrite S2 by lia. unfold h1. rewrite nth_error_app1 by lia. reflexivity.
      * cbn. rewrite Ea, Nat.eqb_refl. eauto.
    + discriminate.
Qed.

(* ---- termination ---- *)
Definition missing (m : memo) : nat := length (filter (fun x => match mlookup m x with None => true | _ => false end) (seq 0 N)).
Lemma filter_le {X} (p q : X -> bool) l : (forall x, In x l -> q x = true -> p x = true) -> length (filter q l) <= length (filter p l).
Proof.
  induction l as [|x l IH]; intros HI; cbn; auto. specialize (IH ltac:(intros; apply HI; cbn; auto)). destruct (q x) eqn:Eq.
  - rewrite (HI x) by (cbn; auto). cbn. lia.
  - destruct (p x); cbn; lia.
Qed.
Lemma filter_lt {X} (p q : X -> bool) l y : (forall x, In x l -> q x = true -> p x = true) -> In y l -> p y = true -> q y = false -> length (filter q l) < length (filter p l).
Proof.
  induction l as [|x l IH]; intros HI Hy Py Qy; [contradiction|]. destruct Hy as [->|Hy].
  - cbn. rewrite Py, Qy. cbn. apply Nat.lt_succ_r. apply filter_le. intros; apply HI; cbn; auto.
  - specialize (IH ltac:(intros; apply HI; cbn; auto) Hy Py Qy). cbn. destruct (q x) eqn:Eq.
    + rewrite (HI x) by (cbn; auto). cbn. lia.
    + destruct (p x); cbn; lia.
Qed.
Lemma missing_le m m' : extends m m' -> missing m' <= missing m.
Proof. intros E. apply filter_le. intros x _. destruct (mlookup m x) eqn:Em; auto. rewrite (E _ _ Em). auto. Qed.
Lemma missing_lt m a b : a < N -> mlookup m a = None -> missing ((a, b) :: m) < missing m.
Proof.
  intros La Em. apply (filter_lt _ _ _ a).
  - intros x _. cbn. destruct (Nat.eqb_spec a x) as [->|]; auto. discriminate.
  - apply in_seq. lia.
  - rewrite Em. reflexivity.
  - cbn. rewrite Nat.eqb_refl. reflexivity.
Qed.
Hypothesis Hok : forall a n e, within h0 root a -> nth_error h0 a = Some n -> visit h0 n <> Fail e.
Lemma items_ok w G : (forall h m v h' m' v', inv h m G -> leads G v -> in_scope v -> w h m v = Ok (h', m', v') -> post h m G v h' m' v') ->
  forall k, (forall h m v, inv h m G -> leads G v -> in_scope v -> missing m <= k -> is_ok (w h m v) = true) ->
  forall l h m a b, inv h m G -> In a G -> mlookup m a = Some b -> missing m <= k -> (forall v, In v l -> leads G v /\ in_scope v) -> is_ok (walk_items w h m b l) = true.
Proof.
  intros Hw k Hk. induction l as [|v l IH]; intros h m a b HI Ha Hb Hm Hl; cbn [walk_items]; auto.
  destruct (Hl v (or_introl eq_refl)) as [Hv1 Hv2]. pose proof (Hk h m v HI Hv1 Hv2 Hm) as O1.
  destruct (w h m v) as [[[h1 m1] v1]|e] eqn:Ew; [|discriminate]. cbn [bind].
  destruct (Hw h m v h1 m1 v1 HI Hv1 Hv2 Ew) as (HI1 & X1 & L1 & S1 & I1).
  apply (IH _ _ a); auto.
  - apply inv_add with (a := a); auto.
  - pose proof (missing_le m m1 X1). lia.
  - intros u Hu. apply Hl. cbn. auto.
Qed.
Theorem walk_ok : forall f h m G v, inv h m G -> leads G v -> in_scope v -> missing m <= f -> is_ok (walk visit f h m v) = true.
Proof.
  induction f as [|f IH]; intros h m G v HI HL HS Hm; cbn [walk]; destruct v as [z|a]; auto.
  - destruct (mlookup m a) eqn:Em; auto. exfalso. pose proof (missing_lt m a 0 (root_lt a HS) Em). lia.
  - destruct (mlookup m a) eqn:Em; auto. cbn in HS. pose proof (root_lt a HS) as La.
    rewrite (i_old h m G HI a La). destruct (nth_some h0 a La) as [n En]. rewrite En.
    rewrite Hstable; [|exact (i_old h m G HI)|intros c Hc; exact (Hwf a n c En Hc)].
    assert (Ea : action_of a = visit h0 n) by (unfold action_of; rewrite En; reflexivity).
    pose proof (Hok a n) as Hf. destruct (visit h0 n) as [|n1|k| |e] eqn:Ev; auto; [| |exfalso; exact (Hf e HS En eq_refl)].
    all: match goal with |- is_ok (bind (walk_items _ ?h1 ?m1 ?b ?l) _) = true =>
      assert (HI1 : inv h1 m1 (a :: G)) by (apply inv_start; auto; congruence);
      assert (O1 : is_ok (walk_items (walk visit f) h1 m1 b l) = true);
      [ apply (items_ok (walk visit f) (a :: G) (fun h m v h' m' v' HI HL HS => walk_post f h m (a :: G) v h' m' v' HI HL HS) f (fun h m v => IH h m (a :: G) v) l h1 m1 a b);
        [ exact HI1 | left; reflexivity | cbn; rewrite Nat.eqb_refl; reflexivity | pose proof (missing_lt m a b La Em); lia | intros v Hv; exact (children_lead G a n v HL HS En Hv) ]
      | destruct (walk_items (walk visit f) h1 m1 b l) as [[h2 m2]|]; [reflexivity|discriminate] ] end.
Qed.
Lemma inv_init : inv h0 [] [].
Proof. constructor; auto; cbn; try discriminate; try tauto. Qed.
Lemma missing_init m : missing m <= N.
Proof. unfold missing. transitivity (length (seq 0 N)); [|rewrite seq_length; auto]. generalize (seq 0 N). intros l. induction l; cbn; auto. destruct (mlookup m a); cbn; lia. Qed.
Lemma root_leads : leads [] root /\ in_scope root.
Proof. unfold leads, in_scope. destruct root as [|r] eqn:E; auto. split; [intros g []|]. constructor. Qed.
Theorem copy_terminates f : N <= f -> is_ok (walk visit f h0 [] root) = true.
Proof. intros L. destruct root_leads as [L1 L2]. apply (walk_ok f h0 [] [] root inv_init L1 L2). pose proof (missing_init []). lia. Qed.
End P.

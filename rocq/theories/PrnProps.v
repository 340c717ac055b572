From Coq Require Import Ascii String.
From Verif Require Import Prelude PrnModel PrnSpec.
Open Scope string_scope.
Open Scope list_scope.

Lemma occ_app c : forall a b, occurrences c (a ++ b)%string = occurrences c a + occurrences c b.
Proof. induction a as [|x a IH]; intro b; cbn; [reflexivity|]. rewrite IH. lia. Qed.
Lemma occ_items c : forall ts b, Ascii.eqb ","%char c = false -> Ascii.eqb " "%char c = false ->
  occurrences c (puts_items b ts) = fold_right (fun t a => occurrences c t + a) 0 ts.
Proof.
  induction ts as [|t r IH]; intros b H H0; [reflexivity|]. cbn [puts_items fold_right]. rewrite !occ_app, IH by assumption.
  replace (occurrences c (if b then "" else ", ")) with 0 by (destruct b; [reflexivity|];
    change (occurrences c ", ") with ((if Ascii.eqb ","%char c then 1 else 0) + ((if Ascii.eqb " "%char c then 1 else 0) + 0)); rewrite H, H0; reflexivity). lia.
Qed.
Lemma fold_map {A B} (f : A -> B) (g : B -> nat) l : fold_right (fun t a => g t + a) 0 (map f l) = fold_right (fun t a => g (f t) + a) 0 l.
Proof. induction l as [|x l IH]; cbn; [reflexivity|]. rewrite IH. reflexivity. Qed.

Section P.
Variable heap : nat -> node.

Lemma cut_count d : forall x, without heap "<"%char -> occurrences "<"%char (item_repr heap d x) = ways heap d x.
Proof.
  induction d as [|d IH]; intros x W; pose proof (W x) as Wx; cbn [item_repr ways]; unfold contents;
    destruct (heap x) as [s|cls l|cls l]; try assumption; try reflexivity.
  - rewrite !occ_app, occ_items, Wx by reflexivity. rewrite fold_map. cbn [occurrences]. cbn.
    rewrite Nat.add_0_r. induction l as [|y l IHl]; cbn [fold_right]; [reflexivity|]. rewrite IHl, IH by exact W. reflexivity.
  - rewrite !occ_app, occ_items, Wx by reflexivity. rewrite fold_map. cbn.
    rewrite Nat.add_0_r. induction l as [|y l IHl]; cbn [fold_right flat_map app]; [reflexivity|]. rewrite IHl, !occ_app, !IH by exact W. change (occurrences "<" (String ":" (String " " (item_repr heap d (snd y))))) with (occurrences "<" (item_repr heap d (snd y))).
    rewrite IH by exact W. lia.
Qed.
Lemma ways_nested : forall d x, ways heap d x = 0 <-> ~ nested heap (S d) x.
Proof.
  induction d as [|d IH]; intro x; cbn [ways].
  - destruct (contents heap x) as [l|] eqn:C.
    + split; [discriminate|]. intro H. exfalso. apply H. eapply nested_one. exact C.
    + split; [|reflexivity]. intros _ H. inversion H; subst; congruence.
  - destruct (contents heap x) as [l|] eqn:C.
    + assert (Q : fold_right (fun y a => ways heap d y + a) 0 l = 0 <-> forall y, In y l -> ways heap d y = 0).
      { clear. induction l as [|y l IH]; cbn; [intuition|]. rewrite Nat.eq_add_0, IH. split.
        - intros [A B] z [-> | H]; auto.
        - intro H. split; [apply H; now left|]. intros z Hz. apply H. now right. }
      rewrite Q. split.
      * intros A H. inversion H as [|? ? l0 y C0 Iy N0]; subst. rewrite C in C0. injection C0 as <-. apply (IH y); auto.
      * intros A y Iy. apply IH. intro N0. apply A. eapply nested_more; eassumption.
    + split; [|reflexivity]. intros _ H. inversion H; subst; congruence.
Qed.
Lemma nested_down n x : nested heap (S (S n)) x -> nested heap (S n) x.
Proof.
  revert x. induction n as [|n IH]; intros x H; inversion H as [|? ? l y C I0 N0]; subst.
  - eapply nested_one. exact C.
  - eapply nested_more; [exact C|exact I0|]. apply IH, N0.
Qed.
Lemma repr_S d x : item_repr heap (S d) x = match heap x with
  | Leaf s => s
  | Seq cls l => cls ++ "([" ++ puts_items true (map (item_repr heap d) l) ++ "])"
  | Map cls l => cls ++ "({" ++ puts_items true (map (fun kv => item_repr heap d (fst kv) ++ ": " ++ item_repr heap d (snd kv)) l) ++ "})"
  end%string.
Proof. reflexivity. Qed.
Lemma deeper d : forall x, ~ nested heap (S d) x -> item_repr heap (S d) x = item_repr heap d x.
Proof.
  induction d as [|d IH]; intros x N.
  - cbn [item_repr]. destruct (heap x) as [s|cls l|cls l] eqn:Hx; [reflexivity| |]; exfalso; apply N; eapply nested_one; unfold contents; rewrite Hx; reflexivity.
  - assert (Q : forall y l, contents heap x = Some l -> In y l -> item_repr heap (S d) y = item_repr heap d y).
    { intros y l C Iy. apply IH. intro Ny. apply N. eapply nested_more; eassumption. }
    rewrite (repr_S (S d)), (repr_S d). unfold contents in Q. destruct (heap x) as [s|cls l|cls l]; [reflexivity| |].
    + do 3 f_equal. f_equal. apply map_ext_in. intros y Iy. eapply Q; [reflexivity|exact Iy].
    + do 3 f_equal. f_equal. apply map_ext_in. intros [k v] Iy. cbn [fst snd].
      rewrite (Q k _ eq_refl), (Q v _ eq_refl); [reflexivity| |]; apply in_flat_map; exists (k, v); cbn; auto.
Qed.
End P.

(* If containers are nested at most d deep (so that no container contains itself), the limit d or any greater one does not show. *)
Theorem C192_shallow heap d e x : ~ nested heap (S d) x -> d <= e -> to_string heap e x = to_string heap d x.
Proof.
  unfold to_string. intros N L. induction L as [|e L IH]; [reflexivity|]. rewrite <- IH. apply deeper.
  clear IH. induction L as [|e L IH]; [exact N|]. intro H. apply IH. now apply nested_down.
Qed.
(* Otherwise places where the text is cut are marked, one for every way to get there.  Cyclic containers always have some. *)
Theorem C192_cut heap d x : without heap "<"%char ->
  occurrences "<"%char (to_string heap d x) = ways heap d x /\ (occurrences "<"%char (to_string heap d x) = 0 <-> ~ nested heap (S d) x).
Proof. intro W. unfold to_string. rewrite cut_count by exact W. split; [reflexivity|apply ways_nested]. Qed.

Lemma open_shift : forall s z, open_brackets z s = (z + open_brackets 0 s)%Z.
Proof.
  induction s as [|a s IH]; intro z; cbn; [lia|]. destruct (Ascii.eqb a "("); [|destruct (Ascii.eqb a ")")]; rewrite IH.
  - rewrite (IH (1)%Z). lia.
  - rewrite (IH (-1)%Z). lia.
  - lia.
Qed.
Lemma most_shift : forall s z, most_open z s = (z + most_open 0 s)%Z.
Proof.
  induction s as [|a s IH]; intro z; cbn; [lia|]. destruct (Ascii.eqb a "("); [|destruct (Ascii.eqb a ")")]; rewrite IH.
  - rewrite (IH (1)%Z). lia.
  - rewrite (IH (-1)%Z). lia.
  - lia.
Qed.
Lemma open_app : forall a b z, open_brackets z (a ++ b)%string = open_brackets (open_brackets z a) b.
Proof. induction a as [|x a IH]; intros b z; cbn; [reflexivity|]. apply IH. Qed.
Lemma most_app : forall a b z, most_open z (a ++ b)%string = Z.max (most_open z a) (most_open (open_brackets z a) b).
Proof.
  induction a as [|x a IH]; intros b z.
  - cbn. enough (z <= most_open z b)%Z by lia. destruct b; cbn; lia.
  - cbn. rewrite IH. lia.
Qed.
(* a text in which brackets are balanced and at most m open at a time *)
Definition flat (m : Z) (s : string) : Prop := open_brackets 0 s = 0%Z /\ (most_open 0 s <= m)%Z.
Lemma flat_app m a b : flat m a -> flat m b -> flat m (a ++ b)%string.
Proof. intros [A B] [C D]. split; rewrite ?open_app, ?most_app, A; [exact C|lia]. Qed.
Lemma flat_mono m m' s : (m <= m')%Z -> flat m s -> flat m' s.
Proof. intros L [A B]. split; [exact A|lia]. Qed.
Lemma flat_none s : occurrences "(" s = 0 -> occurrences ")" s = 0 -> flat 0 s.
Proof.
  unfold flat. induction s as [|a s IH]; intros A B; [cbn; lia|]. cbn in A, B. cbn [open_brackets most_open].
  destruct (Ascii.eqb a "("); [discriminate|]. destruct (Ascii.eqb a ")"); [discriminate|]. cbn in A, B. destruct (IH A B) as [C D]. split; [exact C|lia].
Qed.
Lemma flat_wrap m a p q s : open_brackets 0 p = 1%Z -> most_open 0 p = 1%Z -> open_brackets 1 q = 0%Z -> most_open 1 q = 1%Z ->
  flat 0 a -> flat m s -> (0 <= m)%Z -> flat (m + 1) (a ++ p ++ s ++ q)%string.
Proof.
  intros O P Q R [A B] [C D] M. unfold flat. rewrite !open_app, !most_app, A, O, P, (open_shift s 1%Z), (most_shift s 1%Z), C.
  change (1 + 0)%Z with 1%Z. rewrite Q, R. split; [reflexivity|lia].
Qed.
Lemma flat_items m : (0 <= m)%Z -> forall ts b, Forall (flat m) ts -> flat m (puts_items b ts).
Proof.
  intros M ts. induction ts as [|t r IH]; intros b F; cbn [puts_items]; [split; cbn; lia|]. inversion F; subst.
  apply flat_app; [|apply flat_app; [assumption|apply IH; assumption]]. destruct b; split; cbn; lia.
Qed.
Lemma flat_repr heap d : without heap "("%char -> without heap ")"%char -> forall x, flat (Z.of_nat d) (item_repr heap d x).
Proof.
  intros W V. induction d as [|d IH]; intro x; pose proof (W x) as Wx; pose proof (V x) as Vx; cbn [item_repr]; destruct (heap x) as [s|cls l|cls l].
  - now apply flat_none.
  - split; cbn; lia.
  - split; cbn; lia.
  - eapply flat_mono; [|now apply flat_none]. lia.
  - eapply flat_mono; [|apply (flat_wrap (Z.of_nat d) cls "([" "])"); try reflexivity; [now apply flat_none| |lia]]; [lia|].
    apply flat_items; [lia|]. apply Forall_forall. intros t Ht. apply in_map_iff in Ht. destruct Ht as (y & <- & _). apply IH.
  - eapply flat_mono; [|apply (flat_wrap (Z.of_nat d) cls "({" "})"); try reflexivity; [now apply flat_none| |lia]]; [lia|].
    apply flat_items; [lia|]. apply Forall_forall. intros t Ht. apply in_map_iff in Ht. destruct Ht as (y & <- & _).
    repeat apply flat_app; try apply IH. split; cbn; lia.
Qed.
(* For all containers, also for cyclic ones: brackets are closed, and never more than max_depth are open. *)
Theorem C192_depth heap d x : without heap "("%char -> without heap ")"%char ->
  open_brackets 0 (to_string heap d x) = 0%Z /\ (most_open 0 (to_string heap d x) <= Z.of_nat d)%Z.
Proof. intros W V. exact (flat_repr heap d W V x). Qed.

(* But the text of a container which contains itself w times has at least w^10 characters. *)
Lemma occ_length c : forall s, occurrences c s <= String.length s.
Proof. induction s as [|a s IH]; cbn; [lia|]. destruct (Ascii.eqb a c); lia. Qed.
Lemma ways_self heap x l w : contents heap x = Some l -> count_occ Nat.eq_dec l x = w -> forall d, w ^ d <= ways heap d x.
Proof.
  intros C K. induction d as [|d IH]; cbn [ways]; rewrite C; [cbn; lia|].
  assert (Q : forall l', count_occ Nat.eq_dec l' x * ways heap d x <= fold_right (fun y a => ways heap d y + a) 0 l').
  { induction l' as [|y l' IHl]; cbn [count_occ fold_right]; [lia|]. destruct (Nat.eq_dec y x) as [-> | N]; cbn; lia. }
  specialize (Q l). rewrite K in Q. cbn [Nat.pow]. nia.
Qed.
Lemma cut_at_least heap d : forall x, ways heap d x <= occurrences "<"%char (item_repr heap d x).
Proof.
  induction d as [|d IH]; intro x; cbn [item_repr ways]; unfold contents; destruct (heap x) as [s|cls l|cls l]; try (cbn; lia).
  - rewrite !occ_app, occ_items by reflexivity. rewrite fold_map.
    enough (fold_right (fun y a => ways heap d y + a) 0 l <= fold_right (fun t a => occurrences "<"%char (item_repr heap d t) + a) 0 l) by lia.
    induction l as [|y l IHl]; cbn [fold_right]; [lia|]. specialize (IH y). lia.
  - rewrite !occ_app, occ_items by reflexivity. rewrite fold_map.
    enough (fold_right (fun y a => ways heap d y + a) 0 (flat_map (fun kv => [fst kv; snd kv]) l) <=
            fold_right (fun kv a => occurrences "<"%char (item_repr heap d (fst kv) ++ ": " ++ item_repr heap d (snd kv))%string + a) 0 l) by lia.
    induction l as [|[k v] l IHl]; cbn [fold_right flat_map app fst snd]; [lia|]. rewrite !occ_app. pose proof (IH k). pose proof (IH v). lia.
Qed.
Theorem C193_size_refuted heap x l w : contents heap x = Some l -> count_occ Nat.eq_dec l x = w -> w ^ 10 <= String.length (str heap x).
Proof.
  intros C K. unfold str, to_string. etransitivity; [apply (ways_self heap x l w C K)|]. etransitivity; [apply cut_at_least|apply occ_length].
Qed.


Section TREE.
Variable heap : nat -> node.
Variable N x : nat.
Hypothesis T : tree_shaped heap N x.
Let f := items_of heap.
Fixpoint visited (d : nat) (y : nat) : list nat := y :: match d with O => [] | S e => flat_map (visited e) (f y) end.
Fixpoint lev (k : nat) (l : list nat) : list nat := match k with O => l | S j => lev j (flat_map f l) end.
Lemma lev_S k : forall l, lev (S k) l = flat_map f (lev k l).
Proof. induction k as [|k IH]; intro l; [reflexivity|]. change (lev (S (S k)) l) with (lev (S k) (flat_map f l)). rewrite IH. reflexivity. Qed.
Lemma visited_lev d : forall l, length (flat_map (visited d) l) = fold_right (fun k a => length (lev k l) + a) 0 (seq 0 (S d)).
Proof.
  induction d as [|d IH]; intro l.
  - cbn. rewrite Nat.add_0_r. induction l as [|y l IHl]; cbn; [reflexivity|]. now rewrite IHl.
  - transitivity (length l + length (flat_map (visited d) (flat_map f l))).
    + induction l as [|y l IHl]; [reflexivity|].
      change (flat_map (visited (S d)) (y :: l)) with ((y :: flat_map (visited d) (f y)) ++ flat_map (visited (S d)) l).
      change (flat_map f (y :: l)) with (f y ++ flat_map f l). rewrite flat_map_app, !app_length, IHl. cbn [length]. lia.
    + rewrite IH. cbn [seq fold_right lev]. f_equal. rewrite <- (seq_shift d 1). cbn [seq fold_right]. rewrite fold_map. cbn [lev]. reflexivity.
Qed.
Lemma flat_nodup l : NoDup l -> incl l (seq 0 N) -> NoDup (flat_map f l).
Proof.
  destruct T as (_ & _ & ND). fold f in ND.
  assert (A : forall S, NoDup S -> NoDup (flat_map f S) -> (forall a, In a S -> NoDup (f a)) /\ (forall a b y, In a S -> In b S -> In y (f a) -> In y (f b) -> a = b)).
  { induction S as [|a S IH]; intros NS NF; [split; intros; contradiction|]. cbn [flat_map] in NF. inversion NS; subst.
    assert (B : NoDup (f a) /\ NoDup (flat_map f S) /\ forall y, In y (f a) -> ~ In y (flat_map f S)).
    { clear -NF. induction (f a) as [|z l IHl]; cbn in *; [repeat split; [constructor|exact NF|intros ? []]|]. inversion NF; subst. destruct (IHl H2) as (P & Q & R).
      rewrite in_app_iff in H1. repeat split; [constructor; tauto|exact Q|]. intros y [<- | Hy]; [tauto|now apply R]. }
    destruct B as (B1 & B2 & B3). destruct (IH H2 B2) as [C D]. split.
    - intros b [<- | Hb]; auto.
    - intros b c y [<- | Hb] [<- | Hc] Hy Hz; auto.
      + exfalso. apply (B3 y Hy). apply in_flat_map. eauto.
      + exfalso. apply (B3 y Hz). apply in_flat_map. eauto.
      + eapply D; eauto. }
  destruct (A _ (seq_NoDup N 0) ND) as [C D]. clear A. intros Nl Il. induction l as [|a l IH]; cbn [flat_map]; [constructor|]. inversion Nl; subst.
  assert (Ia : In a (seq 0 N)) by (apply Il; now left). assert (Il' : incl l (seq 0 N)) by (intros z Hz; apply Il; now right).
  specialize (IH H2 Il').
  assert (E : forall y, In y (f a) -> ~ In y (flat_map f l)).
  { intros y Hy Hz. apply in_flat_map in Hz. destruct Hz as (b & Hb & Hz). assert (a = b) by (eapply D; eauto). subst. contradiction. }
  pose proof (C a Ia) as Na. clear -IH E Na. induction (f a) as [|z r IHr]; cbn; [exact IH|]. inversion Na; subst. constructor.
  - rewrite in_app_iff. intros [H | H]; [contradiction|]. apply (E z); [now left|exact H].
  - apply IHr; [|assumption]. intros y Hy. apply E. now right.
Qed.
Lemma parent_unique a b y : a < N -> b < N -> In y (f a) -> In y (f b) -> a = b.
Proof.
  intros Ha Hb Hy Hz. destruct (Nat.eq_dec a b) as [E|E]; [exact E|]. exfalso.
  assert (ND : NoDup (flat_map f [a; b])).
  { apply flat_nodup; [constructor; [intros [H|[]]; congruence|constructor; [intros []|constructor]]|].
    intros z [<- | [<- | []]]; apply in_seq; lia. }
  cbn in ND. rewrite app_nil_r in ND. clear -ND Hy Hz. induction (f a) as [|z l IH]; [contradiction|]. inversion ND; subst. destruct Hy as [-> | Hy].
  - apply H1. rewrite in_app_iff. now right.
  - now apply IH.
Qed.
Lemma lev_below k : incl (lev k [x]) (seq 0 N) /\ NoDup (lev k [x]).
Proof.
  destruct T as (Hx & Hy & _). induction k as [|k [IA IB]].
  - split; [intros z [<- | []]; apply in_seq; lia|]. constructor; [intros []|constructor].
  - rewrite lev_S. split; [|now apply flat_nodup]. intros y Hz. apply in_flat_map in Hz. destruct Hz as (a & Ha & Hz).
    apply in_seq. destruct (Hy y); [|lia]. apply in_flat_map. exists a. split; [now apply IA|exact Hz].
Qed.
Lemma not_root a : a < N -> ~ In x (f a).
Proof. destruct T as (_ & Hy & _). intros L H. destruct (Hy x); [|congruence]. apply in_flat_map. exists a. split; [apply in_seq; lia|exact H]. Qed.
Lemma lev_disjoint : forall m n y, In y (lev m [x]) -> In y (lev (m + S n) [x]) -> False.
Proof.
  induction m as [|m IH]; intros n y A B.
  - destruct A as [<- | []]. rewrite Nat.add_0_l, lev_S in B. apply in_flat_map in B. destruct B as (a & Ia & Ha). apply (not_root a); [|exact Ha].
    apply lev_below in Ia. apply in_seq in Ia. lia.
  - rewrite lev_S in A. cbn [Nat.add] in B. rewrite lev_S in B. apply in_flat_map in A, B. destruct A as (a & Ia & Ha), B as (b & Ib & Hb).
    assert (a = b). { apply (parent_unique a b y); auto; [apply lev_below in Ia; apply in_seq in Ia; lia|apply lev_below in Ib; apply in_seq in Ib; lia]. }
    subst b. exact (IH n a Ia Ib).
Qed.
Lemma visited_below d : length (visited d x) <= N.
Proof.
  assert (E : length (visited d x) = length (flat_map (visited d) [x])) by (cbn [flat_map]; rewrite app_nil_r; reflexivity).
  rewrite E, visited_lev. clear E. transitivity (length (flat_map (fun k => lev k [x]) (seq 0 (S d)))).
  - generalize (seq 0 (S d)). induction l as [|k l IH]; cbn [fold_right flat_map]; [lia|]. rewrite app_length. lia.
  - replace N with (length (seq 0 N)) by apply seq_length. apply NoDup_incl_length.
    + generalize 0 at 1. generalize (S d). induction n as [|n IH]; intro k; cbn [seq flat_map]; [constructor|].
      assert (Q : forall y, In y (lev k [x]) -> ~ In y (flat_map (fun k => lev k [x]) (seq (S k) n))).
      { intros y Hy Hz. apply in_flat_map in Hz. destruct Hz as (j & Hj & Hz). apply in_seq in Hj.
        apply (lev_disjoint k (j - k - 1) y Hy). replace (k + S (j - k - 1)) with j by lia. exact Hz. }
      specialize (IH (S k)). pose proof (proj2 (lev_below k)) as Nk. clear -IH Q Nk. induction (lev k [x]) as [|z r IHr]; cbn; [exact IH|]. inversion Nk; subst. constructor.
      * rewrite in_app_iff. intros [H | H]; [contradiction|]. apply (Q z); [now left|exact H].
      * apply IHr; [|assumption]. intros y Hy. apply Q. now right.
    + intros y Hy. apply in_flat_map in Hy. destruct Hy as (k & _ & Hy). now apply lev_below in Hy.
Qed.
End TREE.
Lemma length_app a b : String.length (a ++ b)%string = String.length a + String.length b.
Proof. induction a as [|c a IH]; cbn; [reflexivity|]. now rewrite IH. Qed.
Lemma length_items : forall ts b, String.length (puts_items b ts) <= fold_right (fun t a => String.length t + 2 + a) 0 ts.
Proof.
  induction ts as [|t r IH]; intro b; cbn [puts_items fold_right]; [cbn; lia|]. rewrite !length_app. specialize (IH false).
  assert (String.length (if b then "" else ", ") <= 2) by (destruct b; cbn; lia). lia.
Qed.
Lemma length_repr heap c : texts_below heap c -> forall d x, String.length (item_repr heap d x) + 2 <= (c + 7) * length (visited heap d x).
Proof.
  intro B. induction d as [|d IH]; intro x; pose proof (B x) as Bx; cbn [item_repr visited].
  - destruct (heap x); cbn; lia.
  - unfold items_of, contents. destruct (heap x) as [s|cls l|cls l]; [cbn; lia| |]; rewrite !length_app; cbn [String.length length].
    + pose proof (length_items (map (item_repr heap d) l) true) as L.
      enough (fold_right (fun t a => String.length t + 2 + a) 0 (map (item_repr heap d) l) <= (c + 7) * length (flat_map (visited heap d) l)) by lia.
      clear -IH. induction l as [|y l IHl]; cbn [map fold_right flat_map]; [lia|]. rewrite app_length. specialize (IH y). lia.
    + pose proof (length_items (map (fun kv => (item_repr heap d (fst kv) ++ ": " ++ item_repr heap d (snd kv))%string) l) true) as L.
      enough (fold_right (fun t a => String.length t + 2 + a) 0 (map (fun kv => (item_repr heap d (fst kv) ++ ": " ++ item_repr heap d (snd kv))%string) l)
        <= (c + 7) * length (flat_map (visited heap d) (flat_map (fun kv => [fst kv; snd kv]) l))) by lia.
      clear -IH. induction l as [|[k v] l IHl]; cbn [map fold_right flat_map fst snd app]; [lia|]. rewrite !app_length, !length_app.
      pose proof (IH k). pose proof (IH v). change (String.length ": ") with 2. lia.
Qed.
(* If nothing is shared, the text has at most c + 7 characters for each of the n objects. *)
Theorem C193_tree_partial heap n c x : tree_shaped heap n x -> texts_below heap c -> String.length (str heap x) <= (c + 7) * n.
Proof.
  intros T B. pose proof (length_repr heap c B 10 x). pose proof (visited_below heap n x T 10). unfold str, to_string. nia.
Qed.

(* and the marks are what is documented: every "<" begins a "<...>" *)
Fixpoint marked (s : string) : Prop :=
  match s with EmptyString => True | String a r => (a = "<"%char -> exists t, s = ("<...>" ++ t)%string) /\ marked r end.
Lemma marked_app : forall a b, marked a -> marked b -> marked (a ++ b)%string.
Proof.
  induction a as [|x a IH]; intros b A B; [exact B|]. destruct A as [A1 A2]. split; [|apply IH; assumption].
  intro X. destruct (A1 X) as [t E]. exists (t ++ b)%string. change (String x a ++ b)%string with (String x (a ++ b)).
  change (("<...>" ++ t)%string) with (String "<" (String "." (String "." (String "." (String ">" t))))) in E. injection E as -> ->. reflexivity.
Qed.
Lemma marked_without : forall s, occurrences "<"%char s = 0 -> marked s.
Proof.
  induction s as [|a s IH]; intro H; [exact Logic.I|]. cbn [occurrences] in H. destruct (Ascii.eqb a "<") eqn:E; [discriminate|]. split; [|apply IH; exact H].
  intros ->. discriminate.
Qed.
Lemma marked_items : forall ts b, Forall marked ts -> marked (puts_items b ts).
Proof.
  induction ts as [|t r IH]; intros b F; [exact Logic.I|]. inversion F; subst. cbn [puts_items]. apply marked_app; [apply marked_without; destruct b; reflexivity|].
  apply marked_app; auto.
Qed.
Theorem C192_marks heap d x : without heap "<"%char -> marked (to_string heap d x).
Proof.
  intro W. unfold to_string. revert x. induction d as [|d IH]; intro x; pose proof (W x) as Wx; cbn [item_repr]; destruct (heap x) as [s|cls l|cls l];
    try (apply marked_without; exact Wx); try (cbn; repeat (split; [try discriminate; intros _; exists ""%string; reflexivity|]); exact Logic.I).
  - apply marked_app; [apply marked_without; exact Wx|]. apply marked_app; [apply marked_without; reflexivity|].
    apply marked_app; [|apply marked_without; reflexivity]. apply marked_items, Forall_forall. intros t I. apply in_map_iff in I. destruct I as (y & <- & _). apply IH.
  - apply marked_app; [apply marked_without; exact Wx|]. apply marked_app; [apply marked_without; reflexivity|].
    apply marked_app; [|apply marked_without; reflexivity]. apply marked_items, Forall_forall. intros t I. apply in_map_iff in I. destruct I as (y & <- & _).
    apply marked_app; [apply IH|]. apply marked_app; [apply marked_without; reflexivity|apply IH].
Qed.

Print Assumptions C192_marks.
Print Assumptions C192_shallow.
Print Assumptions C192_cut.
Print Assumptions C192_depth.
Print Assumptions C193_size_refuted.
Print Assumptions C193_tree_partial.

(* an ObjectArray with the number 1, itself and a dictionary from "a" to a list *)
Definition heap1 (x : nat) : node :=
  match x with 0 => Seq "ObjectArray" [1; 0; 2] | 1 => Leaf "1" | 2 => Map "ImmutableDict" [(3, 4)] | 3 => Leaf "'a'" | _ => Seq "ImmutableList" [] end.
Example C192_example :
  to_string heap1 2 0 = "ObjectArray([1, ObjectArray([1, <...>, <...>]), ImmutableDict({'a': <...>})])"%string /\
  to_string heap1 3 2 = "ImmutableDict({'a': ImmutableList([])})"%string /\ ~ nested heap1 3 2 /\
  without heap1 "<"%char /\ without heap1 "("%char /\ without heap1 ")"%char /\ ways heap1 2 0 = 3.
Proof.
  repeat match goal with |- _ /\ _ => split end; try reflexivity.
  - apply ways_nested. reflexivity.
  - intro x. destruct x as [|[|[|[|x]]]]; reflexivity.
  - intro x. destruct x as [|[|[|[|x]]]]; reflexivity.
  - intro x. destruct x as [|[|[|[|x]]]]; reflexivity.
Qed.
Definition heap2 (x : nat) : node :=
  match x with 0 => Seq "ImmutableList" [1; 2; 3] | 1 => Leaf "1" | 2 => Map "ImmutableDict" [(4, 5)] | 3 => Seq "ImmutableList" [] | _ => Leaf "'a'" end.
Example C193_tree_example : tree_shaped heap2 6 0 /\ texts_below heap2 13.
Proof.
  split.
  - split; [lia|]. cbn. split; [intros y H; lia|]. repeat constructor; cbn; lia.
  - intro x. destruct x as [|[|[|[|x]]]]; cbn; lia.
Qed.
Example C193_example : contents (fun _ => Seq "ObjectArray" [0; 0; 0]) 0 = Some [0; 0; 0] /\ count_occ Nat.eq_dec [0; 0; 0] 0 = 3.
Proof. split; reflexivity. Qed.

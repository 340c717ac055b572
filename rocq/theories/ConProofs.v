(* Proofs about the attributes of containers: the depth-first search. *)
From Verif Require Import Prelude CloneModel CloneSpec CloneProofs CloneProofs2 ConModel ConSpec.

Section DFS.
Variable attr : node -> Z.
Variable h : heap.
Hypothesis Hwf : wf_heap h.
Variable root : val.
Notation N := (length h).
Definition is_tensor (a : nat) (n : node) : Prop := nth_error h a = Some n /\ class_of (n_kind n) = CTensor.
Definition is_stranger (a : nat) : Prop := exists n, nth_error h a = Some n /\ class_of (n_kind n) = CUnknown.
Definition ok_val (v : val) : Prop := match v with VAtom _ => True | VRef a => a < N /\ within h root a end.
Definition seen (V : visited) (a : nat) : Prop := vlookup V a <> None.
(* tensors and the like have no contents *)
Hypothesis Hleaf : forall a n, within h root a -> nth_error h a = Some n -> (class_of (n_kind n) = CTensor \/ class_of (n_kind n) = CBasic) -> n_items n = [].

(* cached attributes are those of tensors within reach *)
Definition sound (V : visited) : Prop := forall a d, vlookup V a = Some (Some d) -> exists t n, reach h a t /\ is_tensor t n /\ attr n = d.
Definition grows (V V' : visited) : Prop := forall a r, vlookup V a = Some r -> vlookup V' a = Some r.
Record post (V : visited) (G : list nat) (vs : list val) (V' : visited) (r : option Z) : Prop := {
  p_grows : grows V V';
  p_sound : sound V';
  p_items : forall c, In (VRef c) vs -> seen V' c \/ In c G;
  p_closed : forall a c, seen V' a -> ~ seen V a -> edge h a c -> seen V' c \/ In c G;
  p_all : forall a n, seen V' a -> ~ seen V a -> is_tensor a n -> r = Some (attr n);
  p_known : forall a, seen V' a -> ~ seen V a -> ~ is_stranger a;
  p_some : forall d, r = Some d -> exists v t n, In v vs /\ within h v t /\ is_tensor t n /\ attr n = d
}.
(* why a call may fail *)
Definition reason (vs : list val) (e : exn) : Prop :=
  (e = ValueError /\ exists v1 t1 n1 v2 t2 n2, In v1 vs /\ In v2 vs /\ within h v1 t1 /\ within h v2 t2 /\ is_tensor t1 n1 /\ is_tensor t2 n2 /\ attr n1 <> attr n2) \/
  (e = TypeError /\ exists v a, In v vs /\ within h v a /\ is_stranger a).
Definition unseen (V : visited) (G : list nat) : nat :=
  length (filter (fun a => match vlookup V a with Some _ => false | None => negb (existsb (Nat.eqb a) G) end) (seq 0 N)).

Lemma seen_dec V a : seen V a \/ ~ seen V a.
Proof. unfold seen. destruct (vlookup V a); [left; discriminate|right; congruence]. Qed.
Lemma grows_seen V V' a : grows V V' -> seen V a -> seen V' a.
Proof. unfold grows, seen. intros G S. destruct (vlookup V a) eqn:E; [|congruence]. rewrite (G _ _ E). discriminate. Qed.
Lemma unseen_le V V' G : grows V V' -> unseen V' G <= unseen V G.
Proof.
  intros X. apply (filter_le (fun _ _ => Keep) h (fun _ _ _ _ => eq_refl)). intros a _. destruct (vlookup V a) eqn:E; [rewrite (X _ _ E); discriminate|]. destruct (vlookup V' a); [discriminate|auto].
Qed.
Lemma unseen_lt V G a : a < N -> vlookup V a = None -> existsb (Nat.eqb a) G = false -> unseen V (a :: G) < unseen V G.
Proof.
  intros L E1 E2. apply (filter_lt (fun _ _ => Keep) h (fun _ _ _ _ => eq_refl) _ _ _ a).
  - intros x _. destruct (vlookup V x); auto. cbn [existsb]. destruct (Nat.eqb x a); cbn; [discriminate|auto].
  - apply in_seq. lia.
  - rewrite E1, E2. reflexivity.
  - rewrite E1. cbn [existsb]. rewrite Nat.eqb_refl. reflexivity.
Qed.
Lemma existsb_in a G : existsb (Nat.eqb a) G = true <-> In a G.
Proof. rewrite existsb_exists. split; [intros (x & I & E); apply Nat.eqb_eq in E; subst; auto|intros I; exists a; rewrite Nat.eqb_refl; auto]. Qed.
Lemma reason_incl vs ws e : (forall v, In v vs -> In v ws) -> reason vs e -> reason ws e.
Proof.
  intros I [[-> (v1 & t1 & n1 & v2 & t2 & n2 & I1 & I2 & R)]|[-> (v & a & I1 & R)]]; [left|right]; split; auto.
  - exists v1, t1, n1, v2, t2, n2. split; [apply I; auto|]. split; [apply I; auto|exact R].
  - exists v, a. split; auto.
Qed.

Definition fine (V : visited) (G : list nat) (v : val) (res : result (visited * option Z)) : Prop :=
  match res with Ok (V', r) => post V G [v] V' r | Err e => reason [v] e end.

Lemma items_fine f G k :
  (forall V v, sound V -> ok_val v -> unseen V G <= k -> fine V G v (f V v)) ->
  forall l V acc, sound V -> (forall v, In v l -> ok_val v) -> unseen V G <= k ->
  match of_items f V acc l with
  | Ok (V', r) => exists r', post V G l V' r' /\ (match acc with None => r = r' | Some d => r = Some d /\ (r' = None \/ r' = Some d) end)
  | Err e => reason l e \/ (exists d v t n, acc = Some d /\ e = ValueError /\ In v l /\ within h v t /\ is_tensor t n /\ attr n <> d)
  end.
Proof.
  intros Hf. induction l as [|v l IH]; intros V acc SV HW HU; cbn [of_items].
  - exists None. split; [|destruct acc; auto]. constructor; try (intros; contradiction); try (intros; congruence); auto; intros a r; auto.
  - pose proof (Hf V v SV (HW v (or_introl eq_refl)) HU) as F1. destruct (f V v) as [[V1 r1]|e]; cbn [bind fine] in *.
    2:{ left. apply (reason_incl [v]); auto. intros u [->|[]]. left. auto. }
    cbn [fst snd].
    assert (HU1 : unseen V1 G <= k) by (pose proof (unseen_le V V1 G (p_grows _ _ _ _ _ F1)); lia).
    assert (HW1 : forall u, In u l -> ok_val u) by (intros; apply HW; right; auto).
    pose proof (fun acc => IH V1 acc (p_sound _ _ _ _ _ F1) HW1 HU1) as IH1.
    (* the two parts together *)
    assert (POST : forall V' r r2, post V1 G l V' r2 -> (forall d, r1 = Some d -> r = Some d) -> (forall d, r2 = Some d -> r = Some d) ->
        (forall d, r = Some d -> r1 = Some d \/ r2 = Some d) -> post V G (v :: l) V' r).
    { intros V' r r2 F2 Q1 Q2 Q3. constructor.
      - intros a x E. apply (p_grows _ _ _ _ _ F2), (p_grows _ _ _ _ _ F1). exact E.
      - apply (p_sound _ _ _ _ _ F2).
      - intros c [->|I]; [|apply (p_items _ _ _ _ _ F2 c I)]. destruct (p_items _ _ _ _ _ F1 c (or_introl eq_refl)); auto. left. apply (grows_seen V1); auto. apply (p_grows _ _ _ _ _ F2).
      - intros a c S1 S2 E. destruct (seen_dec V1 a) as [S|S]; [|apply (p_closed _ _ _ _ _ F2 a c); auto].
        destruct (p_closed _ _ _ _ _ F1 a c S S2 E); auto. left. apply (grows_seen V1); auto. apply (p_grows _ _ _ _ _ F2).
      - intros a n S1 S2 T. destruct (seen_dec V1 a) as [S|S]; [apply Q1, (p_all _ _ _ _ _ F1 a n); auto|apply Q2, (p_all _ _ _ _ _ F2 a n); auto].
      - intros a S1 S2. destruct (seen_dec V1 a) as [S|S]; [apply (p_known _ _ _ _ _ F1 a); auto|apply (p_known _ _ _ _ _ F2 a); auto].
      - intros d E. destruct (Q3 d E) as [E1|E1].
        + destruct (p_some _ _ _ _ _ F1 d E1) as (u & t & n & [<-|[]] & R). exists v, t, n. split; [left; auto|exact R].
        + destruct (p_some _ _ _ _ _ F2 d E1) as (u & t & n & I & R). exists u, t, n. split; [right; auto|exact R]. }
    destruct r1 as [d1|]; cbn [update].
    + destruct (p_some _ _ _ _ _ F1 d1 eq_refl) as (u1 & t1 & n1 & [<-|[]] & W1 & T1 & A1).
      assert (ERR : forall e, (reason l e \/ (exists d v t n, Some d1 = Some d /\ e = ValueError /\ In v l /\ within h v t /\ is_tensor t n /\ attr n <> d)) -> reason (v :: l) e).
      { intros e [R|(d & u & t & n & E & -> & I & W & T & A)]; [apply (reason_incl l); auto; intros; right; auto|]. injection E as <-.
        left. split; auto. exists v, t1, n1, u, t, n. split; [left; auto|]. split; [right; auto|]. split; [exact W1|]. split; [exact W|]. split; [exact T1|]. split; [exact T|]. congruence. }
      destruct acc as [d|]; [destruct (Z.eqb_spec d1 d) as [->|Hd]|]; cbn [bind].
      * specialize (IH1 (Some d)). destruct (of_items f V1 (Some d) l) as [[V' r]|e]; [|left; apply ERR; auto].
        destruct IH1 as (r' & F2 & -> & Q). exists (Some d). split; [|split; auto]. apply (POST V' (Some d) r'); auto; destruct Q as [->| ->]; intros; try discriminate; auto.
      * right. exists d, v, t1, n1. repeat split; auto; try (left; reflexivity); try apply T1. congruence.
      * specialize (IH1 (Some d1)). destruct (of_items f V1 (Some d1) l) as [[V' r]|e]; [|left; apply ERR; auto].
        destruct IH1 as (r' & F2 & -> & Q). exists (Some d1). split; auto. apply (POST V' (Some d1) r'); auto; destruct Q as [->| ->]; intros; try discriminate; auto.
    + cbn [bind]. specialize (IH1 acc). destruct (of_items f V1 acc l) as [[V' r]|e].
      * destruct IH1 as (r' & F2 & Q). exists r'. split; auto. apply (POST V' r' r'); auto. intros; discriminate.
      * destruct IH1 as [R|(d & u & t & n & E & -> & I & R)]; [left; apply (reason_incl l); auto; intros; right; auto|right].
        exists d, u, t, n. split; auto. split; auto. split; [right; auto|exact R].
Qed.

Lemma sound_cons V a r : sound V -> (forall d, r = Some d -> exists t n, reach h a t /\ is_tensor t n /\ attr n = d) -> sound ((a, r) :: V).
Proof. intros S H x d. cbn. destruct (Nat.eqb_spec a x) as [->|]; [|apply S]. intros E. injection E as ->. auto. Qed.
Lemma seen_cons V a r x : seen ((a, r) :: V) x <-> x = a \/ seen V x.
Proof. unfold seen. cbn. destruct (Nat.eqb_spec a x) as [->|Hx]; split; intros; auto; try discriminate. destruct H as [->|]; [congruence|auto]. Qed.

(* a node without contents *)
Lemma leaf_post V G a r n : sound V -> vlookup V a = None -> nth_error h a = Some n -> n_items n = [] ->
  class_of (n_kind n) <> CUnknown -> (class_of (n_kind n) = CTensor -> r = Some (attr n)) -> (class_of (n_kind n) <> CTensor -> r = None) -> post V G [VRef a] ((a, r) :: V) r.
Proof.
  intros S E En Hi HU H1 H2.
  assert (HS : forall d, r = Some d -> exists t n, reach h a t /\ is_tensor t n /\ attr n = d).
  { intros d ->. exists a, n. destruct (class_of (n_kind n)) eqn:K; try (specialize (H2 ltac:(discriminate)); discriminate).
    split; [constructor|]. split; [split; auto|]. specialize (H1 eq_refl). congruence. }
  constructor.
  - intros x y. cbn. destruct (Nat.eqb_spec a x) as [->|]; [congruence|auto].
  - apply sound_cons; auto.
  - intros c [X|[]]. injection X as <-. left. apply seen_cons. auto.
  - intros x c S1 S2 (n' & En' & I). apply seen_cons in S1. destruct S1 as [->|]; [|tauto]. rewrite En in En'. injection En' as <-. rewrite Hi in I. contradiction.
  - intros x n' S1 S2 [En' T]. apply seen_cons in S1. destruct S1 as [->|]; [|tauto]. rewrite En in En'. injection En' as <-. auto.
  - intros x S1 S2 (n' & En' & T). apply seen_cons in S1. destruct S1 as [->|]; [|tauto]. rewrite En in En'. injection En' as <-. auto.
  - intros d Er. destruct (HS d Er) as (t & n' & R & T & A). exists (VRef a), t, n'. split; [left; auto|]. auto.
Qed.

Lemma dfs : forall f V G v, sound V -> ok_val v -> unseen V G <= f -> fine V G v (of_container attr f h V G v).
Proof.
  induction f as [|f IH]; intros V G v SV HW HU; cbn [of_container]; destruct v as [z|a].
  1,3: cbn; constructor; try (intros; tauto); try discriminate; auto; [intros a r; auto|intros c [X|[]]; discriminate].
  all: destruct (vlookup V a) as [r|] eqn:E.
  1,3: cbn; constructor; try (intros; tauto); auto;
    [ intros x y; auto | intros c [X|[]]; injection X as <-; left; unfold seen; congruence
    | intros d ->; destruct (SV a d E) as (t & n & R & T & A); exists (VRef a), t, n; split; [left; auto|auto] ].
  all: destruct (existsb (Nat.eqb a) G) eqn:EG.
  1,3: cbn; constructor; try (intros; tauto); try discriminate; auto; [intros x y; auto|intros c [X|[]]; injection X as <-; right; apply existsb_in; auto].
  - exfalso. destruct HW as [HW _]. pose proof (unseen_lt V G a HW E EG). lia.
  - destruct HW as [HW HR0]. destruct (nth_some h a HW) as [n En]. rewrite En. pose proof (unseen_lt V G a HW E EG) as HL.
    assert (CONT : class_of (n_kind n) <> CTensor -> class_of (n_kind n) <> CUnknown ->
       fine V G (VRef a) (bind (of_items (fun V0 v => of_container attr f h V0 (a :: G) v) V None (n_items n)) (fun p => Ok ((a, snd p) :: fst p, snd p)))).
    { intros K1 K2. pose proof (items_fine (fun V0 v => of_container attr f h V0 (a :: G) v) (a :: G) f) as X.
      assert (HI : forall v, In v (n_items n) -> ok_val v) by (intros [|c] I; cbn; auto; split; [eapply Hwf; eauto|apply (within_edge h root a c HR0); exists n; auto]).
      specialize (X (fun V0 v S0 W0 U0 => IH V0 (a :: G) v S0 W0 U0) (n_items n) V None SV HI ltac:(lia)).
      assert (HR : forall v t, In v (n_items n) -> within h v t -> reach h a t).
      { intros [|c] t I W; [contradiction|]. cbn in W. apply (edge_reach h a c); auto. exists n. auto. }
      destruct (of_items _ V None (n_items n)) as [[V1 r]|e]; cbn [bind fine fst snd].
      - destruct X as (r' & P & ->).
        assert (HS : forall d, r' = Some d -> exists t n, reach h a t /\ is_tensor t n /\ attr n = d).
        { intros d Er. destruct (p_some _ _ _ _ _ P d Er) as (u & t & n' & I & W & T & A). exists t, n'. split; [apply (HR u); auto|auto]. }
        constructor.
        + intros x y Ex. cbn. destruct (Nat.eqb_spec a x) as [->|]; [congruence|]. apply (p_grows _ _ _ _ _ P); auto.
        + apply sound_cons; auto. apply (p_sound _ _ _ _ _ P).
        + intros c [Y|[]]. injection Y as <-. left. apply seen_cons. auto.
        + intros x c S1 S2 Ed. assert (Y : seen V1 c \/ In c (a :: G)).
          { apply seen_cons in S1. destruct S1 as [->|S1]; [|apply (p_closed _ _ _ _ _ P x c); auto]. destruct Ed as (n' & En' & I). rewrite En in En'. injection En' as <-. apply (p_items _ _ _ _ _ P c I). }
          rewrite seen_cons. destruct Y as [Y|[->|Y]]; auto.
        + intros x n' S1 S2 T. apply seen_cons in S1. destruct S1 as [->|S1]; [|apply (p_all _ _ _ _ _ P x n'); auto]. destruct T as [En' T]. rewrite En in En'. injection En' as <-. contradiction.
        + intros x S1 S2. apply seen_cons in S1. destruct S1 as [->|S1]; [|apply (p_known _ _ _ _ _ P x); auto]. intros (n' & En' & T). rewrite En in En'. injection En' as <-. contradiction.
        + intros d Er. destruct (HS d Er) as (t & n' & R & T & A). exists (VRef a), t, n'. split; [left; auto|auto].
      - destruct X as [X|(d & u & t & n' & Q & _)]; [|discriminate].
        destruct X as [[-> (v1 & t1 & n1 & v2 & t2 & n2 & I1 & I2 & W1 & W2 & T1 & T2 & A)]|[-> (v & x & I & W & T)]]; [left|right]; split; auto.
        + exists (VRef a), t1, n1, (VRef a), t2, n2. split; [left; auto|]. split; [left; auto|]. split; [apply (HR v1); auto|]. split; [apply (HR v2); auto|]. auto.
        + exists (VRef a), x. split; [left; auto|]. split; [apply (HR v); auto|auto]. }
    destruct (class_of (n_kind n)) eqn:K; try (apply CONT; discriminate).
    + apply (leaf_post V G a (Some (attr n)) n); auto; try congruence. apply (Hleaf a); auto; rewrite K; auto.
    + apply (leaf_post V G a None n); auto; try congruence. apply (Hleaf a); auto; rewrite K; auto.
    + cbn. right. split; auto. exists (VRef a), a. split; [left; auto|]. split; [constructor|]. exists n. auto.
Qed.

Lemma unseen_init V G : unseen V G <= N.
Proof. unfold unseen. transitivity (length (seq 0 N)); [|rewrite seq_length; auto]. generalize (seq 0 N). intros l. induction l; cbn; auto. destruct (match vlookup V a with Some _ => _ | None => _ end); cbn; lia. Qed.

Lemma attr_of_container_ok f : wf_val h root -> N <= f ->
  match attr_of_container attr f h root with
  | Ok r => (forall a, within h root a -> ~ is_stranger a) /\ (forall a n, within h root a -> is_tensor a n -> r = Some (attr n)) /\
            (forall d, r = Some d -> exists a n, within h root a /\ is_tensor a n /\ attr n = d)
  | Err e => reason [root] e
  end.
Proof.
  intros HW HN. unfold attr_of_container. pose proof (unseen_init [] []) as HU.
  assert (D : fine [] [] root (of_container attr f h [] [] root)).
  { apply dfs; [intros a d; discriminate| |lia]. revert HW. unfold ok_val, wf_val. destruct root; auto. intros; split; auto. constructor. }
  unfold fine in D. destruct (of_container attr f h [] [] root) as [[V r]|e]; cbn [rmap snd]; [|exact D]. rename D into P.
  assert (NS : forall a, ~ seen [] a) by (intros a X; apply X; reflexivity).
  assert (HS : forall a, within h root a -> seen V a).
  { pose proof (p_items _ _ _ _ _ P) as S0. unfold within. destruct root as [|c]; [tauto|]. destruct (S0 c (or_introl eq_refl)) as [S1|[]].
    intros a R. clear - R S1 P NS. induction R as [|c b d R IH Ed]; auto. destruct (p_closed _ _ _ _ _ P b d (IH P S1)) as [Y|[]]; auto. }
  split; [|split].
  - intros a W. apply (p_known _ _ _ _ _ P); auto.
  - intros a n W T. apply (p_all _ _ _ _ _ P a n); auto.
  - intros d E. destruct (p_some _ _ _ _ _ P d E) as (u & t & n & [<-|[]] & W & T & A). exists t, n. auto.
Qed.
End DFS.

(* Proofs about minibatch sampling. *)
From Coq Require Import QArith Permutation.
From Verif Require Import Prelude SupModel SupSpec.
Close Scope Q_scope.
Open Scope nat_scope.

Section P.
Variables B N : Type.
Variable loss : N -> B -> Q.
Variable epoch : nat -> list B.
Variable n : nat.

Definition upto m := concat (map epoch (seq 0 m)).
Lemma upto_S m : upto (S m) = upto m ++ epoch m.
Proof. unfold upto. rewrite seq_S, map_app, concat_app. cbn. rewrite app_nil_r. reflexivity. Qed.
Definition remaining (s : sup B) := match s_iter B s with Some l => l | None => [] end.
Definition at_pos (s : sup B) (pos : nat) : Prop := exists pre, upto (s_made B s) = pre ++ remaining s /\ length pre = pos.

Lemma take_at s l b t pos : s_iter B s = Some l -> l = b :: t -> at_pos s pos -> 
  at_pos (set_iter B s t) (S pos) /\ nth_error (upto (s_made B s)) pos = Some b.
Proof.
  intros E -> (pre & U & L). unfold remaining in U. rewrite E in U. split.
  - exists (pre ++ [b]). cbn. rewrite <- app_assoc. split; [exact U|]. rewrite app_length. cbn. lia.
  - rewrite U, nth_error_app2, L, Nat.sub_diag by lia. reflexivity.
Qed.
Lemma new_iter_at s pos : remaining s = [] -> at_pos s pos -> at_pos (new_iterator B epoch s) pos.
Proof.
  intros R (pre & U & L). rewrite R, app_nil_r in U. exists pre. split; auto. cbn [new_iterator s_made]. rewrite upto_S, U. reflexivity.
Qed.

Variable stream : nat -> B.
Hypothesis HS : is_stream epoch stream.
Hypothesis HN : forall k, epoch k <> [].

Lemma get_at s pos : at_pos s pos -> exists s', get_minibatch B epoch s = (s', Ok (stream pos)) /\ at_pos s' (S pos).
Proof.
  intros A. unfold get_minibatch. set (s1 := if s_loader B s then s else sup_prepare B s).
  assert (A1 : at_pos s1 pos) by (unfold s1; destruct (s_loader B s); exact A). clearbody s1.
  assert (NE : forall s, remaining s = [] -> at_pos s pos -> exists s', (match s_iter B (new_iterator B epoch s) with
         | Some (b :: t) => (set_iter B (new_iterator B epoch s) t, Ok b)
         | _ => (new_iterator B epoch s, Err StopIteration) end) = (s', Ok (stream pos)) /\ at_pos s' (S pos)).
  { intros u R Au. pose proof (new_iter_at u pos R Au) as An. cbn [new_iterator s_iter]. destruct (epoch (s_made B u)) as [|b t] eqn:Ee; [exfalso; eapply HN; eauto|].
    destruct (take_at (new_iterator B epoch u) (b :: t) b t pos) as [T1 T2]; auto; [cbn; congruence|]. eexists. split; [|exact T1].
    rewrite (HS _ _ _ T2). reflexivity. }
  destruct (s_iter B s1) as [l|] eqn:Ei.
  - rewrite Ei. destruct l as [|b t].
    + apply NE; auto. unfold remaining. rewrite Ei. auto.
    + destruct (take_at s1 (b :: t) b t pos Ei eq_refl A1) as [T1 T2]. eexists. split; [|exact T1]. rewrite (HS _ _ _ T2). reflexivity.
  - specialize (NE s1). unfold remaining in NE. rewrite Ei in NE. specialize (NE eq_refl A1). cbn [new_iterator s_iter] in NE |- *.
    destruct (epoch (s_made B s1)) as [|b t] eqn:Ee; [exfalso; eapply HN; eauto|]. exact NE.
Qed.
Lemma gets_at : forall k s pos, at_pos s pos -> exists s', get_minibatches B epoch s k = (s', Ok (map stream (seq pos k))) /\ at_pos s' (pos + k).
Proof.
  induction k as [|k IH]; intros s pos A; cbn.
  - exists s. rewrite Nat.add_0_r. auto.
  - destruct (get_at s pos A) as (s1 & -> & A1). destruct (IH s1 (S pos) A1) as (s2 & -> & A2). exists s2. split; auto. replace (pos + S k) with (S pos + k) by lia. auto.
Qed.
Definition scale (q : Q) : Q := (q / inject_Z (Z.of_nat n))%Q.
Lemma sum_scale : forall l, (qsum (map scale l) == qsum l / inject_Z (Z.of_nat n))%Q.
Proof.
  induction l as [|x l IH]; cbn; [unfold Qdiv; ring|]. fold (qsum (map scale l)). fold (qsum l). rewrite IH. unfold scale, Qdiv. ring.
Qed.
Lemma loop_common net current : forall todo i s acc, i + todo <= length current ->
  exists q, eval_loop B N loss epoch n true current net s i todo acc = (s, Ok q) /\
    (q == acc + qsum (map scale (map (loss net) (firstn todo (skipn i current)))))%Q.
Proof.
  induction todo as [|k IH]; intros i s acc L; cbn.
  - exists acc. split; auto. ring.
  - destruct (nth_error current i) as [b|] eqn:E; [|apply nth_error_None in E; lia].
    destruct (IH (S i) s (acc + loss net b / inject_Z (Z.of_nat n))%Q) as (q & Eq & V); [lia|]. exists q. split; auto.
    assert (SK : skipn i current = b :: skipn (S i) current).
    { clear - E. revert i E. induction current as [|c l IHl]; intros [|i] E; cbn in *; try discriminate; [congruence|]. apply IHl. auto. }
    rewrite SK. cbn [map firstn qsum fold_right]. change (fold_right Qplus 0%Q) with qsum. rewrite V. unfold scale at 2. ring.
Qed.
Lemma loop_separate net current : forall todo i s pos acc, at_pos s pos ->
  exists s' q, eval_loop B N loss epoch n false current net s i todo acc = (s', Ok q) /\ at_pos s' (pos + todo) /\
    (q == acc + qsum (map scale (map (loss net) (map stream (seq pos todo)))))%Q.
Proof.
  induction todo as [|k IH]; intros i s pos acc A; cbn.
  - exists s, acc. rewrite Nat.add_0_r. repeat split; auto. ring.
  - destruct (get_at s pos A) as (s1 & -> & A1). destruct (IH (S i) s1 (S pos) (acc + loss net (stream pos) / inject_Z (Z.of_nat n))%Q A1) as (s' & q & E & A' & V).
    exists s', q. split; auto. split; [replace (pos + S k) with (S pos + k) by lia; auto|]. rewrite V. change (fold_right Qplus 0%Q) with qsum. unfold scale at 2. ring.
Qed.
Lemma network_common net current s : length current = n ->
  exists q, evaluate_network B N loss epoch n true current s net = (s, Ok q) /\ (q == mean_loss loss net current)%Q.
Proof.
  intros L. destruct (loop_common net current n 0 s 0%Q) as (q & E & V); [lia|]. exists q. split; auto. rewrite V. cbn [skipn]. rewrite firstn_all2 by lia.
  rewrite sum_scale. unfold mean_loss. rewrite L. ring.
Qed.
Lemma network_separate net s pos : at_pos s pos ->
  exists s' q, evaluate_network B N loss epoch n false [] s net = (s', Ok q) /\ at_pos s' (pos + n) /\ (q == mean_loss loss net (map stream (seq pos n)))%Q.
Proof.
  intros A. destruct (loop_separate net [] n 0 s pos 0%Q A) as (s' & q & E & A' & V). exists s', q. split; auto. split; auto. rewrite V, sum_scale.
  unfold mean_loss. rewrite map_length, seq_length. ring.
Qed.
Lemma nets_common current : length current = n -> forall nets s, exists qs, evaluate_nets B N loss epoch n true current s nets = (s, Ok qs) /\
  Forall2 Qeq qs (map (fun net => mean_loss loss net current) nets).
Proof.
  intros L. induction nets as [|net nets IH]; intros s; cbn; [eexists; split; [reflexivity|constructor]|].
  destruct (network_common net current s L) as (q & -> & V). destruct (IH s) as (qs & -> & F). exists (q :: qs). split; auto.
Qed.
Lemma nets_separate : forall nets s pos k, at_pos s (pos + k * n) -> exists s' qs, evaluate_nets B N loss epoch n false [] s nets = (s', Ok qs) /\
  at_pos s' (pos + k * n + length nets * n) /\
  Forall2 Qeq qs (map2 (fun i net => mean_loss loss net (map stream (seq (pos + i * n) n))) (seq k (length nets)) nets).
Proof.
  induction nets as [|net nets IH]; intros s pos k A; cbn [evaluate_nets].
  - exists s, []. cbn [length Nat.mul]. rewrite Nat.add_0_r. split; auto. split; auto. constructor.
  - destruct (network_separate net s (pos + k * n) A) as (s1 & q & -> & A1 & V).
    destruct (IH s1 pos (S k)) as (s2 & qs & -> & A2 & F); [replace (pos + S k * n) with (pos + k * n + n) by (cbn; lia); auto|].
    exists s2, (q :: qs). split; auto. split; [replace (pos + k * n + length (net :: nets) * n) with (pos + S k * n + length nets * n) by (cbn; lia); auto|].
    cbn [length seq map2]. constructor; auto.
Qed.
Lemma start_at s pos : at_pos s pos -> at_pos (sup_start B s) pos.
Proof. unfold sup_start. destruct (s_prepared B s); auto. Qed.
Lemma evaluate_at common s pos nets : at_pos s pos -> exists s' qs pos', sup_evaluate loss epoch n common s nets = (s', Ok qs) /\ at_pos s' pos' /\
  spec_step B N loss stream n common pos (Evaluate nets) pos' (OutLosses (Ok qs)).
Proof.
  intros A. apply start_at in A. unfold sup_evaluate, sup_evaluate_batch. destruct common.
  - destruct (gets_at n _ _ A) as (s1 & -> & A1). destruct (nets_common (map stream (seq pos n)) ltac:(rewrite map_length, seq_length; auto) nets s1) as (qs & -> & F).
    exists s1, qs, (pos + n). split; auto. split; auto. apply spec_common; auto.
  - destruct (nets_separate nets (sup_start B s) pos 0) as (s' & qs & -> & A1 & F); [cbn; rewrite Nat.add_0_r; auto|]. exists s', qs, (pos + length nets * n).
    cbn [Nat.mul] in A1. rewrite Nat.add_0_r in A1. split; auto. split; auto. apply spec_separate; auto.
Qed.
Lemma run_at common : forall ops s pos, at_pos s pos -> spec_run B N loss stream n common pos ops (snd (sup_run loss epoch n common s ops)).
Proof.
  induction ops as [|op ops IH]; intros s pos A; cbn [sup_run]; [constructor|]. destruct op as [|nets]; cbn [sup_step].
  - destruct (get_at s pos A) as (s1 & -> & A1). specialize (IH s1 (S pos) A1). destruct (sup_run loss epoch n common s1 ops) as [s2 os]. cbn [snd] in *.
    econstructor; [apply spec_get|exact IH].
  - destruct (evaluate_at common s pos nets A) as (s1 & qs & pos' & -> & A1 & SP). specialize (IH s1 pos' A1).
    destruct (sup_run loss epoch n common s1 ops) as [s2 os]. cbn [snd] in *. econstructor; [exact SP|exact IH].
Qed.
End P.

(* a stream exists as soon as there is any minibatch *)
Lemma stream_exists {B} (epoch : nat -> list B) : (forall k, epoch k <> []) -> exists stream, is_stream epoch stream.
Proof.
  intros HN. destruct (epoch 0) as [|d l] eqn:E0; [exfalso; eapply HN; eauto|].
  exists (fun i => nth i (upto B epoch (S i)) d). intros m i b E. fold (upto B epoch m) in E.
  assert (LEN : forall k, k <= length (upto B epoch k)).
  { induction k as [|k IH]; [lia|]. rewrite upto_S, app_length. specialize (HN k). destruct (epoch k); [congruence|cbn; lia]. }
  assert (EXT : forall a k, exists t, upto B epoch (k + a) = upto B epoch k ++ t).
  { induction a as [|a IH]; intros k; [exists []; rewrite app_nil_r, Nat.add_0_r; auto|]. destruct (IH k) as (t & Et). rewrite Nat.add_succ_r, upto_S, Et, <- app_assoc. eauto. }
  assert (K : nth_error (upto B epoch (S i)) i = Some b).
  { destruct (Nat.le_gt_cases m (S i)) as [L|L].
    - destruct (EXT (S i - m) m) as (t & Et). replace (m + (S i - m)) with (S i) in Et by lia. rewrite Et, nth_error_app1; auto. apply nth_error_Some. congruence.
    - destruct (EXT (m - S i) (S i)) as (t & Et). replace (S i + (m - S i)) with m in Et by lia. rewrite Et, nth_error_app1 in E; auto. }
  apply nth_error_nth. exact K.
Qed.

(* chunks *)
Lemma chunks_concat {A} bs : bs <> 0 -> forall f (l : list A), length l <= f -> concat (chunks f bs l) = l.
Proof.
  intros NB. induction f as [|f IH]; intros l L; cbn.
  - destruct l; [auto|cbn in L; lia].
  - destruct l as [|x l]; auto. cbn [concat]. rewrite IH; [apply firstn_skipn|]. rewrite skipn_length. cbn [length] in *. lia.
Qed.
Lemma chunks_sizes {A} bs : bs <> 0 -> forall f (l : list A) i c, length l <= f -> nth_error (chunks f bs l) i = Some c ->
  length c = Nat.min bs (length l - i * bs) /\ c <> [].
Proof.
  intros NB. induction f as [|f IH]; intros l i c L E; cbn in E; [destruct i; discriminate|]. destruct l as [|x l]; [destruct i; discriminate|]. destruct i as [|i]; cbn in E.
  - injection E as <-. rewrite firstn_length. cbn [Nat.mul]. rewrite Nat.sub_0_r. split; auto. destruct bs; [lia|]. discriminate.
  - apply IH in E; [|rewrite skipn_length; cbn [length] in *; lia]. rewrite skipn_length in E. destruct E as [E1 E2]. split; auto. rewrite E1. f_equal. cbn [Nat.mul]. lia.
Qed.
Lemma gather_perm {A} (d : list A) : forall p, Permutation p (seq 0 (length d)) ->
  Permutation (flat_map (fun i => match nth_error d i with Some x => [x] | None => [] end) p) d.
Proof.
  intros p H. rewrite (Permutation_flat_map _ H). clear p H.
  assert (K : forall (l pre : list A), flat_map (fun i => match nth_error (pre ++ l) i with Some x => [x] | None => [] end) (seq (length pre) (length l)) = l).
  { induction l as [|x l IH]; intros pre; cbn; auto. rewrite nth_error_app2, Nat.sub_diag by lia. cbn. f_equal. specialize (IH (pre ++ [x])).
    rewrite app_length in IH. cbn in IH. rewrite Nat.add_1_r in IH. rewrite <- app_assoc in IH. exact IH. }
  pose proof (K d []) as E. cbn [app length] in E. rewrite E. reflexivity.
Qed.

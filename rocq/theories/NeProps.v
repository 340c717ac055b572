(* The life of a neuroevolution problem: clones, networks handed out, networks given. Spec: what a problem with structure s must
   answer is [map (score s)] of the vectors, in order. *)
From Verif Require Import Prelude NeModel NeProofs.
Open Scope nat_scope.

Section C.
Variables V F Sg : Type.
Variable nparams : Sg -> nat.
Variable init : nat -> Sg -> list V.
Variable score : Sg -> list V -> F.
Notation run := (ne_run nparams init score).
Notation eval := (evaluate nparams init score).
(* the user's specification has structure s: built from s, or a given object with structure s *)
Definition has_structure (s : Sg) (sp : nspec Sg) (given : list (netobj V Sg)) : Prop :=
  match sp with NBuild s' => s' = s | NModule i => exists o, nth_error given i = Some o /\ o_sig o = s end.
(* a batch, split in pieces for existing actors; all vectors of the right length *)
Definition good_batch (s : Sg) (n : nat) (pieces : list (nat * list (list V))) : Prop :=
  forall k vs, In (k, vs) pieces -> (n = 0 \/ k < n) /\ forall v, In v vs -> length v = nparams s.
Definition answers (s : Sg) (pieces : list (nat * list (list V))) : result (list F) := Ok (map (score s) (concat (map snd pieces))).

Lemma has_structure_sig s sp given : has_structure s sp given -> spec_sig V Sg given sp = Some s.
Proof. destruct sp; cbn; [congruence|]. intros (o & E & K). unfold sig_at. rewrite E. cbn. congruence. Qed.
Lemma good_batch_valid s n pieces : good_batch s n pieces -> valid_pieces V Sg nparams s n pieces.
Proof. intros H. apply Forall_forall. intros [k vs] Hk. destruct (H k vs Hk) as [A B]. split; auto. apply Forall_forall. auto. Qed.

(* ---- C48: a clone (or a pickle round-trip) of a problem evaluates like the problem ---- *)
(* the problem itself always evaluates, whatever was done with it before (also evaluations which failed) *)
Theorem C48_original s sp given n ops pieces : has_structure s sp given -> ~ In OpBecomeClone ops -> good_batch s n pieces ->
  snd (eval (run (new_problem sp given n) ops) pieces) = answers s pieces.
Proof.
  intros H NC G. pose proof (new_ok V Sg s sp given n (has_structure_sig _ _ _ H)) as P.
  destruct (run_no_clone V F Sg nparams init score s ops _ P NC) as [P1 N1].
  destruct (eval (run (new_problem sp given n) ops) pieces) as [g r] eqn:E.
  destruct (evaluate_ok V F Sg nparams init score s _ pieces g r P1 E) as (_ & _ & K). cbn [snd]. apply K. rewrite N1. apply good_batch_valid. auto.
Qed.
(* True with actors, or as long as nothing has been evaluated; the history may contain earlier clones. *)
Theorem C48_clone_partial s sp given n ops pieces : has_structure s sp given -> (n <> 0 \/ forall ps, ~ In (OpEvaluate ps) ops) -> good_batch s n pieces ->
  snd (eval (clone (run (new_problem sp given n) ops)) pieces) = answers s pieces /\
  snd (eval (run (new_problem sp given n) ops) pieces) = answers s pieces.
Proof.
  intros H C G. pose proof (new_ok V Sg s sp given n (has_structure_sig _ _ _ H)) as P.
  destruct (run_original V F Sg nparams init score s ops _ P) as (P1 & O1 & N1).
  - discriminate.
  - destruct C as [C|C]; [left; exact C|right]. apply forallb_forall. intros op Hop. destruct op; auto. exfalso. eapply C; eauto.
  - split.
    + destruct (eval (clone (run (new_problem sp given n) ops)) pieces) as [g r] eqn:E.
      destruct (evaluate_ok V F Sg nparams init score s _ pieces g r (clone_ok V Sg s _ (proj1 P1) O1) E) as (_ & _ & K). apply K.
      cbn [clone g_num_actors]. rewrite N1. apply good_batch_valid. auto.
    + destruct (eval (run (new_problem sp given n) ops) pieces) as [g r] eqn:E.
      destruct (evaluate_ok V F Sg nparams init score s _ pieces g r P1 E) as (_ & _ & K). apply K. rewrite N1. apply good_batch_valid. auto.
Qed.
(* False without actors: once anything was evaluated, no clone can ever evaluate anything. *)
Theorem C48_clone_refuted s sp given ops ps pieces : has_structure s sp given -> In (OpEvaluate ps) ops -> (exists k v vs, In (k, v :: vs) pieces) ->
  snd (eval (clone (run (new_problem sp given 0) ops)) pieces) = Err TypeError.
Proof.
  intros H I (k & v & vs & IP). apply spent_clone_fails.
  - apply (run_seq V F Sg nparams init score s); [apply new_ok, has_structure_sig; auto|repeat split; auto; discriminate|reflexivity|].
    apply existsb_exists. exists (OpEvaluate ps). auto.
  - intros E. assert (K : In v (concat (map snd pieces))) by (apply in_concat; exists (v :: vs); split; [apply in_map_iff; exists (k, v :: vs); auto|left; auto]).
    rewrite E in K. contradiction.
Qed.

(* ---- C111: make_net returns an independent network with the parameters of the solution ---- *)
Theorem C111_snapshot s sp given n ops v p' j later : has_structure s sp given -> ~ In OpBecomeClone ops -> ~ In OpBecomeClone later ->
  length v = nparams s ->
  make_net nparams init (g_main (run (new_problem sp given n) ops)) v = (p', Ok j) ->
  (* the network handed out stays as it is, whatever is done with the problem afterwards *)
  nth_error (p_heap (g_main (run (new_problem sp given n) (ops ++ OpMakeNet v :: later)))) j = Some {| o_sig := s; o_params := v |} /\
  (* and it is a new object: not the given one, not one handed out before *)
  length (p_heap (g_main (run (new_problem sp given n) ops))) <= j.
Proof.
  intros H NC NC2 L E. pose proof (new_ok V Sg s sp given n (has_structure_sig _ _ _ H)) as P.
  destruct (run_no_clone V F Sg nparams init score s ops _ P NC) as [P1 N1]. unfold ne_run in *. rewrite fold_left_app. cbn [fold_left].
  set (g := fold_left (ne_step nparams init score) ops (new_problem sp given n)) in *.
  destruct P1 as (I & R & _). unfold make_net in E.
  assert (U : p_original (g_main g) <> None \/ p_inst (g_main g) <> None) by (destruct R as [R|[R _]]; auto).
  destruct (parameterize_ok V F Sg nparams init score s (g_main g) v I U L) as (p1 & i & E1 & Ei & Nh). rewrite E1, Nh in E. injection E as <- <-.
  assert (GE : length (p_heap (g_main g)) <= length (p_heap p1)).
  { unfold parameterize_net in E1. destruct (match p_inst (g_main g) with Some i => _ | None => _ end) as [[i0 h]|e] eqn:Eq; [|discriminate].
    assert (length (p_heap (g_main g)) <= length h).
    { destruct (p_inst (g_main g)); [injection Eq as <- <-; auto|]. destruct (p_original (g_main g)) as [[s'|k]|]; cbn in Eq; [| |discriminate]; injection Eq as <- <-; auto.
      rewrite app_length. lia. }
    destruct (fill nparams i0 v h) as [h'|] eqn:Ef; [|discriminate]. injection E1 as <- <-. cbn. apply (fill_any V F Sg nparams init score) in Ef. lia. }
  split; [|exact GE]. pose proof (parameterize_inv V F Sg nparams init score s _ v _ _ I E1) as (I1 & O1 & _).
  change (fold_left (ne_step nparams init score) later (ne_step nparams init score g (OpMakeNet v))) with
    (ne_run nparams init score (ne_step nparams init score g (OpMakeNet v)) later).
  rewrite run_untouched; auto.
  - cbn [ne_step]. unfold make_net. rewrite E1, Nh. cbn. rewrite nth_error_app2, Nat.sub_diag by lia. reflexivity.
  - cbn [ne_step]. unfold make_net. rewrite E1, Nh. cbn. destruct I1 as [Ia Ib]. split; [cbn; rewrite app_length; cbn; lia|]. cbn. split.
    + rewrite Ei. intros Q. injection Q as ->. assert (length (p_heap p1) < length (p_heap p1)) by (apply nth_error_Some; congruence). lia.
    + intros Q. specialize (Ib _ Q). cbn in Ib. unfold sig_at in Ib. destruct (nth_error (p_heap p1) (length (p_heap p1))) eqn:En; [|discriminate].
      assert (length (p_heap p1) < length (p_heap p1)) by (apply nth_error_Some; congruence). lia.
Qed.
(* make_net never fails for a vector of the right length *)
Theorem C111_available s sp given n ops v : has_structure s sp given -> ~ In OpBecomeClone ops -> length v = nparams s ->
  exists p' j, make_net nparams init (g_main (run (new_problem sp given n) ops)) v = (p', Ok j).
Proof.
  intros H NC L. pose proof (new_ok V Sg s sp given n (has_structure_sig _ _ _ H)) as P.
  destruct (run_no_clone V F Sg nparams init score s ops _ P NC) as [(I & R & _) _].
  destruct (parameterize_ok V F Sg nparams init score s _ v I) with (2 := L) as (p1 & i & E1 & Ei & Nh); [destruct R as [R|[R _]]; auto|].
  unfold make_net. rewrite E1, Nh. eauto.
Qed.

(* ---- C112: the network object given by the user is not modified ---- *)
(* False without actors: evaluating writes the last solution of the batch into the user's network. *)
Theorem C112_given_network_refuted s given i k vs v : has_structure s (NModule i) given -> (forall w, In w (vs ++ [v]) -> length w = nparams s) ->
  nth_error (p_heap (g_main (fst (eval (new_problem (NModule i) given 0) [(k, vs ++ [v])])))) i = Some {| o_sig := s; o_params := v |}.
Proof.
  intros H HL. pose proof (new_ok V Sg s (NModule i) given 0 (has_structure_sig _ _ _ H)) as (I & _). unfold evaluate, parallelize. cbn [new_problem g_num_actors Nat.eqb g_actors g_main andb].
  unfold start_preparations, prepare. cbn [p_prepared p_original p_heap instantiate_net p_inst]. cbn [map concat snd]. rewrite app_nil_r.
  set (p := {| p_original := None; p_inst := Some i; p_prepared := true; p_heap := given |}).
  assert (HS : sig_at V Sg (p_heap p) i = Some s) by (apply (has_structure_sig _ _ _ H)). assert (HI : p_inst p = Some i) by reflexivity. clearbody p. clear I H.
  assert (K : forall ws p, p_inst p = Some i -> sig_at V Sg (p_heap p) i = Some s -> (forall w, In w (ws ++ [v]) -> length w = nparams s) ->
     nth_error (p_heap (fst (evaluate_batch nparams init score p (ws ++ [v])))) i = Some {| o_sig := s; o_params := v |}).
  { clear - F init score. induction ws as [|w ws IH]; intros p HI HS HL; cbn [app evaluate_batch].
    - unfold evaluate_one, parameterize_net. rewrite HI. destruct (fill_ok V F Sg nparams init score s (p_heap p) i v HS (HL v (or_introl eq_refl))) as (h' & -> & N & _). cbn [p_heap]. rewrite N. cbn. exact N.
    - unfold evaluate_one, parameterize_net. rewrite HI. destruct (fill_ok V F Sg nparams init score s (p_heap p) i w HS (HL w (or_introl eq_refl))) as (h' & -> & N & _ & K & _). cbn [p_heap]. rewrite N.
      set (q := {| p_original := p_original p; p_inst := Some i; p_prepared := p_prepared p; p_heap := h' |}).
      specialize (IH q eq_refl). destruct (evaluate_batch nparams init score q (ws ++ [v])) as [p2 r2] eqn:E. cbn [fst] in *. apply IH; [cbn; rewrite K; auto|].
      intros w' Hw. apply HL. right. auto. }
  specialize (K vs p HI HS HL). destruct (evaluate_batch nparams init score p (vs ++ [v])). exact K.
Qed.
(* True of objects from which nothing is built in place: with a string or a callable no object of the user is ever touched *)
Theorem C112_built_partial s given n ops j : ~ In OpBecomeClone ops -> j < length given ->
  nth_error (p_heap (g_main (run (new_problem (NBuild s) given n) ops))) j = nth_error given j.
Proof.
  intros NC L. rewrite run_untouched; auto. split; [exact L|]. cbn. split; discriminate.
Qed.
(* and with actors, as long as no network is asked for, since the actors work on copies *)
Theorem C112_actors_partial s sp given n ops j : has_structure s sp given -> n <> 0 -> ~ In OpBecomeClone ops -> (forall v, ~ In (OpMakeNet v) ops) ->
  nth_error (p_heap (g_main (run (new_problem sp given n) ops))) j = nth_error given j.
Proof.
  intros H NZ NC NM. pose proof (new_ok V Sg s sp given n (has_structure_sig _ _ _ H)) as P.
  assert (K : forall ops g, prob_ok V Sg s g -> g_num_actors g <> 0 -> ~ In OpBecomeClone ops -> (forall v, ~ In (OpMakeNet v) ops) ->
     p_heap (g_main (run g ops)) = p_heap (g_main g)).
  { clear - F score. induction ops as [|op ops IH]; intros g P NZ NC NM; [reflexivity|]. cbn [ne_run fold_left].
    destruct (step_ok V F Sg nparams init score s g op P) as [P1 N1]; [intros ->; exfalso; apply NC; left; auto|].
    unfold ne_run in IH. rewrite IH; auto; [|congruence|intros Q; apply NC; right; auto|intros v Q; apply (NM v); right; auto].
    destruct op as [pieces|v| |].
    - cbn [ne_step]. unfold evaluate, parallelize. destruct (Nat.eqb_spec (g_num_actors g) 0); [contradiction|].
      destruct (g_actors g) as [acts|] eqn:Ea; cbn [g_actors g_main g_num_actors]; [rewrite Ea|]; cbn [andb];
        (destruct (Nat.eqb_spec (g_num_actors g) 0); [contradiction|]); cbn [negb]; unfold start_preparations;
        destruct (p_prepared (g_main g)); cbn [g_main p_heap]; (destruct (evaluate_pieces _ _ _ _ _); reflexivity).
    - exfalso. apply (NM v). left. auto.
    - cbn. unfold kill_actors. destruct (g_actors g); reflexivity.
    - exfalso. apply NC. left. auto. }
  rewrite K; auto.
Qed.
End C.
Print Assumptions C48_original.
Print Assumptions C48_clone_partial.
Print Assumptions C48_clone_refuted.
Print Assumptions C111_snapshot.
Print Assumptions C111_available.
Print Assumptions C112_given_network_refuted.
Print Assumptions C112_built_partial.
Print Assumptions C112_actors_partial.

(* a problem with a given network of two parameters; the score is the sum *)
Definition demo_given : list (netobj nat unit) := [{| o_sig := tt; o_params := [1; 1] |}].
Definition demo_eval := @evaluate nat nat unit (fun _ => 2) (fun _ _ => [0; 0]) (fun _ v => list_sum v).
Definition demo_run := @ne_run nat nat unit (fun _ => 2) (fun _ _ => [0; 0]) (fun _ v => list_sum v).
Example C48_example_actors :
  snd (demo_eval (clone (demo_run (new_problem (NModule 0) demo_given 2) [OpEvaluate [(0, [[1; 2]]); (1, [[3; 4]])]; OpMakeNet [5; 6]])) [(1, [[1; 2]; [2; 2]]); (0, [[7; 7]])])
  = Ok [3; 4; 14].
Proof. reflexivity. Qed.
Example C48_example_local : let g := demo_run (new_problem (NBuild tt) [] 0) [OpEvaluate [(0, [[1; 2]])]] in
  snd (demo_eval g [(0, [[3; 4]])]) = Ok [7] /\ snd (demo_eval (clone g) [(0, [[3; 4]])]) = Err TypeError.
Proof. split; reflexivity. Qed.
Example C111_example : nth_error (p_heap (g_main (demo_run (new_problem (NModule 0) demo_given 0) [OpMakeNet [5; 6]; OpEvaluate [(0, [[1; 2]])]]))) 1
  = Some {| o_sig := tt; o_params := [5; 6] |}.
Proof. reflexivity. Qed.
Example C112_example : nth_error (p_heap (g_main (fst (demo_eval (new_problem (NModule 0) demo_given 0) [(0, [[5; 6]; [7; 8]])])))) 0
  = Some {| o_sig := tt; o_params := [7; 8] |}.
Proof. reflexivity. Qed.
Example C112_example_actors : nth_error (p_heap (g_main (fst (demo_eval (new_problem (NModule 0) demo_given 2) [(0, [[5; 6]; [7; 8]])])))) 0
  = Some {| o_sig := tt; o_params := [1; 1] |}.
Proof. reflexivity. Qed.

(* Proofs about network strings. *)
From Coq Require Import String.
From Verif Require Import Prelude NetModel NetSpec NetProofs.
Open Scope nat_scope.

Section P.
Variables T O L A : Type.
Variable literal_eval : anode L -> result A.
Variable index_value : A -> A -> result A.
Variable cls : Type.
Variables in_layers in_nn : string -> option cls.
Variable W : Type.
Variable instantiate : cls -> list A -> list (string * A) -> W -> result (module T O) * W.
Notation process := (process_expr literal_eval index_value in_layers in_nn instantiate).

(* instantiating the calls one after another *)
Fixpoint build_all (cs : constants A) (es : list (anode L)) (w : W) : result (list (module T O)) * W :=
  match es with
  | [] => (Ok [], w)
  | e :: t => match process cs e w with
              | (Err x, w1) => (Err x, w1)
              | (Ok m, w1) => let '(r, w2) := build_all cs t w1 in (rmap (cons m) r, w2)
              end
  end.
(* the module made of the modules of the calls: a single one is returned as it is *)
Definition assemble (ms : list (module T O)) : module T O :=
  match ms with [m] => m | _ => MultiLayered (flat_map submodules ms) end.

Lemma build_all_app cs l1 : forall l2 w, build_all cs (l1 ++ l2) w =
  match build_all cs l1 w with
  | (Err x, w1) => (Err x, w1)
  | (Ok a, w1) => let '(r, w2) := build_all cs l2 w1 in (rmap (app a) r, w2)
  end.
Proof.
  induction l1 as [|e l1 IH]; intros l2 w; cbn [app build_all].
  - destruct (build_all cs l2 w) as [[r|x] w2]; reflexivity.
  - destruct (process cs e w) as [[m|x] w1]; [|reflexivity]. rewrite IH.
    destruct (build_all cs l1 w1) as [[a|x] w2]; cbn [rmap]; [|reflexivity].
    destruct (build_all cs l2 w2) as [[b|x] w3]; reflexivity.
Qed.
Lemma build_all_length cs es : forall w ms w', build_all cs es w = (Ok ms, w') -> length ms = length es.
Proof.
  induction es as [|e es IH]; intros w ms w' E; cbn in E.
  - injection E as <- <-; auto.
  - destruct (process cs e w) as [[m|x] w1]; [|discriminate]. destruct (build_all cs es w1) as [[b|x] w2] eqn:E2; [|discriminate].
    injection E as <- <-. cbn. f_equal. eapply IH; eauto.
Qed.
Lemma assemble_submodules (ms : list (module T O)) : ms <> [] -> submodules (assemble ms) = flat_map submodules ms.
Proof. destruct ms as [|a [|b ms]]; intros H; [contradiction| |]; cbn; auto. rewrite app_nil_r. auto. Qed.
Lemma calls_nonempty (e : anode L) : calls e <> [].
Proof.
  induction e; cbn; try discriminate. destruct op; [|discriminate]. destruct (calls e1); [contradiction|discriminate].
Qed.
Lemma concat_assemble (a b : list (module T O)) : a <> [] -> b <> [] -> concat_modules (assemble a) (assemble b) = assemble (a ++ b).
Proof.
  intros Ha Hb. unfold concat_modules. rewrite !assemble_submodules, <- flat_map_app by auto.
  destruct a as [|x a]; [contradiction|]. destruct b as [|y b]; [contradiction|]. cbn [app assemble].
  destruct (a ++ y :: b) eqn:E; [destruct a; discriminate|]. reflexivity.
Qed.
(* a tree of `>>` means: its calls, in order *)
Lemma process_calls cs (e : anode L) : shift_tree e -> forall w, process cs e w =
  let '(r, w') := build_all cs (calls e) w in (rmap assemble r, w').
Proof.
  induction 1 as [f a k|l r Hl IHl Hr IHr]; intros w.
  - cbn [calls build_all]. destruct (process cs (ACall f a k) w) as [[m|x] w1]; reflexivity.
  - cbn [calls process_expr]. rewrite build_all_app, IHl.
    destruct (build_all cs (calls l) w) as [[a|x] w1] eqn:E1; cbn [rmap]; [|reflexivity].
    rewrite IHr. destruct (build_all cs (calls r) w1) as [[b|x] w2] eqn:E2; cbn [rmap]; [|reflexivity].
    rewrite concat_assemble; [reflexivity| |].
    + apply build_all_length in E1. intros ->. apply (calls_nonempty l). destruct (calls l); [auto|discriminate].
    + apply build_all_length in E2. intros ->. apply (calls_nonempty r). destruct (calls r); [auto|discriminate].
Qed.
(* anything else is refused *)
Lemma process_refuses cs (e : anode L) : ~ shift_tree e -> forall w, exists x, fst (process cs e w) = Err x.
Proof.
  induction e as [n|l|l|v IHv i IHi|v IHv n|f IHf a k|op l IHl r IHr]; intros N w; try (eexists; reflexivity).
  - exfalso. apply N. constructor.
  - destruct op; [|eexists; reflexivity]. cbn [process_expr].
    destruct (process cs l w) as [[ml|x] w1] eqn:El; [|eexists; reflexivity].
    destruct (process cs r w1) as [[mr|x] w2] eqn:Er; [|eexists; reflexivity].
    assert (D : forall e : anode L, shift_tree e \/ ~ shift_tree e).
    { clear. induction e as [n|l|l|v IHv i IHi|v IHv n|f IHf a k|op l IHl r IHr]; try (right; intros C; inversion C; fail).
      - left. constructor.
      - destruct op; [|right; intros C; inversion C]. destruct IHl; [|right; intros C; inversion C; auto].
        destruct IHr; [|right; intros C; inversion C; auto]. left. constructor; auto. }
    exfalso. destruct (D l) as [Sl|Sl].
    + destruct (D r) as [Sr|Sr]; [apply N; constructor; auto|]. destruct (IHr Sr w1) as (x & X). rewrite Er in X. discriminate.
    + destruct (IHl Sl w) as (x & X). rewrite El in X. discriminate.
Qed.

(* more constants: the same meaning *)
Definition extends (cs cs' : constants A) : Prop := forall n v, get_constant cs n = Ok v -> get_constant cs' n = Ok v.
Lemma eval_extends cs cs' e v : extends cs cs' -> eval_with_constants literal_eval index_value cs e = Ok v -> eval_with_constants literal_eval index_value cs' e = Ok v.
Proof.
  intros X. destruct e; cbn; auto. destruct e1; try discriminate. destruct e2; try discriminate.
  destruct (wrap (literal_eval _)) as [i|x]; cbn [bind]; [|discriminate].
  destruct (get_constant cs n) as [c|x] eqn:E; cbn [bind]; [|discriminate]. rewrite (X _ _ E). auto.
Qed.
Lemma sequence_eval_extends {B} (f g : B -> result A) l r : (forall e v, f e = Ok v -> g e = Ok v) -> sequence (map f l) = Ok r -> sequence (map g l) = Ok r.
Proof.
  intros H. revert r. induction l as [|e l IH]; intros r E; cbn in *; auto.
  destruct (f e) as [v|x] eqn:Ef; [|discriminate]. rewrite (H _ _ Ef). destruct (sequence (map f l)) as [t|x]; [|discriminate]. rewrite (IH t eq_refl). auto.
Qed.
Lemma process_extends cs cs' : extends cs cs' -> forall e w m w', process cs e w = (Ok m, w') -> process cs' e w = (Ok m, w').
Proof.
  intros X. induction e as [n|l|l|v IHv i IHi|v IHv n|f IHf a k|op l IHl r IHr]; intros w m w' E; try discriminate.
  - cbn [process_expr] in *. unfold process_call in *.
    destruct (sequence (map (eval_with_constants literal_eval index_value cs) a)) as [av|x] eqn:Ea; [|discriminate].
    rewrite (sequence_eval_extends _ _ a av (fun e v => eval_extends cs cs' e v X) Ea).
    destruct (sequence (map (fun k0 => rmap (fun v => (fst k0, v)) (eval_with_constants literal_eval index_value cs (snd k0))) k)) as [kv|x] eqn:Ek; [|discriminate].
    assert (Ek2 : sequence (map (fun k0 => rmap (fun v => (fst k0, v)) (eval_with_constants literal_eval index_value cs' (snd k0))) k) = Ok kv).
    { clear - X Ek. revert kv Ek. induction k as [|e k IH]; intros kv Ek; cbn in *; auto.
      destruct (eval_with_constants literal_eval index_value cs (snd e)) as [v|x] eqn:Ev; cbn in Ek; [|discriminate].
      rewrite (eval_extends cs cs' _ _ X Ev). cbn. destruct (sequence (map _ k)) as [t|x] eqn:Et; [|discriminate]. rewrite (IH t eq_refl). auto. }
    rewrite Ek2. exact E.
  - destruct op; [|discriminate]. cbn [process_expr] in *.
    destruct (process cs l w) as [[ml|x] w1] eqn:El; [|discriminate]. rewrite (IHl _ _ _ El).
    destruct (process cs r w1) as [[mr|x] w2] eqn:Er; [|discriminate]. rewrite (IHr _ _ _ Er). exact E.
Qed.

(* which errors *)
Lemma eval_err cs e x : eval_with_constants literal_eval index_value cs e = Err x -> x = NetParsingError.
Proof.
  assert (G : forall n y, get_constant cs n = Err y -> y = NetParsingError) by (intros n y; unfold get_constant; destruct (find _ cs); congruence).
  assert (K : forall B (r : result B) y, wrap r = Err y -> y = NetParsingError) by (intros B [b|e'] y; cbn; congruence).
  destruct e; cbn [eval_with_constants]; eauto.
  destruct e1; try congruence. destruct e2; try congruence.
  destruct (wrap (literal_eval (AConstant l))) as [i|y] eqn:E1; cbn [bind]; [|intros E; injection E as <-; eauto].
  destruct (get_constant cs n) as [c|y] eqn:E2; cbn [bind]; [|intros E; injection E as <-; eauto]. eauto.
Qed.
Lemma sequence_err {B C} (f : B -> result C) l x : sequence (map f l) = Err x -> exists e, In e l /\ f e = Err x.
Proof.
  induction l as [|e l IH]; cbn; [discriminate|]. destruct (f e) as [v|y] eqn:E.
  - destruct (sequence (map f l)); [discriminate|]. intros K; injection K as <-. destruct IH as (e' & A' & B'); auto. exists e'. auto.
  - intros K; injection K as <-. exists e. auto.
Qed.
Lemma keyword_names_ok (k : list (option string * A)) : Forall (fun kw => fst kw <> None) k -> exists r, keyword_names k = Ok r.
Proof.
  unfold keyword_names. induction k as [|[n v] k IH]; intros H; cbn; [eauto|]. inversion H as [|? ? A1 B1]; subst. destruct (IH B1) as (r & ->).
  destruct n as [n|]; [eauto|exfalso; apply A1; reflexivity].
Qed.
Lemma process_errors cs : (forall c a k w x, fst (instantiate c a k w) <> Err x) -> forall e w x, plain_calls e -> fst (process cs e w) = Err x -> x = NetParsingError.
Proof.
  intros HI. induction e as [n|l|l|v IHv i IHi|v IHv n|f IHf a k|op l IHl r IHr]; intros w x P E; try (cbn in E; congruence).
  - cbn [process_expr] in E. unfold process_call in E. cbn in P. destruct f as [n| | | | | |]; try contradiction.
    destruct (sequence (map (eval_with_constants literal_eval index_value cs) a)) as [av|y] eqn:Ea.
    2:{ cbn in E. apply sequence_err in Ea. destruct Ea as (e & _ & Ee). apply eval_err in Ee. congruence. }
    destruct (sequence (map (fun k0 => rmap (fun v => (fst k0, v)) (eval_with_constants literal_eval index_value cs (snd k0))) k)) as [kv|y] eqn:Ek.
    2:{ cbn in E. apply sequence_err in Ek. destruct Ek as (e & _ & Ee). destruct (eval_with_constants _ _ cs (snd e)) as [|y'] eqn:E1; [discriminate|].
        apply eval_err in E1. cbn in Ee. congruence. }
    assert (KN : Forall (fun kw : option string * A => fst kw <> None) kv).
    { clear - P Ek. revert kv Ek. induction k as [|e k IH]; intros kv Ek; cbn in Ek; [injection Ek as <-; constructor|]. inversion P as [|? ? P1 P2]; subst.
      destruct (eval_with_constants _ _ cs (snd e)); cbn in Ek; [|discriminate]. destruct (sequence (map _ k)) as [t|]; [|discriminate]. injection Ek as <-.
      constructor; [exact P1|auto]. }
    destruct (keyword_names_ok kv KN) as (kk & Ekk). rewrite Ekk in E. unfold get_nn_module in E.
    destruct (in_layers n) as [c|]; cbn [bind rmap] in E; [exfalso; eapply HI; eauto|].
    destruct (in_nn n) as [c|]; cbn [bind rmap fst] in E; [exfalso; eapply HI; eauto|]. congruence.
  - destruct op; [|cbn in E; congruence]. cbn [process_expr] in E. destruct P as [P1 P2].
    destruct (process cs l w) as [[ml|y] w1] eqn:El; [|cbn in E; injection E as <-; apply (IHl w); [auto|rewrite El; auto]].
    destruct (process cs r w1) as [[mr|y] w2] eqn:Er; [cbn in E; discriminate|]. cbn in E; injection E as <-; apply (IHr w1); [auto|rewrite Er; auto].
Qed.

Lemma flat_layers (ms : list (module T O)) : Forall no_sequential ms -> flat_map layers_of (flat_map submodules ms) = flat_map layers_of ms.
Proof.
  induction ms as [|m ms IH]; intros H; cbn [flat_map]; auto. inversion H as [|? ? A1 B1]; subst. rewrite flat_map_app, IH by auto. f_equal.
  destruct m as [f|l|l]; cbn; [auto|contradiction|reflexivity].
Qed.
Lemma submodules_no_sequential (m : module T O) : no_sequential m -> Forall no_sequential (submodules m).
Proof. destruct m as [f|l|l]; intros H; [repeat constructor|contradiction|]. apply no_sequential_multi. exact H. Qed.
Lemma flat_no_sequential (ms : list (module T O)) : Forall no_sequential ms -> no_sequential (MultiLayered (flat_map submodules ms)).
Proof.
  intros H. apply no_sequential_multi. induction H as [|m ms A1 B1 IH]; cbn [flat_map]; [constructor|]. apply Forall_app. split; auto. apply submodules_no_sequential; auto.
Qed.

(* a strict layer alone *)
Lemma strict_proper (f : layer T O) : strict f -> proper f.
Proof. intros H x h y h' E. destruct (H _ _ _ E) as [(t & K)|(t & h2 & K)]; [discriminate|]. injection K as -> ->. eauto. Qed.
Lemma stateful_run_layer (f : layer T O) : strict f -> forall xs h, snd (stateful_run {| s_hidden := h; s_net := Layer f |} xs) = run_layer f h xs.
Proof.
  intros H. induction xs as [|x xs IH]; intros h; [reflexivity|]. cbn [stateful_run run_layer]. unfold stateful_forward, call_layer. cbn [forward s_net s_hidden].
  destruct (f x (hidden_arg h)) as [r|e] eqn:E; [|reflexivity]. destruct (H _ _ _ E) as [(t & ->)|(t & h' & ->)]; cbn [bind fst snd].
  - specialize (IH VNone). destruct (stateful_run {| s_hidden := VNone; s_net := Layer f |} xs) as [s2 r2]. cbn [snd] in *. rewrite IH. reflexivity.
  - specialize (IH h'). destruct (stateful_run {| s_hidden := h'; s_net := Layer f |} xs) as [s2 r2]. cbn [snd] in *. rewrite IH. reflexivity.
Qed.
Lemma run_multi (l : list (module T O)) xs ys : no_sequential (MultiLayered l) -> Forall proper (layers_of (MultiLayered l)) -> Forall is_tensor xs ->
  (snd (stateful_run (make_stateful (MultiLayered l)) xs) = Ok ys <-> layerwise (layers_of (MultiLayered l)) xs = Ok ys).
Proof.
  intros N P X. unfold make_stateful. rewrite (stateful_run_pipe T O l N P xs VNone _ X (habs_fresh T O _ N)). apply pipe_run_layerwise.
Qed.
Lemma run_tree (m : module T O) xs ys : no_sequential m -> Forall strict (layers_of m) -> Forall is_tensor xs ->
  (snd (stateful_run (make_stateful m) xs) = Ok ys <-> layerwise (layers_of m) xs = Ok ys).
Proof.
  intros N S X. destruct m as [f|l|l]; [|contradiction|].
  - unfold make_stateful. inversion S as [|? ? Sf _]; subst. rewrite stateful_run_layer by auto. reflexivity.
  - apply run_multi; auto. eapply Forall_impl; [|exact S]. intros f. apply strict_proper.
Qed.
Lemma layerwise_app (f1 f2 : list (layer T O)) xs : layerwise (f1 ++ f2) xs = bind (layerwise f1 xs) (layerwise f2).
Proof.
  unfold layerwise. rewrite fold_left_app. destruct (fold_left _ f1 (Ok xs)) as [zs|e]; cbn [bind]; [reflexivity|apply fold_bind_err].
Qed.
Lemma run_layer_tensors (f : layer T O) : proper f -> forall xs h ys, run_layer f h xs = Ok ys -> Forall is_tensor ys.
Proof.
  intros P. induction xs as [|x xs IH]; intros h ys E; cbn in E; [injection E as <-; constructor|].
  destruct (call_layer f x h) as [[y h']|e] eqn:C; cbn in E; [|discriminate]. destruct (run_layer f h' xs) as [zs|e] eqn:R; cbn in E; [|discriminate].
  injection E as <-. constructor; [eapply call_proper; eauto|eauto].
Qed.
Lemma layerwise_tensors (fs : list (layer T O)) : Forall proper fs -> forall xs ys, Forall is_tensor xs -> layerwise fs xs = Ok ys -> Forall is_tensor ys.
Proof.
  unfold layerwise. induction 1 as [|f fs Pf P IH]; intros xs ys X E; cbn [fold_left bind] in E; [injection E as <-; auto|].
  destruct (run_layer f VNone xs) as [zs|e] eqn:R; [|rewrite fold_bind_err in E; discriminate]. eapply IH; [|exact E]. eapply run_layer_tensors; eauto.
Qed.
End P.
Arguments assemble {T O} _.
Arguments build_all {T O L A} _ _ {cls} _ _ {W} _ _ _ _.
Arguments extends {A} _ _.

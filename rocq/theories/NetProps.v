(* Properties of layered networks and network strings: C44, C107, C108, C109, C110. *)
From Coq Require Import String.
From Verif Require Import Prelude NetModel NetSpec NetProofs NetProofs2.
Open Scope nat_scope.

(* example layers over numbers: a recurrent one (running sum) and a plain one *)
Definition demo_rnn : layer nat unit := fun x h =>
  match x, h with
  | VTensor a, None => Ok (VTuple [VTensor a; VTensor a])
  | VTensor a, Some (VTensor b) => Ok (VTuple [VTensor (a + b); VTensor (a + b)])
  | _, _ => Err TypeError
  end.
Definition demo_double : layer nat unit := fun x h => match x, h with VTensor a, None => Ok (VTensor (2 * a)) | _, _ => Err TypeError end.
Lemma demo_rnn_strict : strict demo_rnn.
Proof.
  intros x h r. unfold demo_rnn. destruct x; try discriminate. destruct h as [[]|]; try discriminate; intros E; injection E as <-; right; eauto.
Qed.
Lemma demo_double_strict : strict demo_double.
Proof. intros x h r. unfold demo_double. destruct x; try discriminate. destruct h; try discriminate. intros E; injection E as <-. left; eauto. Qed.
(* example namespaces: class 0 is the recurrent layer (of evotorch), class 1 the recurrent layer of torch (never used), class 2 doubles *)
Definition demo_layers (n : string) : option nat := if String.eqb n "RNN" then Some 0 else None.
Definition demo_nn (n : string) : option nat := if String.eqb n "RNN" then Some 1 else if String.eqb n "Double" then Some 2 else None.
Definition demo_new (c : nat) (a : list nat) (k : list (string * nat)) (w : nat) : result (module nat unit) * nat :=
  (Ok (Layer (if c =? 0 then demo_rnn else demo_double)), S w).
Definition demo_lit (e : anode nat) : result nat := match e with AConstant l => Ok l | _ => Err ValueError end.
Notation demo_process := (process_expr demo_lit (fun a b => Ok (a + b)) demo_layers demo_nn demo_new).
Definition call_rnn : anode nat := ACall (AName "RNN") [AConstant 4; AName "n"] [].
Definition call_double : anode nat := ACall (AName "Double") [] [(Some "k"%string, ASubscript (AName "n") (AConstant 1))].

Section C.
Variables T O L A : Type.
Variable literal_eval : anode L -> result A.
Variable index_value : A -> A -> result A.
Variable cls : Type.
Variables in_layers in_nn : string -> option cls.
Variable W : Type.
Variable instantiate : cls -> list A -> list (string * A) -> W -> result (module T O) * W.
Notation process := (process_expr literal_eval index_value in_layers in_nn instantiate).
Notation build := (build_all literal_eval index_value in_layers in_nn instantiate).

(* ---- C44: network strings compose left to right ---- *)
(* how a string is parenthesised does not matter: not for the network, not for errors, not for the order of instantiation *)
Theorem C44_parenthesisation cs e1 e2 w : shift_tree e1 -> shift_tree e2 -> calls e1 = calls e2 -> process cs e1 w = process cs e2 w.
Proof. intros S1 S2 E. rewrite !process_calls, E by auto. reflexivity. Qed.
(* the network of a string runs its layers from left to right, each with its own hidden state *)
Theorem C44_order cs e w m w' : shift_tree e -> 2 <= length (calls e) -> process cs e w = (Ok m, w') ->
  exists ms, build cs (calls e) w = (Ok ms, w') /\
    (Forall no_sequential ms -> Forall proper (flat_map layers_of ms) -> forall xs ys, Forall is_tensor xs ->
       (snd (stateful_run (make_stateful m) xs) = Ok ys <-> layerwise (flat_map layers_of ms) xs = Ok ys)).
Proof.
  intros S Hlen E. rewrite process_calls in E by auto. destruct (build cs (calls e) w) as [[ms|x] w1] eqn:B; [|discriminate].
  cbn [rmap] in E. injection E as <- <-. exists ms. split; auto. intros N P xs ys X.
  pose proof (build_all_length _ _ _ _ _ _ _ _ _ _ _ _ _ _ _ _ B) as Lm.
  assert (EA : assemble ms = MultiLayered (flat_map submodules ms)) by (destruct ms as [|a [|b ms]]; [reflexivity|cbn in Lm; lia|reflexivity]).
  rewrite EA. pose proof (flat_no_sequential T O ms N) as N2.
  assert (EL : layers_of (MultiLayered (flat_map submodules ms)) = flat_map layers_of ms) by (apply (flat_layers T O ms N)).
  rewrite <- EL in *. apply run_multi; auto.
Qed.
(* the errors are those of the first call which fails; the state of the world is the one after this call *)
Theorem C44_first_error cs e w x w' : shift_tree e -> (process cs e w = (Err x, w') <->
  exists before c after ms w1, calls e = before ++ c :: after /\ build cs before w = (Ok ms, w1) /\ process cs c w1 = (Err x, w')).
Proof.
  intros S. rewrite process_calls by auto. split.
  - destruct (build cs (calls e) w) as [[ms|y] w1] eqn:B; [discriminate|]. cbn [rmap]. intros E. injection E as -> ->. clear S. revert w B.
    induction (calls e) as [|c l IH]; intros w B; [discriminate|]. cbn [build_all] in B. destruct (process cs c w) as [[m|y] w2] eqn:Ec.
    + destruct (build cs l w2) as [[ms|y] w3] eqn:Bl; [discriminate|]. cbn [rmap] in B. injection B as -> ->.
      destruct (IH w2 Bl) as (b & d & a & ms & w4 & -> & B2 & D). exists (c :: b), d, a, (m :: ms), w4. split; [reflexivity|]. split; [|exact D].
      cbn [build_all]. rewrite Ec, B2. reflexivity.
    + injection B as -> ->. exists [], c, l, [], w. split; [reflexivity|]. split; [reflexivity|exact Ec].
  - intros (b & c & a & ms & w1 & -> & B & E). rewrite build_all_app, B. cbn [build_all]. rewrite E. reflexivity.
Qed.
(* anything but a tree of `>>` over calls is refused *)
Theorem C44_refused cs e w : ~ shift_tree e -> exists x, fst (process cs e w) = Err x.
Proof. intros N. apply process_refuses. auto. Qed.
(* how MultiLayered modules are nested does not matter, not even for errors *)
Theorem C44_nesting (l k : list (module T O)) xs : no_sequential (MultiLayered l) -> no_sequential (MultiLayered k) ->
  layers_of (MultiLayered l) = layers_of (MultiLayered k) -> Forall proper (layers_of (MultiLayered l)) -> Forall is_tensor xs ->
  snd (stateful_run (make_stateful (MultiLayered l)) xs) = snd (stateful_run (make_stateful (MultiLayered k)) xs).
Proof.
  intros N1 N2 E P X. unfold make_stateful.
  rewrite (stateful_run_pipe T O l N1 P xs VNone _ X (habs_fresh T O _ N1)).
  assert (P2 : Forall proper (layers_of (MultiLayered k))) by (rewrite <- E; auto).
  rewrite (stateful_run_pipe T O k N2 P2 xs VNone _ X (habs_fresh T O _ N2)). rewrite E. reflexivity.
Qed.

(* ---- C107: malformed network strings are reported as NetParsingError ---- *)
(* False: a class named through an attribute (`nn.Linear(...)`) gives AttributeError. *)
Theorem C107_attribute_refuted cs v n args kws w a k : sequence (map (eval_with_constants literal_eval index_value cs) args) = Ok a ->
  sequence (map (fun x => rmap (fun v => (fst x, v)) (eval_with_constants literal_eval index_value cs (snd x))) kws) = Ok k ->
  process cs (ACall (AAttribute v n) args kws) w = (Err AttributeError, w).
Proof. intros E1 E2. cbn [process_expr]. unfold process_call. rewrite E1, E2. reflexivity. Qed.
(* What holds: when every call names its class directly, and no constructor fails, every refusal is a NetParsingError. *)
Theorem C107_errors_partial cs e w x : (forall c a k w x, fst (instantiate c a k w) <> Err x) -> plain_calls e ->
  fst (process cs e w) = Err x -> x = NetParsingError.
Proof. intros HI P E. exact (process_errors T O L A literal_eval index_value cls in_layers in_nn W instantiate cs HI e w x P E). Qed.

(* ---- C108: class names and constants ---- *)
(* evotorch's own layers hide torch's; a name found nowhere is an error; constants never matter for class names *)
Theorem C108_namespaces cs n args kws w m w' : process cs (ACall (AName n) args kws) w = (Ok m, w') ->
  exists c a k, instantiate c a k w = (Ok m, w') /\
    (in_layers n = Some c \/ (in_layers n = None /\ in_nn n = Some c)) /\
    map Ok a = map (eval_with_constants literal_eval index_value cs) args /\
    map (fun e => (Some (fst e), Ok (snd e))) k = map (fun e => (fst e, eval_with_constants literal_eval index_value cs (snd e))) kws.
Proof.
  cbn [process_expr]. unfold process_call. intros E.
  destruct (sequence (map _ args)) as [a|x] eqn:Ea; [|discriminate].
  destruct (sequence (map _ kws)) as [k|x] eqn:Ek; [|discriminate].
  destruct (get_nn_module in_layers in_nn n) as [c|x] eqn:Ec; cbn [bind] in E; [|discriminate].
  destruct (keyword_names k) as [kk|x] eqn:Ekk; cbn [rmap] in E; [|discriminate].
  exists c, a, kk. split; auto. split; [|split].
  - unfold get_nn_module in Ec. destruct (in_layers n) as [c'|]; [left; congruence|]. right. destruct (in_nn n); [split; congruence|discriminate].
  - clear - Ea. revert a Ea. induction args as [|e l IH]; intros a Ea; cbn in Ea; [injection Ea as <-; auto|].
    destruct (eval_with_constants literal_eval index_value cs e) eqn:E; [|discriminate]. destruct (sequence (map _ l)) as [t|]; [|discriminate]. injection Ea as <-.
    cbn [map]. rewrite E. f_equal. apply IH. reflexivity.
  - clear - Ek Ekk. revert k kk Ek Ekk. induction kws as [|e l IH]; intros k kk Ek Ekk; cbn in Ek.
    + injection Ek as <-. cbn in Ekk. injection Ekk as <-. auto.
    + destruct (eval_with_constants literal_eval index_value cs (snd e)) eqn:E; cbn in Ek; [|discriminate].
      destruct (sequence (map _ l)) as [t|] eqn:Et; [|discriminate]. injection Ek as <-.
      unfold keyword_names in Ekk. cbn in Ekk. destruct (fst e) as [n|] eqn:En; [|discriminate].
      destruct (sequence (map _ t)) as [tt|] eqn:Ett; [|discriminate]. injection Ekk as <-. cbn [map fst snd].
      rewrite En, E. f_equal. apply (IH t tt); auto.
Qed.
(* giving more constants than before does not change a string which could be read *)
Theorem C108_more_constants cs cs' e w m w' : extends cs cs' -> process cs e w = (Ok m, w') -> process cs' e w = (Ok m, w').
Proof. intros X E. exact (process_extends T O L A literal_eval index_value cls in_layers in_nn W instantiate cs cs' X e w m w' E). Qed.

(* ---- C109: `A >> B` computes B after A ---- *)
(* holds for everything but torch's Sequential *)
Theorem C109_composition_partial (a b : module T O) xs ys : no_sequential a -> no_sequential b ->
  Forall strict (layers_of a) -> Forall strict (layers_of b) -> Forall is_tensor xs ->
  (snd (stateful_run (make_stateful (concat_modules a b)) xs) = Ok ys <->
   exists zs, snd (stateful_run (make_stateful a) xs) = Ok zs /\ snd (stateful_run (make_stateful b) zs) = Ok ys).
Proof.
  intros Na Nb Sa Sb X.
  assert (EC : concat_modules a b = MultiLayered (flat_map submodules [a; b])) by (unfold concat_modules; cbn; rewrite app_nil_r; auto).
  assert (N : Forall no_sequential [a; b]) by (repeat constructor; auto).
  assert (EL : layers_of (MultiLayered (flat_map submodules [a; b])) = layers_of a ++ layers_of b).
  { change (layers_of (MultiLayered (flat_map submodules [a; b]))) with (flat_map layers_of (flat_map submodules [a; b])). rewrite (flat_layers T O _ N). cbn. rewrite app_nil_r. auto. }
  assert (SP : Forall proper (layers_of a ++ layers_of b)).
  { apply Forall_app. split; (eapply Forall_impl; [|eassumption]); intros f; apply strict_proper. }
  rewrite EC. rewrite (run_multi T O _ xs ys (flat_no_sequential T O _ N)); [|rewrite EL; auto|auto]. rewrite EL, layerwise_app.
  apply Forall_app in SP. destruct SP as [SPa SPb]. split.
  - destruct (layerwise (layers_of a) xs) as [zs|e] eqn:E; [|discriminate]. cbn [bind]. intros E2. exists zs. split.
    + apply run_tree; auto.
    + apply run_tree; auto. exact (layerwise_tensors T O _ SPa xs zs X E).
  - intros (zs & E1 & E2). apply run_tree in E1; auto. rewrite E1. cbn [bind]. apply run_tree in E2; auto. exact (layerwise_tensors T O _ SPa xs zs X E1).
Qed.
(* False: a torch Sequential is taken apart, so that a submodule which expects the tuple of its predecessor no longer gets it. *)
Theorem C109_sequential_refuted (f g b : layer T O) x y h z1 z2 r1 r2 : f x None = Ok (VTuple [y; h]) -> h <> VNone ->
  g (VTuple [y; h]) None = Ok (VTensor z1) -> g y None = Ok (VTensor z2) ->
  b (VTensor z1) None = Ok (VTensor r1) -> b (VTensor z2) None = Ok (VTensor r2) -> r1 <> r2 ->
  snd (stateful_run (make_stateful (Sequential [Layer f; Layer g])) [x]) = Ok [VTensor z1] /\
  snd (stateful_run (make_stateful (Layer b)) [VTensor z1]) = Ok [VTensor r1] /\
  snd (stateful_run (make_stateful (concat_modules (Sequential [Layer f; Layer g]) (Layer b))) [x]) = Ok [VTensor r2] /\
  Ok [VTensor r2] <> (Ok [VTensor r1] : result (list (val T O))).
Proof.
  intros E1 HN E2 E3 E4 E5 D. split; [|split; [|split]].
  - unfold make_stateful. cbn [stateful_run]. unfold stateful_forward. cbn [s_net s_hidden hidden_arg forward]. rewrite E1. cbn [bind]. rewrite E2. reflexivity.
  - unfold make_stateful. cbn [stateful_run]. unfold stateful_forward. cbn [s_net s_hidden hidden_arg forward]. rewrite E4. reflexivity.
  - unfold make_stateful, concat_modules. cbn [submodules app stateful_run]. unfold stateful_forward. cbn [s_net s_hidden hidden_arg]. rewrite forward_multi.
    cbn [bind ml_loop forward vget find hidden_arg]. rewrite E1. cbn [bind layer_result].
    destruct h; try contradiction; cbn [bind fst snd app ml_loop forward vget find hidden_arg]; rewrite E3; cbn [bind layer_result fst snd]; rewrite E5; reflexivity.
  - congruence.
Qed.
(* What holds: taking Sequentials of layers without hidden state apart changes nothing. *)
Theorem C109_plain_sequential_partial (fs gs : list (layer T O)) t :
  Forall (fun f : layer T O => forall t r, f (VTensor t) None = Ok r -> is_tensor r) (fs ++ gs) ->
  forward (concat_modules (Sequential (map Layer fs)) (Sequential (map Layer gs))) (VTensor t) None =
  bind (forward (Sequential (map Layer fs)) (VTensor t) None) (fun y => forward (Sequential (map Layer gs)) y None).
Proof.
  intros H. unfold concat_modules. cbn [submodules]. rewrite <- map_app, forward_multi. cbn [bind].
  assert (K : forall (l : list (layer T O)) x i, (forall v, is_tensor x -> Forall (fun f : layer T O => forall t r, f (VTensor t) None = Ok r -> is_tensor r) l ->
     ml_loop T O [] (map Layer l) i x [] = v -> forward (Sequential (map Layer l)) x None = v)).
  { induction l as [|f l IH]; intros x i v X F E; [exact E|]. inversion F as [|? ? F1 F2]; subst. destruct X as (u & ->).
    cbn [map ml_loop forward vget find hidden_arg]. destruct (f (VTensor u) None) as [r|e] eqn:Ef; cbn [bind]; [|reflexivity].
    destruct (F1 _ _ Ef) as (w & ->). cbn [layer_result bind fst snd]. apply (IH (VTensor w) (S i)); auto. exists w; auto. }
  transitivity (forward (Sequential (map Layer (fs ++ gs))) (VTensor t) None).
  { symmetry. exact (K (fs ++ gs) (VTensor t) 0 _ (ex_intro _ t eq_refl) H eq_refl). }
  clear K. revert t H.
  induction fs as [|f fs IH]; intros t H; [reflexivity|]. inversion H as [|? ? F1 F2]; subst. cbn [app map forward].
  destruct (f (VTensor t) None) as [r|e] eqn:Ef; cbn [bind]; [|reflexivity]. destruct (F1 _ _ Ef) as (w & ->). apply (IH w F2).
Qed.

(* ---- C110: resetting a stateful module forgets everything ---- *)
(* the outputs after a reset are those of a fresh module, whatever happened before (also when it raised) *)
Theorem C110_reset (m : module T O) before xs : snd (stateful_run (stateful_reset (fst (stateful_run (make_stateful m) before))) xs) = snd (stateful_run (make_stateful m) xs).
Proof.
  destruct (stateful_run (make_stateful m) before) as [s r] eqn:E. cbn [fst]. apply stateful_run_net in E. unfold stateful_reset. rewrite E. reflexivity.
Qed.
(* an exception leaves the hidden state as it was: the failed call is as if it had not happened *)
Theorem C110_failed_call (s : stateful T O) x e s' : stateful_forward s x = (s', Err e) -> s' = s.
Proof.
  unfold stateful_forward. destruct (forward (s_net s) x (hidden_arg (s_hidden s))) as [v|y]; [|congruence].
  destruct v as [t| |l|d|o]; try congruence. destruct l as [|a [|b [|c l]]]; congruence.
Qed.
End C.
Print Assumptions C44_parenthesisation.
Print Assumptions C44_order.
Print Assumptions C44_first_error.
Print Assumptions C44_refused.
Print Assumptions C44_nesting.
Print Assumptions C107_attribute_refuted.
Print Assumptions C107_errors_partial.
Print Assumptions C108_namespaces.
Print Assumptions C108_more_constants.
Print Assumptions C109_composition_partial.
Print Assumptions C109_sequential_refuted.
Print Assumptions C109_plain_sequential_partial.
Print Assumptions C110_reset.
Print Assumptions C110_failed_call.

Example C44_example : exists e1 e2 m : anode nat,
  e1 = ABin RShift (ABin RShift call_rnn call_double) call_rnn /\ e2 = ABin RShift call_rnn (ABin RShift call_double call_rnn) /\
  shift_tree e1 /\ shift_tree e2 /\ calls e1 = calls e2 /\ m = call_rnn /\
  demo_process [("n"%string, 3)] e1 0 = (Ok (MultiLayered [Layer demo_rnn; Layer demo_double; Layer demo_rnn]), 3) /\
  snd (stateful_run (make_stateful (MultiLayered [Layer demo_rnn; Layer demo_double; Layer demo_rnn])) [VTensor 1; VTensor 1; VTensor 1])
    = Ok [VTensor 2; VTensor 6; VTensor 12].
Proof.
  eexists _, _, _. split; [reflexivity|]. split; [reflexivity|]. split; [repeat constructor|]. split; [repeat constructor|]. split; [reflexivity|].
  split; [reflexivity|]. split; reflexivity.
Qed.
Example C107_example : demo_process [] (ABin RShift call_double (ACall (AAttribute (AName "nn") "Double") [] [])) 0 = (Err NetParsingError, 0) /\
  demo_process [("n"%string, 3)] (ABin RShift call_double (ACall (AAttribute (AName "nn") "Double") [] [])) 0 = (Err AttributeError, 1) /\
  plain_calls call_double /\ fst (demo_process [] call_double 0) = Err NetParsingError.
Proof. repeat split. cbn. repeat constructor. discriminate. Qed.
Example C108_example : demo_process [("n"%string, 3)] call_rnn 5 = (Ok (Layer demo_rnn), 6) /\
  extends [("n"%string, 3)] [("k"%string, 1); ("n"%string, 3)].
Proof.
  split; [reflexivity|]. intros m v. unfold get_constant. cbn [find fst snd]. destruct (String.eqb_spec "n" m) as [<-|N]; [|discriminate]. auto.
Qed.
(* Sequential(recurrent, "take the first element of the tuple, plus 100") *)
Example C109_example : exists (f g b : layer nat unit), let x := VTensor 1 in
  f x None = Ok (VTuple [VTensor 1; VTensor 1]) /\ g (VTuple [VTensor 1; VTensor 1]) None = Ok (VTensor 101) /\ g (VTensor 1) None = Ok (VTensor 0) /\
  b (VTensor 101) None = Ok (VTensor 202) /\ b (VTensor 0) None = Ok (VTensor 0).
Proof.
  exists demo_rnn, (fun x _ => match x with VTuple (VTensor a :: _) => Ok (VTensor (a + 100)) | VTensor a => Ok (VTensor 0) | _ => Err TypeError end), demo_double.
  cbn. auto.
Qed.
Example C109_example_positive : no_sequential (MultiLayered [Layer demo_rnn]) /\ no_sequential (Layer demo_double) /\
  Forall strict (layers_of (MultiLayered [Layer demo_rnn])) /\ Forall strict (layers_of (Layer demo_double)).
Proof.
  split; [cbn; auto|]. split; [exact I|]. split; (constructor; [|constructor]); [apply demo_rnn_strict|apply demo_double_strict].
Qed.
Example C110_example : snd (stateful_run (make_stateful (Layer demo_rnn)) [VTensor 1; VTensor 1]) = Ok [VTensor 1; VTensor 2] /\
  exists s, stateful_forward (fst (stateful_run (make_stateful (Layer demo_rnn)) [VTensor 1])) VNone = (s, Err TypeError).
Proof. split; [reflexivity|]. eexists. reflexivity. Qed.

(* Properties of device declarations and of the fields of remote problems. *)
From Coq Require Import Ascii String.
From Verif Require Import Prelude DevModel DevSpec.

(* C168: where evaluations take place *)
Theorem C168_decorators : forall f g,
  bare on_cuda f = called on_cuda [] f /\
  (bare on_cuda f = Ok g <-> g = mkF (f_aux f) (Some (Cuda None)) (f_code f)) /\
  (forall i, called on_cuda [DIndex (Z.of_nat i)] f = Ok (mkF (f_aux f) (Some (Cuda (Some i))) (f_code f))) /\
  bare on_aux_device f = called on_aux_device [] f /\
  (forall h, bare on_aux_device f = Ok h -> f_code h = f_code f /\ f_aux h = true /\ f_device h = f_device f) /\
  (forall a b r h, called on_cuda (a :: b :: r) h = Err TypeError /\ called on_aux_device (a :: b :: r) h = Err TypeError).
Proof.
  intros f g. repeat split; auto.
  - intros H. injection H as <-. reflexivity.
  - intros ->. reflexivity.
  - intros i. unfold called, on_cuda, cuda_device. destruct (Z.ltb_spec (Z.of_nat i) 0); [lia|]. rewrite Nat2Z.id. reflexivity.
  - injection H as <-. reflexivity.
  - injection H as <-. reflexivity.
  - injection H as <-. reflexivity.
  - destruct a; reflexivity.
  - destruct a; reflexivity.
Qed.

Lemma device_of_fn_declares p f d : device_of_fn p f = Some d <-> declares (aux_device p) f d.
Proof.
  unfold device_of_fn. split.
  - destruct (f_aux f) eqn:E; intros H.
    + injection H as <-. apply declares_aux; auto.
    + apply declares_device; auto.
  - intros [E|d' E E']; rewrite E; auto.
Qed.
Lemma device_of_fn_silent p f : device_of_fn p f = None <-> silent f.
Proof. unfold device_of_fn, silent. destruct (f_aux f); split; try discriminate; try tauto. intros [H _]. discriminate. Qed.

(* the first declaration counts, in the order: objective function, _evaluate_batch, _evaluate *)
Theorem C168_chosen_partial : forall p objective evaluate_all evaluate_batch evaluate fs,
  silent (code evaluate_all) ->
  (forall id f i g, objective = Some (id, f) -> evaluate_all = Stored i g -> id <> i) ->
  (forall i g j k, evaluate_all = Stored i g -> evaluate_batch = Stored j k -> i <> j) ->
  (forall i g j k, evaluate_all = Stored i g -> evaluate = Stored j k -> i <> j) ->
  fs = match objective with Some (_, f) => [f] | None => [] end ++ [code evaluate_batch; code evaluate] ->
  (Forall silent fs -> device_of_fitness_function p objective evaluate_all evaluate_batch evaluate = Ok None) /\
  (forall before f after d, fs = before ++ f :: after -> Forall silent before -> declares (aux_device p) f d ->
     device_of_fitness_function p objective evaluate_all evaluate_batch evaluate = Ok (Some d)).
Proof.
  intros p objective ea eb ev fs Sa D1 D2 D3 ->.
  assert (Na : device_of_fn p (code ea) = None) by (apply device_of_fn_silent; auto).
  (* the answer as the first device among the candidates *)
  assert (E : device_of_fitness_function p objective ea eb ev =
    Ok (hd_error (flat_map (fun f => match device_of_fn p f with Some d => [d] | None => [] end)
      (match objective with Some (_, f) => [f] | None => [] end ++ [code eb; code ev])))).
  { unfold device_of_fitness_function.
    destruct ea as [fa|ia fa], eb as [fb|ib fb], ev as [fe|ie fe], objective as [[id fo]|];
      cbn [access code app device_loop flat_map] in *; rewrite ?Na;
      repeat match goal with |- context [device_of_fn p ?x] => destruct (device_of_fn p x) eqn:?; cbn [app hd_error flat_map] end;
      cbn [ident_eqb Nat.eqb]; try reflexivity; try discriminate;
      repeat match goal with |- context [Nat.eqb ?x ?y] => destruct (Nat.eqb_spec x y); [subst; exfalso; try lia|] end; try reflexivity;
      solve [eapply D1; reflexivity | eapply D2; reflexivity | eapply D3; reflexivity | eapply D2; eauto | eapply D3; eauto]. }
  rewrite E. set (fs := match objective with Some (_, f) => [f] | None => [] end ++ [code eb; code ev]).
  split.
  - intros F. replace (flat_map _ fs) with (@nil device); [reflexivity|]. symmetry.
    induction F as [|f l H F IH]; auto. cbn [flat_map]. rewrite (proj2 (device_of_fn_silent p f) H). exact IH.
  - intros before f after d Q F H. rewrite Q. f_equal. rewrite flat_map_app.
    replace (flat_map (fun f => match device_of_fn p f with Some d => [d] | None => [] end) before) with (@nil device).
    + cbn [app flat_map]. apply device_of_fn_declares in H. rewrite H. reflexivity.
    + symmetry. clear - F. induction F as [|g l H F IH]; auto. cbn [flat_map]. rewrite (proj2 (device_of_fn_silent p g) H). exact IH.
Qed.

(* a declaration of the method _evaluate_all should be refused, but is accepted *)
Theorem C168_evaluate_all_refuted : forall p f d evaluate_batch evaluate,
  declares (aux_device p) f d ->
  device_of_fitness_function p None (Method f) evaluate_batch evaluate = Ok (Some d).
Proof.
  intros p f d eb ev H. apply device_of_fn_declares in H. unfold device_of_fitness_function.
  destruct eb as [fb|ib fb], ev as [fe|ie fe]; cbn [access app device_loop]; rewrite H; reflexivity.
Qed.
(* only a function stored in the instance is refused *)
Theorem C168_stored_refused : forall p id f d evaluate_batch evaluate,
  declares (aux_device p) f d ->
  device_of_fitness_function p None (Stored id f) evaluate_batch evaluate = Err RuntimeError.
Proof.
  intros p id f d eb ev H. apply device_of_fn_declares in H. unfold device_of_fitness_function.
  destruct eb as [fb|ib fb], ev as [fe|ie fe]; cbn [access app device_loop]; rewrite H; cbn [access ident_eqb]; rewrite Nat.eqb_refl; reflexivity.
Qed.
(* the auxiliary device *)
Theorem C168_aux : forall p q,
  (p_dev p <> Cpu -> aux_device p = p_dev p) /\
  (p_dev p = Cpu -> (aux_device p = Cpu <-> p_cuda p = false)) /\
  (p_dev p = Cpu -> p_dev q = Cpu -> p_cuda p = true -> p_cuda q = true -> p_all p = true -> p_all q = true ->
   forall i j, p_actor p = Some i -> p_actor q = Some j -> (aux_device p = aux_device q <-> i = j)).
Proof.
  intros p q. unfold aux_device. repeat split.
  - intros N. destruct (p_dev p) as [|[i|]]; try congruence; reflexivity.
  - rewrite H. cbn [device_eqb]. destruct (p_cuda p); auto. destruct (p_all p), (p_actor p); discriminate.
  - rewrite H. cbn [device_eqb]. intros ->. reflexivity.
  - rewrite H, H0, H1, H2, H3, H4, H5, H6. cbn [device_eqb]. congruence.
  - rewrite H, H0, H1, H2, H3, H4, H5, H6. cbn [device_eqb]. congruence.
Qed.
Print Assumptions C168_decorators.
Print Assumptions C168_chosen_partial.
Print Assumptions C168_evaluate_all_refuted.
Print Assumptions C168_stored_refused.
Print Assumptions C168_aux.
Example C168_example :
  let p := mkPr Cpu true true (Some 3) in
  let plain := mkF false None 0 in
  let onaux := mkF true (Some (Cuda (Some 1))) 1 in
  silent plain /\ declares (aux_device p) onaux (Cuda (Some 3)) /\
  device_of_fitness_function p None (Method plain) (Method onaux) (Method (set_device Cpu plain)) = Ok (Some (Cuda (Some 3))) /\
  device_of_fitness_function p None (Method onaux) (Method plain) (Method plain) = Ok (Some (Cuda (Some 3))).
Proof. cbn. repeat split; try reflexivity. apply declares_aux. reflexivity. Qed.

(* C169: fields of the problem of an actor *)
Lemma hset_same h o a x : hset h o a x o a = Some x.
Proof. unfold hset. rewrite Nat.eqb_refl, String.eqb_refl. reflexivity. Qed.
Lemma hset_other h o a x o' a' : (o', a') <> (o, a) -> hset h o a x o' a' = h o' a'.
Proof.
  intros N. unfold hset. destruct (Nat.eqb_spec o o'); auto. destruct (String.eqb_spec a a'); auto. subst. congruence.
Qed.
Lemma reads_walk h o l c o' : reads h o l c o' -> walk h (Ref o) l = Ok (Ref o').
Proof. induction 1; cbn [walk getattr]; auto. rewrite H. exact IHreads. Qed.
Lemma reads_kept h o l c o' p a x : reads h o l c o' -> ~ In (p, a) c -> reads (hset h p a x) o l c o'.
Proof.
  induction 1 as [o|o b o' l c o'' E R IH]; intros N; [constructor|]. econstructor; [|apply IH; intros I; apply N; right; exact I].
  rewrite hset_other; auto. intros Q. apply N. left. exact Q.
Qed.
Lemma walk_app h l m : forall v, walk h v (l ++ m) = bind (walk h v l) (fun w => walk h w m).
Proof. induction l as [|a l IH]; intros v; cbn [app walk bind]; auto. destruct (getattr h v a); cbn [bind]; auto. Qed.
Lemma set_reads h o l c o' a x : reads h o l c o' -> set_loop h (Ref o) (l ++ [a]) x = Ok (hset h o' a x).
Proof.
  induction 1 as [o|o b o' l c o'' E R IH]; cbn [app set_loop]; auto. destruct (l ++ [a]) eqn:Q; [destruct l; discriminate|].
  rewrite <- Q in *. cbn [getattr]. rewrite E. cbn [bind]. exact IH.
Qed.

(* exactly one attribute of one object is written; reading it gives the value, unless the way leads through it *)
Theorem C169_set_get_partial : forall h f l a c o x, names f = l ++ [a] -> reads h 0 l c o ->
  exists h', actor_set h f x = Ok h' /\ h' o a = Some x /\ (forall o' a', (o', a') <> (o, a) -> h' o' a' = h o' a') /\
    (~ In (o, a) c -> actor_get h' f = Ok x) /\
    (forall g m b cg og v, names g = m ++ [b] -> reads h 0 m cg og -> h og b = Some v -> ~ In (o, a) ((og, b) :: cg) ->
       actor_get h' g = Ok v).
Proof.
  intros h f l a c o x E R. exists (hset h o a x). split; [|split; [|split; [|split]]].
  - unfold actor_set. rewrite E. eapply set_reads; eauto.
  - apply hset_same.
  - intros. apply hset_other. auto.
  - intros N. unfold actor_get. rewrite E, walk_app, (reads_walk _ _ _ c o) by (apply reads_kept; auto).
    cbn [bind walk getattr]. rewrite hset_same. reflexivity.
  - intros g m b cg og v Eg Rg Hv N. unfold actor_get. rewrite Eg, walk_app, (reads_walk _ _ _ cg og).
    + cbn [bind walk getattr]. rewrite hset_other; [|intros Q; apply N; left; exact Q]. rewrite Hv. reflexivity.
    + apply reads_kept; auto. intros I. apply N. right. exact I.
Qed.
(* a way through the written attribute: the value cannot be read afterwards *)
Theorem C169_cycle_refuted : forall h b z, h 0 b = Some (Ref 0) ->
  exists h', actor_set h (Names [b; b]) (Val z) = Ok h' /\ actor_get h' (Names [b; b]) = Err AttributeError.
Proof.
  intros h b z E. eexists. unfold actor_set, actor_get. cbn [names set_loop getattr walk]. rewrite E. cbn [bind set_loop].
  split; [reflexivity|]. rewrite hset_same. reflexivity.
Qed.
(* and nothing is written, without an error, if no name is given *)
Theorem C169_no_names_refuted : forall h x, actor_set h (Names []) x = Ok h /\ actor_get h (Names []) = Ok (Ref 0).
Proof. split; reflexivity. Qed.

(* missing attributes *)
Theorem C169_refused : forall h f l a b o c m x, names f = l ++ a :: b :: m -> reads h 0 l c o -> (h o a = None \/ exists z, h o a = Some (Val z)) ->
  actor_set h f x = Err AttributeError /\ actor_get h f = Err AttributeError.
Proof.
  intros h f l a b o c m x E R K. split.
  - unfold actor_set. rewrite E. clear E. induction R as [o|o b' o' l c o'' E' R IH]; cbn [app set_loop].
    + cbn [getattr]. destruct K as [-> | (z & ->)]; cbn [bind]; auto. destruct m; reflexivity.
    + destruct (l ++ a :: b :: m) eqn:Q; [destruct l; discriminate|]. rewrite <- Q in *. cbn [getattr]. rewrite E'. cbn [bind]. auto.
  - unfold actor_get. rewrite E, walk_app, (reads_walk _ _ _ _ _ R). cbn [bind walk getattr].
    destruct K as [-> | (z & ->)]; reflexivity.
Qed.

(* names joined by dots are the same as a list of names *)
Lemma split_undotted s : undotted s -> split_dots s = [s].
Proof.
  induction s as [|c s IH]; intros H; auto. destruct H as [N H]. cbn [split_dots]. destruct (Ascii.eqb_spec c "."%char); [congruence|].
  rewrite (IH H). reflexivity.
Qed.
Lemma split_append s r : undotted s -> split_dots (s ++ String "."%char r) = s :: split_dots r.
Proof.
  induction s as [|c s IH]; intros H; [reflexivity|]. destruct H as [N H]. cbn [append split_dots].
  destruct (Ascii.eqb_spec c "."%char); [congruence|]. rewrite (IH H). reflexivity.
Qed.
Theorem C169_dotted : forall l, l <> [] -> Forall undotted l ->
  forall h x, actor_get h (Dotted (String.concat "." l)) = actor_get h (Names l) /\
    actor_set h (Dotted (String.concat "." l)) x = actor_set h (Names l) x.
Proof.
  intros l N F h x. assert (E : split_dots (String.concat "." l) = l).
  { destruct F as [|s l H F]; [congruence|]. clear N. revert s H. induction F as [|t l H F IH]; intros s Hs.
    - apply split_undotted; auto.
    - change (String.concat "." (s :: t :: l)) with (s ++ String "."%char (String.concat "." (t :: l)))%string.
      rewrite split_append by auto. f_equal. apply IH. auto. }
  unfold actor_get, actor_set. cbn [names]. rewrite E. auto.
Qed.
Print Assumptions C169_set_get_partial.
Print Assumptions C169_cycle_refuted.
Print Assumptions C169_no_names_refuted.
Print Assumptions C169_refused.
Print Assumptions C169_dotted.
Example C169_example :
  let h : heap := fun o a => if Nat.eqb o 0 then if String.eqb a "b" then Some (Ref 1) else None
                             else if String.eqb a "c" then Some (Val 5) else None in
  reads h 0 ["b"%string] [(0, "b"%string)] 1 /\
  (exists h', actor_set h (Dotted "b.c") (Val 20) = Ok h' /\ actor_get h' (Dotted "b.c") = Ok (Val 20)) /\
  actor_set h (Dotted "x.c") (Val 20) = Err AttributeError.
Proof.
  split; [|split; [eexists; split; reflexivity|reflexivity]]. econstructor; [reflexivity|constructor].
Qed.

(* C60: how the make_* methods resolve their arguments. *)
From Verif Require Import Prelude MakeModel MakeSpec.

Lemma ints_map : forall l, ints (map SInt l) = Ok l.
Proof. induction l as [|n l IH]; cbn; [reflexivity|rewrite IH; reflexivity]. Qed.
Lemma shape_args p r sh : out r = None -> wants_shape p r sh -> exists l, size_args p r = Ok l /\ torch_shape l = Ok sh /\ (scalar_requested l = true -> sh = []) /\ l <> [].
Proof.
  intros Ho W. unfold size_args. rewrite Ho. destruct W as [l Hs Hn Hnum|l Hs Hnum|n m Hs Hnum Hl|n Hs Hnum Hl]; rewrite Hs, Hnum.
  - exists (map SInt l). destruct l as [|a l]; [congruence|]. split; [reflexivity|]. split; [|split; [discriminate|discriminate]]. cbn [map torch_shape]. rewrite <- (ints_map (a :: l)). destruct l; reflexivity.
  - exists [STuple l]. repeat split; auto; [|discriminate]. destruct l; [reflexivity|discriminate].
  - rewrite Hl. exists [SInt n; SInt m]. repeat split; discriminate.
  - rewrite Hl. exists [SInt n]. repeat split; discriminate.
Qed.
Lemma dtype_args p r x : out r = None -> wants_dtype p r x -> dtype_and_device p r = Ok (Some x, Some (wants_device p r)).
Proof.
  intros Ho W. unfold dtype_and_device, wants_device. rewrite Ho. destruct W as [x Hd He|x Hd He Hp|Hd He]; rewrite Hd, He; [reflexivity|rewrite Hp; reflexivity|reflexivity].
Qed.
Lemma empty_ok l sh x d dev : torch_shape l = Ok sh -> numeric x d -> empty l (Some x) (Some dev) = Ok (New (Desc sh d dev) None).
Proof. intros Hl Hx. unfold empty. rewrite Hl. destruct Hx; reflexivity. Qed.

(* without out: the shape, dtype and device asked for *)
Theorem C60_fill k p r sh x d : out r = None -> wants_shape p r sh -> wants_dtype p r x -> numeric x d ->
  p_make_fill k p r = Ok (New (Desc sh d (wants_device p r)) None).
Proof.
  intros Ho Ws Wd Hx. destruct (shape_args p r sh Ho Ws) as (l & El & Et & Hsc & _). unfold p_make_fill, maker_args. rewrite El. cbn [bind]. rewrite (dtype_args p r x Ho Wd). cbn [bind]. unfold make_fill. rewrite Ho.
  destruct (scalar_requested l).
  - rewrite Hsc by auto. unfold scalar_tensor. rewrite (empty_ok [STuple [1]] [1] x d) by auto. reflexivity.
  - unfold out_tensor. rewrite (empty_ok l sh x d) by auto. reflexivity.
Qed.
Theorem C60_empty p r sh x d : out r = None -> wants_shape p r sh -> wants_dtype p r x -> numeric x d ->
  p_make_empty p r = Ok (New (Desc sh d (wants_device p r)) None).
Proof.
  intros Ho Ws Wd Hx. destruct (shape_args p r sh Ho Ws) as (l & El & Et & _). unfold p_make_empty, maker_args. rewrite El. cbn [bind]. rewrite (dtype_args p r x Ho Wd). cbn [bind]. rewrite Ho.
  apply empty_ok; auto.
Qed.
(* an ObjectArray of n elements *)
Theorem C60_objects p r n : out r = None -> wants_shape p r [n] -> wants_dtype p r DObject -> wants_device p r = 0 -> p_make_empty p r = Ok (Objects n).
Proof.
  intros Ho Ws Wd Hdev. unfold p_make_empty, maker_args. rewrite (dtype_args p r _ Ho Wd), Hdev. unfold size_args. rewrite Ho.
  inversion Ws as [l Hs Hn Hnum|l Hs Hnum|n' m Hs Hnum Hl|n' Hs Hnum Hl]; subst; rewrite Hs, Hnum; try rewrite Hl; reflexivity.
Qed.
(* random tensors: moreover the generator asked for; for dtypes given as torch.dtype *)
Theorem C60_random_partial p r sh d g : out r = None -> wants_shape p r sh -> wants_dtype p r (DTorch d) -> wants_generator p r g ->
  p_make_random p r = Ok (New (Desc sh d (wants_device p r)) g).
Proof.
  intros Ho Ws Wd Hg. destruct (shape_args p r sh Ho Ws) as (l & El & Et & Hsc & _). unfold p_make_random, maker_args. rewrite El. cbn [bind]. rewrite (dtype_args p r _ Ho Wd). cbn [bind].
  assert (Eg : generator_arg p r = g) by (unfold generator_arg; destruct Hg as [(x & -> & ->)|(-> & [-> | [-> ->]])]; reflexivity). rewrite Eg.
  unfold make_random. rewrite Ho. unfold out_tensor_random. destruct (scalar_requested l) eqn:Es; [rewrite Hsc by auto; reflexivity|]. rewrite Et. reflexivity.
Qed.
(* make_randint: int64 is the default *)
Theorem C60_randint_partial p r sh d g : out r = None -> wants_shape p r sh -> use_eval_dtype r = false ->
  (dtype r = Some (DTorch d) \/ (dtype r = None /\ d = int64)) -> wants_generator p r g ->
  p_make_randint p r = Ok (New (Desc sh d (wants_device p r)) g).
Proof.
  intros Ho Ws He Hd Hg. unfold p_make_randint. rewrite Ho.
  assert (Ed : match dtype r with None => Some (DTorch int64) | _ => dtype r end = Some (DTorch d)) by (destruct Hd as [-> | [-> ->]]; reflexivity).
  replace (match dtype r with Some d0 => Some d0 | None => Some (DTorch int64) end) with (Some (DTorch d)) by (destruct Hd as [-> | [-> ->]]; reflexivity).
  change (wants_device p r) with (wants_device p (Req (sizes r) (num_solutions r) None (Some (DTorch d)) (device r) (use_eval_dtype r) (generator r))).
  apply C60_random_partial; auto.
  - destruct Ws; [apply by_ints|apply by_tuple|apply by_solutions|apply by_variable_solutions]; auto.
  - apply by_dtype; auto.
Qed.
(* make_I: the given size, or else the solution length *)
Theorem C60_identity p r n x d : out r = None ->
  (sizes r = [SInt n] \/ sizes r = [STuple [n]] \/ (sizes r = [] /\ p_length p = Some (Some n))) -> wants_dtype p r x -> numeric x d ->
  p_make_I p r = Ok (New (Desc [n; n] d (wants_device p r)) None).
Proof.
  intros Ho Hs Wd Hx. unfold p_make_I. rewrite Ho.
  assert (El : match sizes r with [] => match p_length p with Some (Some n) => Ok [SInt n] | Some None => Err ValueError | None => Err AttributeError end
        | [STuple [n]] => Ok [SInt n] | [STuple _] => Err ValueError | l => Ok l end = Ok [SInt n]) by (destruct Hs as [-> | [-> | [-> ->]]]; reflexivity).
  rewrite El. cbn [bind]. unfold maker_args, size_args. cbn [out sizes num_solutions bind].
  rewrite (dtype_args p (Req [SInt n] None None (dtype r) (device r) (use_eval_dtype r) None) x); auto; [|destruct Wd; [apply by_dtype|apply by_eval|apply by_default]; auto].
  cbn [bind make_identity]. unfold out_tensor. rewrite (empty_ok [SInt n; SInt n] [n; n] x d) by auto. reflexivity.
Qed.
(* the functions of evotorch.tools, called without dtype and device: torch's default dtype, on the cpu *)
Theorem C60_free_functions k l sh : l <> [] -> torch_shape l = Ok sh -> forall g,
  empty l None None = Ok (New (Desc sh default_dtype 0) None) /\
  make_fill k l None None None = Ok (New (Desc sh default_dtype 0) None) /\
  make_random l None None None g = Ok (New (Desc sh default_dtype 0) g) /\
  (forall n, sh = [n] -> make_identity l None None None = Ok (New (Desc [n; n] default_dtype 0) None)
                        \/ exists a b m, l = a :: b :: m).
Proof.
  intros Hl Hs g. assert (E : empty l None None = Ok (New (Desc sh default_dtype 0) None)) by (unfold empty; rewrite Hs; reflexivity).
  assert (Hsc : scalar_requested l = true -> sh = []) by (destruct l as [|[n|[|n t]] [|b l]]; cbn in *; congruence).
  split; [exact E|]. split; [|split].
  - unfold make_fill. destruct (scalar_requested l); [rewrite Hsc by auto; reflexivity|]. unfold out_tensor. rewrite E. reflexivity.
  - unfold make_random, out_tensor_random. destruct (scalar_requested l); [rewrite Hsc by auto; reflexivity|]. rewrite Hs. reflexivity.
  - intros n ->. destruct l as [|a [|b l]]; [congruence| |right; eauto]. left. destruct a as [m|t]; cbn in Hs; [|inversion Hs]; try (inversion Hs; subst); reflexivity.
Qed.
(* with out and nothing else: that tensor *)
Theorem C60_into_out m p t g : m <> Empty ->
  let r := Req [] None (Some t) None None false g in
  exists g', call m p r = Ok (Filled t g') /\ match m with Fill _ | Empty => g' = None | _ => wants_generator p r g' end.
Proof.
  intros Hm r. destruct m as [|k| |]; [congruence|..]; eexists; (split; [reflexivity|]); auto; unfold wants_generator, generator_arg; cbn; destruct g as [x|], (p_generator p); eauto 7.
Qed.
(* conflicting requests are rejected *)
Theorem C60_conflicting_sizes m p r n : out r = None -> sizes r <> [] -> num_solutions r = Some n -> call m p r = Err ValueError.
Proof.
  intros Ho Hs Hn. assert (E : forall r', out r' = None -> sizes r' = sizes r -> num_solutions r' = Some n -> maker_args p r' = Err ValueError).
  { intros r' A B C. unfold maker_args, size_args. rewrite A, B, C. destruct (sizes r); [congruence|reflexivity]. }
  destruct m as [|k| |]; cbn; unfold p_make_empty, p_make_fill, p_make_randint, p_make_random; rewrite E; auto.
Qed.
Theorem C60_conflicting_dtypes m p r d sh : out r = None -> wants_shape p r sh -> dtype r = Some d -> use_eval_dtype r = true -> call m p r = Err ValueError.
Proof.
  intros Ho Ws Hd He. destruct (shape_args p r sh Ho Ws) as (l & El & _).
  assert (E : forall r', out r' = None -> size_args p r' = Ok l -> dtype r' = Some d -> use_eval_dtype r' = true -> maker_args p r' = Err ValueError).
  { intros r' A B C D. unfold maker_args, dtype_and_device. rewrite B, A, C, D. reflexivity. }
  assert (Er : size_args p (Req (sizes r) (num_solutions r) (out r) (Some d) (device r) (use_eval_dtype r) (generator r)) = Ok l) by (unfold size_args in *; cbn; exact El).
  destruct m as [|k| |]; cbn; unfold p_make_empty, p_make_fill, p_make_randint, p_make_random; try rewrite Hd; rewrite E; auto.
Qed.

(* C60 is false in these respects. With out, whatever else is asked for is ignored (the functions in evotorch.tools reject it): *)
Theorem C60_out_ignores_refuted k p r t : out r = Some t -> p_make_fill k p r = Ok (Filled t None).
Proof. intros Ho. unfold p_make_fill, maker_args, size_args, dtype_and_device. rewrite Ho. reflexivity. Qed.
(* ... make_empty always fails with out *)
Theorem C60_empty_out_refuted p r t : out r = Some t -> p_make_empty p r = Err TypeError.
Proof. intros Ho. unfold p_make_empty, maker_args, size_args, dtype_and_device. rewrite Ho. reflexivity. Qed.
(* ... make_randint always fails with use_eval_dtype (without a dtype) *)
Theorem C60_randint_eval_refuted p r sh : out r = None -> wants_shape p r sh -> dtype r = None -> use_eval_dtype r = true -> p_make_randint p r = Err ValueError.
Proof.
  intros Ho Ws Hd He. destruct (shape_args p r sh Ho Ws) as (l & El & _). unfold p_make_randint. rewrite Ho, Hd, He. unfold p_make_random, maker_args.
  assert (Er : size_args p (Req (sizes r) (num_solutions r) None (Some (DTorch int64)) (device r) true (generator r)) = Ok l) by (unfold size_args in *; rewrite Ho in El; cbn; exact El).
  rewrite Er. reflexivity.
Qed.
(* ... the makers of random tensors always fail with a dtype given by its name *)
Theorem C60_dtype_name_refuted p r sh d : out r = None -> wants_shape p r sh -> dtype r = Some (DName d) -> use_eval_dtype r = false -> p_make_random p r = Err TypeError.
Proof.
  intros Ho Ws Hd He. destruct (shape_args p r sh Ho Ws) as (l & El & _). unfold p_make_random, maker_args. rewrite El. cbn [bind]. rewrite (dtype_args p r (DName d)); auto using by_dtype.
  cbn [bind]. unfold make_random. rewrite Ho. reflexivity.
Qed.
(* ... make_empty for objects, on a device other than the cpu, returns an exception instead of raising it *)
Theorem C60_exception_returned_refuted p r n : out r = None -> wants_shape p r [n] -> wants_dtype p r DObject -> wants_device p r <> 0 -> p_make_empty p r = Ok (Exception ValueError).
Proof.
  intros Ho Ws Wd Hdev. destruct (shape_args p r [n] Ho Ws) as (l & El & _). unfold p_make_empty, maker_args. rewrite El, (dtype_args p r _ Ho Wd). cbn [bind]. rewrite Ho. cbn. destruct (wants_device p r); [congruence|reflexivity].
Qed.
Print Assumptions C60_fill.
Print Assumptions C60_empty.
Print Assumptions C60_objects.
Print Assumptions C60_random_partial.
Print Assumptions C60_randint_partial.
Print Assumptions C60_identity.
Print Assumptions C60_free_functions.
Example C60_free_example : make_identity [SInt 3] None None None = Ok (New (Desc [3; 3] default_dtype 0) None) /\ make_fill Ones [STuple [2; 3]] None None None = Ok (New (Desc [2; 3] default_dtype 0) None).
Proof. split; [destruct (C60_free_functions Ones [SInt 3] [3] ltac:(discriminate) eq_refl None) as (_ & _ & _ & H); destruct (H 3 eq_refl) as [E|(a & b & m & E)]; [exact E|discriminate]|exact (proj1 (proj2 (C60_free_functions Ones [STuple [2; 3]] [2; 3] ltac:(discriminate) eq_refl None)))]. Qed.
Print Assumptions C60_into_out.
Print Assumptions C60_conflicting_sizes.
Print Assumptions C60_conflicting_dtypes.
Print Assumptions C60_out_ignores_refuted.
Print Assumptions C60_empty_out_refuted.
Print Assumptions C60_randint_eval_refuted.
Print Assumptions C60_dtype_name_refuted.
Print Assumptions C60_exception_returned_refuted.

(* ---- examples: a problem with solutions of length 10, float32 (2) and evaluation dtype float64 (3), with a generator (7) ---- *)
Definition prob : parent := Parent (DTorch 2) (Some (DTorch 3)) 0 (Some (Some 10)) (Some (Some 7)).
Definition ask : request := Req [] (Some 5) None None None false None.
Lemma ask_shape r : sizes r = [] -> num_solutions r = Some 5 -> wants_shape prob r [5; 10].
Proof. intros A B. apply by_solutions; auto. Qed.
Example C60_fill_example : p_make_fill Nan prob (Req [] (Some 5) None None None true None) = Ok (New (Desc [5; 10] 3 0) None).
Proof. apply (C60_fill Nan prob (Req [] (Some 5) None None None true None) [5; 10] (DTorch 3) 3); auto using ask_shape; [apply by_eval; auto|constructor]. Qed.
Example C60_scalar_example : p_make_fill Ones prob (Req [STuple []] None None (Some (DName 4)) (Some 1) false None) = Ok (New (Desc [] 4 1) None).
Proof. apply (C60_fill Ones prob (Req [STuple []] None None (Some (DName 4)) (Some 1) false None) [] (DName 4) 4); auto; [apply by_tuple; auto|apply by_dtype; auto|constructor]. Qed.
Example C60_empty_example : p_make_empty prob (Req [SInt 2; SInt 3] None None None None false None) = Ok (New (Desc [2; 3] 2 0) None).
Proof. apply (C60_empty prob (Req [SInt 2; SInt 3] None None None None false None) [2; 3] (DTorch 2) 2); auto; [apply by_ints; auto; discriminate|apply by_default; auto|constructor]. Qed.
Example C60_objects_example : p_make_empty prob (Req [STuple [4]] None None (Some DObject) None false None) = Ok (Objects 4).
Proof. apply C60_objects; auto; [apply by_tuple; auto|apply by_dtype; auto]. Qed.
Example C60_random_example : p_make_random prob ask = Ok (New (Desc [5; 10] 2 0) (Some 7)).
Proof. apply (C60_random_partial prob ask [5; 10] 2 (Some 7)); auto using ask_shape; [apply by_default; auto|right; cbn; auto]. Qed.
Example C60_randint_example : p_make_randint prob (Req [] (Some 5) None None None false (Some 8)) = Ok (New (Desc [5; 10] int64 0) (Some 8)).
Proof. apply (C60_randint_partial prob (Req [] (Some 5) None None None false (Some 8)) [5; 10] int64 (Some 8)); auto using ask_shape. left. exists 8. auto. Qed.
Example C60_identity_example : p_make_I prob (Req [] None None None None false None) = Ok (New (Desc [10; 10] 2 0) None).
Proof. apply (C60_identity prob (Req [] None None None None false None) 10 (DTorch 2) 2); auto; [apply by_default; auto|constructor]. Qed.
Example C60_into_out_example : p_make_random prob (Req [] None (Some (Desc [3] 2 0)) None None false None) = Ok (Filled (Desc [3] 2 0) (Some 7)).
Proof. destruct (C60_into_out Random prob (Desc [3] 2 0) None) as (g & H & [(x & A & _)|(_ & [A|[A _]])]); [discriminate..| |discriminate]. injection A as <-. exact H. Qed.
Example C60_conflicting_sizes_example : p_make_random prob (Req [SInt 3] (Some 5) None None None false None) = Err ValueError.
Proof. apply (C60_conflicting_sizes Random prob (Req [SInt 3] (Some 5) None None None false None) 5); auto. discriminate. Qed.
Example C60_conflicting_dtypes_example : p_make_fill Zeros prob (Req [] (Some 5) None (Some (DTorch 4)) None true None) = Err ValueError.
Proof. apply (C60_conflicting_dtypes (Fill Zeros) prob (Req [] (Some 5) None (Some (DTorch 4)) None true None) (DTorch 4) [5; 10]); auto using ask_shape. Qed.
Example C60_out_ignores_example : p_make_fill Zeros prob (Req [SInt 7] (Some 5) (Some (Desc [3] 2 0)) (Some (DTorch 4)) None true None) = Ok (Filled (Desc [3] 2 0) None).
Proof. apply C60_out_ignores_refuted. reflexivity. Qed.
Example C60_randint_eval_example : p_make_randint prob (Req [] (Some 5) None None None true None) = Err ValueError.
Proof. apply (C60_randint_eval_refuted prob (Req [] (Some 5) None None None true None) [5; 10]); auto using ask_shape. Qed.
Example C60_dtype_name_example : p_make_random prob (Req [] (Some 5) None (Some (DName 2)) None false None) = Err TypeError.
Proof. apply (C60_dtype_name_refuted prob (Req [] (Some 5) None (Some (DName 2)) None false None) [5; 10] 2); auto using ask_shape. Qed.
Example C60_exception_example : p_make_empty prob (Req [SInt 4] None None (Some DObject) (Some 1) false None) = Ok (Exception ValueError).
Proof. apply (C60_exception_returned_refuted prob (Req [SInt 4] None None (Some DObject) (Some 1) false None) 4); [reflexivity|apply by_ints; auto; discriminate|apply by_dtype; auto|discriminate]. Qed.

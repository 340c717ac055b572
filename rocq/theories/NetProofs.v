(* Proofs about layered and stateful modules. *)
From Verif Require Import Prelude NetModel NetSpec.
Open Scope nat_scope.

Section P.
Variables T O : Type.
Notation val := (val T O).
Notation module := (module T O).
Notation layer := (layer T O).
Implicit Types (f : layer) (x y h : val) (hs xs ys : list val) (fs : list layer) (m : module) (l : list module).

(* the layers, all of them at each time step *)
Fixpoint pipe (fs : list layer) (x : val) (hs : list val) : result (val * list val) :=
  match fs, hs with
  | [], _ => Ok (x, [])
  | f :: ft, h :: ht => bind (call_layer f x h) (fun yh => rmap (fun r => (fst r, snd yh :: snd r)) (pipe ft (fst yh) ht))
  | _ :: _, [] => Err TypeError
  end.
Fixpoint pipe_run (fs : list layer) (hs : list val) (xs : list val) : result (list val) :=
  match xs with
  | [] => Ok []
  | x :: t => bind (pipe fs x hs) (fun r => rmap (cons (fst r)) (pipe_run fs (snd r) t))
  end.

Lemma pipe_length fs : forall x hs y hs', length hs = length fs -> pipe fs x hs = Ok (y, hs') -> length hs' = length fs.
Proof.
  induction fs as [|f fs IH]; intros x [|h hs] y hs' L E; cbn in *; try discriminate.
  - injection E as <- <-. auto.
  - destruct (call_layer f x h) as [[z h']|e]; cbn in E; [|discriminate].
    destruct (pipe fs z hs) as [[y2 hs2]|e] eqn:E2; cbn in E; [|discriminate]. injection E as <- <-. cbn. f_equal. eapply IH; [|exact E2]. lia.
Qed.
Lemma pipe_app (f1 : list layer) : forall (f2 : list layer) x (h1 h2 : list val), length h1 = length f1 ->
  pipe (f1 ++ f2) x (h1 ++ h2) = bind (pipe f1 x h1) (fun r => rmap (fun r2 => (fst r2, snd r ++ snd r2)) (pipe f2 (fst r) h2)).
Proof.
  induction f1 as [|f f1 IH]; intros f2 x [|h h1] h2 L; cbn in *; try discriminate.
  - destruct (pipe f2 x h2) as [[? ?]|]; reflexivity.
  - destruct (call_layer f x h) as [[z h']|e]; cbn; [|reflexivity]. rewrite IH by lia.
    destruct (pipe f1 z h1) as [[y hs]|e]; cbn; [|reflexivity]. destruct (pipe f2 y h2) as [[? ?]|]; reflexivity.
Qed.
Lemma call_proper f x h y h' : proper f -> call_layer f x h = Ok (y, h') -> is_tensor y.
Proof.
  intros P. unfold call_layer. destruct (f x (hidden_arg h)) as [r|e] eqn:E; [|discriminate].
  destruct r as [t| |l|d|o]; try discriminate.
  - intros K; injection K as <- <-. exists t; auto.
  - destruct l as [|a [|b [|c l]]]; try discriminate. intros K; injection K as <- <-. exact (P _ _ _ _ E).
Qed.
Lemma pipe_tensor fs : forall x hs y hs', Forall proper fs -> is_tensor x -> pipe fs x hs = Ok (y, hs') -> is_tensor y.
Proof.
  induction fs as [|f fs IH]; intros x hs y hs' P X E; cbn in E.
  - injection E as <- <-. auto.
  - destruct hs as [|h hs]; [discriminate|]. inversion P as [|? ? Pf P']; subst.
    destruct (call_layer f x h) as [[z h']|e] eqn:Ec; cbn in E; [|discriminate].
    destruct (pipe fs z hs) as [[y2 hs2]|e] eqn:E2; cbn in E; [|discriminate]. injection E as <- <-.
    eapply IH; [exact P'|eapply call_proper; eauto|exact E2].
Qed.

(* processing time step by time step or layer by layer gives the same outputs *)
Lemma pipe_run_cons f fs h hs xs ys : pipe_run (f :: fs) (h :: hs) xs = Ok ys <-> exists zs, run_layer f h xs = Ok zs /\ pipe_run fs hs zs = Ok ys.
Proof.
  revert h hs ys; induction xs as [|x xs IH]; intros h hs ys; cbn [pipe_run run_layer].
  - split.
    + intros E. exists []. split; [reflexivity|exact E].
    + intros (zs & E & K). injection E as <-. exact K.
  - cbn [pipe]. destruct (call_layer f x h) as [[z h']|e]; cbn [bind fst snd].
    2:{ split; [discriminate|]. intros (zs & E & _). discriminate. }
    split.
    + intros E. destruct (pipe fs z hs) as [[y2 hs2]|e] eqn:E2; cbn [bind rmap fst snd] in E; [|discriminate].
      destruct (pipe_run (f :: fs) (h' :: hs2) xs) as [l|e] eqn:E3; cbn [rmap] in E; [|discriminate]. injection E as <-.
      apply IH in E3. destruct E3 as (zs & A & B). exists (z :: zs). rewrite A. split; [reflexivity|]. cbn [pipe_run]. rewrite E2. cbn [bind fst snd]. rewrite B. reflexivity.
    + intros (zs & A & B). destruct (run_layer f h' xs) as [zs'|e] eqn:E1; cbn [rmap] in A; [|discriminate]. injection A as <-.
      cbn [pipe_run] in B. destruct (pipe fs z hs) as [[y2 hs2]|e] eqn:E2; cbn [bind fst snd rmap] in *; [|discriminate].
      destruct (pipe_run fs hs2 zs') as [l|e] eqn:E3; cbn [rmap] in B; [|discriminate]. injection B as <-.
      assert (K : pipe_run (f :: fs) (h' :: hs2) xs = Ok l) by (apply IH; exists zs'; auto). rewrite K. reflexivity.
Qed.
Lemma fold_bind_err (fs : list layer) e : fold_left (fun acc f => bind acc (run_layer f VNone)) fs (Err e) = Err e.
Proof. induction fs; auto. Qed.
Lemma pipe_run_nil xs : pipe_run [] [] xs = Ok xs.
Proof. induction xs as [|x xs IH]; cbn [pipe_run pipe bind fst snd]; auto. rewrite IH. reflexivity. Qed.
Lemma pipe_run_layerwise fs : forall xs ys, pipe_run fs (repeat VNone (length fs)) xs = Ok ys <-> layerwise fs xs = Ok ys.
Proof.
  unfold layerwise. induction fs as [|f fs IH]; intros xs ys; cbn [length repeat fold_left bind].
  - rewrite pipe_run_nil. tauto.
  - rewrite pipe_run_cons. destruct (run_layer f VNone xs) as [zs|e].
    + rewrite <- IH. split; [intros (z & E & K); injection E as <-; auto|eauto].
    + rewrite fold_bind_err. split; [intros (z & E & _)|]; discriminate.
Qed.

(* ---- MultiLayered refines the pipeline ---- *)
Fixpoint ml_loop (d : list (nat * val)) (l : list module) (i : nat) (x : val) (new_h : list (nat * val)) : result val :=
  match l with
  | [] => Ok (match new_h with [] => x | _ => VTuple [x; VDict new_h] end)
  | m :: t => bind (forward m x (hidden_arg (vget d i))) (fun r =>
              bind (layer_result i r new_h) (fun xn => ml_loop d t (S i) (fst xn) (snd xn)))
  end.
Lemma forward_multi l x (h : option val) : forward (MultiLayered l) x h =
  bind (match h with
        | None | Some VNone => Ok []
        | Some (VDict d) => Ok d
        | Some _ => match l with [] => Ok [] | _ => Err AttributeError end
        end) (fun d => ml_loop d l 0 x []).
Proof.
  cbn [forward]. destruct (match h with None => _ | _ => _ end) as [d|e]; cbn [bind]; [|reflexivity].
  generalize 0 x (@nil (nat * val)). clear. induction l as [|m l IH]; intros i x new_h; [reflexivity|]. cbn [ml_loop].
  destruct (forward m x (hidden_arg (vget d i))) as [r|e]; cbn [bind]; [|reflexivity].
  destruct (layer_result i r new_h) as [[a b]|e]; cbn [bind fst snd]; [|reflexivity]. apply IH.
Qed.

(* which list of hidden states (one per layer) a hidden value of a module stands for *)
Fixpoint habs (m : module) (h : val) (hs : list val) {struct m} : Prop :=
  match m with
  | Layer _ => hs = [h]
  | Sequential _ => False
  | MultiLayered l => exists d, ((h = VNone /\ d = []) \/ h = VDict d) /\
      (fix go (l : list module) (i : nat) (hs : list val) := match l with
         | [] => hs = []
         | m :: t => exists (h1 h2 : list val), hs = h1 ++ h2 /\ habs m (vget d i) h1 /\ go t (S i) h2
         end) l 0 hs
  end.
Fixpoint gabs (d : list (nat * val)) (l : list module) (i : nat) (hs : list val) : Prop :=
  match l with
  | [] => hs = []
  | m :: t => exists (h1 h2 : list val), hs = h1 ++ h2 /\ habs m (vget d i) h1 /\ gabs d t (S i) h2
  end.
Lemma habs_multi l h hs : habs (MultiLayered l) h hs <-> exists d, ((h = VNone /\ d = []) \/ h = VDict d) /\ gabs d l 0 hs.
Proof.
  cbn [habs]. assert (K : forall d i hs, (fix go (l : list module) (i : nat) (hs : list val) := match l with
         | [] => hs = []
         | m :: t => exists (h1 h2 : list val), hs = h1 ++ h2 /\ habs m (vget d i) h1 /\ go t (S i) h2
         end) l i hs <-> gabs d l i hs).
  { intros d. clear. induction l as [|m l IH]; intros i hs; cbn [gabs]; [tauto|].
    split; intros (h1 & h2 & A & B & C); exists h1, h2; split; auto; split; auto; apply IH; auto. }
  split; intros (d & D & G); exists d; (split; [auto|]); apply K; auto.
Qed.
Lemma gabs_ext d d' l : forall i hs, (forall j, i <= j -> vget d j = vget d' j) -> gabs d l i hs -> gabs d' l i hs.
Proof.
  induction l as [|m l IH]; intros i hs E G; cbn in *; auto. destruct G as (h1 & h2 & -> & A & B). exists h1, h2. split; auto. split.
  - rewrite <- E; auto.
  - apply IH; auto. intros j J. apply E. lia.
Qed.

(* structural induction over modules *)
Lemma module_ind2 (P : module -> Prop) (HL : forall f, P (Layer f)) (HS : forall l, Forall P l -> P (Sequential l))
  (HM : forall l, Forall P l -> P (MultiLayered l)) : forall m, P m.
Proof.
  fix IH 1. intros [f|l|l].
  - apply HL.
  - apply HS. induction l as [|m l IHl]; constructor; auto.
  - apply HM. induction l as [|m l IHl]; constructor; auto.
Qed.

Lemma no_sequential_multi l : no_sequential (MultiLayered l) <-> Forall no_sequential l.
Proof.
  cbn. induction l as [|m l IH]; [split; auto|]. split.
  - intros [A B]. constructor; auto. apply IH; auto.
  - intros H. inversion H as [|? ? A B]; subst. split; auto. apply IH; auto.
Qed.

Lemma vget_app_last (d : list (nat * val)) i v j : (forall e, In e d -> fst e < i) ->
  vget (d ++ [(i, v)]) j = if j =? i then v else vget d j.
Proof.
  intros H. unfold vget. induction d as [|[k w] d IH]; cbn [find app fst snd].
  - rewrite Nat.eqb_sym. destruct (j =? i); reflexivity.
  - pose proof (H (k, w) (or_introl eq_refl)) as K. cbn in K. destruct (Nat.eqb_spec k j) as [->|N]; cbn [snd].
    + destruct (Nat.eqb_spec j i); [lia|auto].
    + apply IH. intros e He. apply H. right. auto.
Qed.
Lemma vget_fresh (d : list (nat * val)) i j : (forall e, In e d -> fst e < i) -> i <= j -> vget d j = VNone.
Proof.
  intros H L. unfold vget. destruct (find _ d) as [e|] eqn:E; auto. apply find_some in E. destruct E as [A B]. apply H in A. apply Nat.eqb_eq in B. lia.
Qed.

(* the effect of calling a module with hidden state *)
Definition refines (m : module) : Prop := no_sequential m -> Forall proper (layers_of m) -> forall x h hs, is_tensor x -> habs m h hs ->
  length hs = length (layers_of m) /\
  match pipe (layers_of m) x hs with
  | Err e => call_layer (forward m) x h = Err e
  | Ok (y, hs') => exists h', call_layer (forward m) x h = Ok (y, h') /\ habs m h' hs'
  end.

Lemma layer_result_call (m : module) x h i new_h :
  bind (forward m x (hidden_arg h)) (fun r => layer_result i r new_h) =
  match call_layer (forward m) x h with
  | Err e => Err e
  | Ok (y, VNone) => Ok (y, new_h)
  | Ok (y, h') => Ok (y, new_h ++ [(i, h')])
  end.
Proof.
  unfold call_layer. destruct (forward m x (hidden_arg h)) as [r|e]; cbn [bind]; auto. unfold layer_result.
  destruct r as [t| |l|d|o]; auto. destruct l as [|a [|b [|c l]]]; auto. destruct b; auto.
Qed.
Lemma ml_loop_refines d : forall l i x new_h hs, Forall refines l -> Forall no_sequential l -> Forall proper (flat_map layers_of l) ->
  is_tensor x -> (forall e, In e new_h -> fst e < i) -> gabs d l i hs ->
  length hs = length (flat_map layers_of l) /\
  match pipe (flat_map layers_of l) x hs with
  | Err e => ml_loop d l i x new_h = Err e
  | Ok (y, hs') => exists new_h', ml_loop d l i x new_h = Ok (match new_h' with [] => y | _ => VTuple [y; VDict new_h'] end) /\
      (forall j, j < i -> vget new_h' j = vget new_h j) /\ gabs new_h' l i hs'
  end.
Proof.
  induction l as [|m l IH]; intros i x new_h hs HR HN HP X HK G.
  - cbn in G. subst hs. cbn. split; auto. exists new_h. auto.
  - inversion HR as [|? ? R HR']; subst. inversion HN as [|? ? N HN']; subst. cbn [flat_map] in *. apply Forall_app in HP. destruct HP as [P1 P2].
    cbn [gabs] in G. destruct G as (h1 & h2 & -> & A & B).
    destruct (R N P1 x _ _ X A) as [L1 R1]. rewrite pipe_app by auto. rewrite !app_length, L1. cbn [ml_loop].
    assert (E0 : forall k : val * list (nat * val) -> result val, bind (forward m x (hidden_arg (vget d i))) (fun r => bind (layer_result i r new_h) k) =
                           bind (bind (forward m x (hidden_arg (vget d i))) (fun r => layer_result i r new_h)) k).
    { intros k. destruct (forward m x (hidden_arg (vget d i))); reflexivity. }
    rewrite E0, layer_result_call. clear E0.
    destruct (pipe (layers_of m) x h1) as [[y hs1]|e] eqn:E1; cbn [bind fst snd].
    2:{ rewrite R1. cbn [bind]. destruct (IH (S i) x new_h h2 HR' HN' P2 X) as [L2 _]; [intros e' He; apply HK in He; lia|exact B|]. split; [lia|reflexivity]. }
    destruct R1 as (h' & C & A').
    assert (Y : is_tensor y) by exact (pipe_tensor _ _ _ _ _ P1 X E1).
    rewrite C. set (new1 := match h' with VNone => new_h | _ => new_h ++ [(i, h')] end).
    assert (E2 : match h' with VNone => Ok (y, new_h) | _ => Ok (y, new_h ++ [(i, h')]) end = Ok (y, new1)) by (unfold new1; destruct h'; reflexivity).
    rewrite E2. cbn [bind fst snd].
    assert (K1 : forall e, In e new1 -> fst e < S i).
    { intros e He. unfold new1 in He. destruct h'; try (apply HK in He; lia); apply in_app_or in He; destruct He as [He|[<-|[]]]; try (apply HK in He; lia); cbn; lia. }
    assert (V1 : vget new1 i = h').
    { unfold new1. destruct h'; try (rewrite vget_app_last by auto; rewrite Nat.eqb_refl; reflexivity). apply vget_fresh with i; auto. }
    assert (V2 : forall j, j < i -> vget new1 j = vget new_h j).
    { intros j J. unfold new1. destruct h'; auto; rewrite vget_app_last by auto; destruct (Nat.eqb_spec j i); auto; lia. }
    destruct (IH (S i) y new1 h2 HR' HN' P2 Y K1 B) as [L2 H2]. split; [lia|].
    destruct (pipe (flat_map layers_of l) y h2) as [[z hs2]|e]; cbn [rmap fst snd].
    + destruct H2 as (nh & E3 & V3 & G3). exists nh. split; auto. split.
      * intros j J. rewrite V3 by lia. apply V2. auto.
      * cbn [gabs]. exists hs1, hs2. split; auto. split; auto. rewrite V3 by lia. rewrite V1. auto.
    + exact H2.
Qed.
Lemma all_refine : forall m, refines m.
Proof.
  apply module_ind2.
  - intros f _ HP x h hs X A. cbn in A. subst hs. cbn [layers_of length pipe]. split; auto.
    change (call_layer (forward (Layer f)) x h) with (call_layer f x h).
    destruct (call_layer f x h) as [[y h']|e]; cbn; auto. exists h'. auto.
  - intros l _ N. contradiction.
  - intros l HR N HP x h hs X A. apply no_sequential_multi in N. apply habs_multi in A. destruct A as (d & D & G).
    change (layers_of (MultiLayered l)) with (flat_map layers_of l) in *.
    destruct (ml_loop_refines d l 0 x [] hs HR N HP X (fun e (H : In e []) => match H with end) G) as [L R]. split; auto.
    assert (E : forward (MultiLayered l) x (hidden_arg h) = ml_loop d l 0 x []).
    { rewrite forward_multi. destruct D as [[-> ->]| ->]; reflexivity. }
    unfold call_layer. rewrite E. destruct (pipe (flat_map layers_of l) x hs) as [[y hs']|e] eqn:Ep.
    + destruct R as (nh & -> & _ & G'). destruct (pipe_tensor _ _ _ _ _ HP X Ep) as (t & ->).
      destruct nh as [|e nh].
      * exists VNone. split; auto. apply habs_multi. exists []. split; auto.
      * exists (VDict (e :: nh)). split; auto. apply habs_multi. exists (e :: nh). split; auto.
    + rewrite R. reflexivity.
Qed.
Lemma habs_fresh : forall m, no_sequential m -> habs m VNone (repeat VNone (length (layers_of m))).
Proof.
  apply (module_ind2 (fun m => no_sequential m -> habs m VNone (repeat VNone (length (layers_of m))))).
  - reflexivity.
  - intros l _ [].
  - intros l HF N. apply no_sequential_multi in N. apply habs_multi. exists []. split; auto. cbn [layers_of].
    cut (forall i, gabs [] l i (repeat VNone (length (flat_map layers_of l)))); auto.
    induction l as [|m l IH]; intros i; cbn [gabs flat_map]; [reflexivity|]. inversion HF as [|? ? A B]; subst. inversion N as [|? ? C D]; subst.
    exists (repeat VNone (length (layers_of m))), (repeat VNone (length (flat_map layers_of l))). rewrite app_length, repeat_app. split; auto.
Qed.

(* ---- StatefulModule ---- *)
Lemma stateful_forward_net (s : stateful T O) x s' r : stateful_forward s x = (s', r) -> s_net s' = s_net s.
Proof.
  unfold stateful_forward. destruct (forward (s_net s) x (hidden_arg (s_hidden s))) as [v|e].
  2:{ intros E; injection E as <- <-; auto. }
  destruct v as [t| |l|d|o]; try (intros E; injection E as <- <-; reflexivity).
  destruct l as [|a [|b [|c l]]]; intros E; injection E as <- <-; auto.
Qed.
Lemma stateful_run_net xs : forall (s : stateful T O) s' r, stateful_run s xs = (s', r) -> s_net s' = s_net s.
Proof.
  induction xs as [|x xs IH]; intros s s' r E; cbn in E.
  - injection E as <- <-; auto.
  - destruct (stateful_forward s x) as [s1 [y|e]] eqn:E1.
    + destruct (stateful_run s1 xs) as [s2 r2] eqn:E2. injection E as <- <-. rewrite (IH _ _ _ E2). eapply stateful_forward_net; eauto.
    + injection E as <- <-. eapply stateful_forward_net; eauto.
Qed.
(* for a module whose results are tensors or pairs, the stored state follows the hidden states of the layers *)
Lemma stateful_forward_call (s : stateful T O) x l : s_net s = MultiLayered l ->
  match call_layer (forward (s_net s)) x (s_hidden s) with
  | Ok (y, h') => stateful_forward s x = ({| s_hidden := h'; s_net := s_net s |}, Ok y)
  | Err e => forward (s_net s) x (hidden_arg (s_hidden s)) = Err e -> stateful_forward s x = (s, Err e)
  end.
Proof.
  intros E. unfold call_layer, stateful_forward. destruct (forward (s_net s) x (hidden_arg (s_hidden s))) as [v|e]; auto.
  destruct v as [t| |k|d|o]; try discriminate; auto. destruct k as [|a [|b [|c k]]]; auto; discriminate.
Qed.

Lemma stateful_run_pipe l : no_sequential (MultiLayered l) -> Forall proper (layers_of (MultiLayered l)) ->
  forall xs h hs, Forall is_tensor xs -> habs (MultiLayered l) h hs ->
  snd (stateful_run {| s_hidden := h; s_net := MultiLayered l |} xs) = pipe_run (layers_of (MultiLayered l)) hs xs.
Proof.
  intros N P. set (m := MultiLayered l) in *.
  induction xs as [|x xs IH]; intros h hs HX A; [reflexivity|]. inversion HX as [|? ? X HX']; subst.
  destruct (all_refine m N P x h hs X A) as [_ R]. cbn [stateful_run pipe_run].
  pose proof (stateful_forward_call {| s_hidden := h; s_net := m |} x l eq_refl) as C. cbn [s_net s_hidden] in C.
  destruct (pipe (layers_of m) x hs) as [[y hs']|e]; cbn [bind fst snd].
  - destruct R as (h' & E & A'). rewrite E in C. rewrite C.
    specialize (IH h' hs' HX' A'). destruct (stateful_run {| s_hidden := h'; s_net := m |} xs) as [s2 r2]. cbn [snd] in *. rewrite IH. reflexivity.
  - rewrite R in C. rewrite C; [reflexivity|].
    (* the module itself raised: a MultiLayered module never returns anything but a tensor or a pair *)
    unfold m in *. apply no_sequential_multi in N. apply habs_multi in A. destruct A as (d & D & G).
    assert (HR : Forall refines l) by (apply Forall_forall; intros k _; apply all_refine).
    destruct (ml_loop_refines d l 0 x [] hs HR N P X (fun e (H : In e []) => match H with end) G) as [_ R2].
    assert (E : forward (MultiLayered l) x (hidden_arg h) = ml_loop d l 0 x []) by (rewrite forward_multi; destruct D as [[-> ->]| ->]; reflexivity).
    change (layers_of (MultiLayered l)) with (flat_map layers_of l) in *.
    destruct (pipe (flat_map layers_of l) x hs) as [[y hs']|e'] eqn:Ep.
    + exfalso. destruct R2 as (nh & E2 & _ & _). unfold call_layer in R. rewrite E, E2 in R.
      destruct (pipe_tensor _ _ _ _ _ P X Ep) as (t & ->). destruct nh; discriminate.
    + rewrite E, R2. unfold call_layer in R. rewrite E, R2 in R. congruence.
Qed.
End P.

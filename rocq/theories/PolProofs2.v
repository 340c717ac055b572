From Verif Require Import Prelude ObjProofs PolModel PolSpec PolProofs.

Section Heap.
  Context {row : Type}.
  Variable zero : row -> row.
  Variable poke : list Z -> row -> result row.
  Variable poke_single : sel -> row -> result row.
  Notation reset_tensors := (reset_tensors zero poke poke_single).
  Notation cell_reset := (cell_reset zero poke poke_single).

  (* visiting one tensor after the other *)
  Fixpoint reset_all (s : sel) (l : list nat) (h : heap row) : heap row * result unit :=
    match l with
    | [] => (h, Ok tt)
    | a :: t => match nth_error h a with
                | Some c => match cell_reset s c with Ok c => reset_all s t (upd h a c) | Err e => (h, Err e) end
                | None => (h, Err KeyError)
                end
    end.
  Lemma reset_all_app s l1 l2 : forall h, reset_all s (l1 ++ l2) h = match reset_all s l1 h with (h, Ok _) => reset_all s l2 h | (h, Err e) => (h, Err e) end.
  Proof. induction l1 as [|a l1 IH]; intros h; cbn; auto. destruct (nth_error h a); auto. destruct (cell_reset s c); auto. Qed.
  Lemma reset_tensors_all s t : forall h, reset_tensors s t h = reset_all s (leaves t) h.
  Proof.
    assert (Q : forall l, Forall (fun t => forall h, reset_tensors s t h = reset_all s (leaves t) h) l -> forall h,
      (fix go (l : list (tree nat)) (h : heap row) : heap row * result unit :=
         match l with [] => (h, Ok tt) | x :: r => match reset_tensors s x h with (h, Ok _) => go r h | (h, Err e) => (h, Err e) end end) l h = reset_all s (flat_map leaves l) h).
    { induction l as [|x l IH]; intros F h; [reflexivity|]. inversion F; subst. cbn [flat_map]. rewrite reset_all_app, H1. destruct (reset_all s (leaves x) h) as [h1 [u|e]]; auto. }
    induction t as [a| |l IH|l IH|] using tree_ind'; intros h; cbn; auto.
  Qed.
  Hypothesis zero_zero : forall r, zero (zero r) = zero r.
  (* a selection of whole rows *)
  Definition plain (s : sel) : Prop := match s with Tup (_ :: _ :: _) => False | _ => True end.
  Lemma cell_reset_plain s pos rows : plain s -> resolve (length rows) s = Ok pos -> cell_reset s (Batch rows) = Ok (Batch (clear zero pos rows)).
  Proof. intros P E. unfold PolModel.cell_reset. rewrite E. cbn. destruct s as [l|l|[|i [|j l]]]; auto. contradiction. Qed.
  Lemma reset_all_ok s n pos : plain s -> resolve n s = Ok pos -> forall l h, (forall a, In a l -> exists rows, nth_error h a = Some (Batch rows) /\ length rows = n) ->
    exists h', reset_all s l h = (h', Ok tt) /\ length h' = length h /\
      (forall a, ~ In a l -> nth_error h' a = nth_error h a) /\
      (forall a, In a l -> nth_error h' a = Some (Batch (clear zero pos (rows_of h a)))).
  Proof.
    intros P E. induction l as [|a l IH]; intros h H.
    - exists h. repeat split; auto. contradiction.
    - destruct (H a (or_introl eq_refl)) as (rows & Ea & Ln). cbn. rewrite Ea, (cell_reset_plain s pos) by (rewrite ?Ln; auto).
      assert (La : a < length h) by (eapply nth_lt; eauto).
      destruct (IH (upd h a (Batch (clear zero pos rows)))) as (h' & Er & Lh & Ho & Hi).
      + intros b Hb. rewrite nth_error_upd. destruct (Nat.eqb_spec a b) as [<-|N]; [|apply H; right; auto].
        apply Nat.ltb_lt in La. rewrite La. eexists. split; eauto. rewrite clear_length. auto.
      + exists h'. rewrite Er, Lh, upd_length. repeat split; auto.
        * intros b Hb. rewrite Ho by (intro; apply Hb; right; auto). apply upd_other. intros ->; apply Hb; left; auto.
        * intros b Hb. destruct (in_dec Nat.eq_dec b l) as [I|N].
          { rewrite Hi by auto. unfold rows_of. rewrite nth_error_upd. destruct (Nat.eqb_spec a b) as [<-|]; auto.
            apply Nat.ltb_lt in La. rewrite La, Ea, clear_clear by auto. reflexivity. }
          { destruct Hb as [<-|]; [|contradiction]. rewrite Ho by auto. unfold rows_of. rewrite Ea. apply upd_same. auto. }
  Qed.
  (* deepcopy *)
  Lemma index_of_nth a : forall l, In a l -> nth_error l (index_of a l) = Some a.
  Proof. induction l as [|b l IH]; cbn; [tauto|]. intros H. destruct (Nat.eqb_spec a b) as [->|N]; auto. cbn. apply IH. destruct H; congruence. Qed.
  Lemma fetch_all (h : heap row) : forall l, (forall a, In a l -> a < length h) -> forall k, nth_error (flat_map (fun a => match nth_error h a with Some c => [c] | None => [] end) l) k =
    match nth_error l k with Some a => nth_error h a | None => None end.
  Proof.
    induction l as [|a l IH]; intros H k; cbn; [destruct k; auto|]. destruct (nth_some h a) as (c & Ec); [apply H; left; auto|]. rewrite Ec.
    destruct k as [|k]; cbn; auto. apply IH. intros; apply H; right; auto.
  Qed.
  Lemma deepcopy_ok t (h : heap row) h' t' : (forall a, In a (leaves t) -> a < length h) -> deepcopy t h = (h', t') ->
    exists g, t' = tmap g t /\ (forall a, In a (leaves t) -> length h <= g a /\ g a < length h' /\ nth_error h' (g a) = nth_error h a) /\
      (forall a, a < length h -> nth_error h' a = nth_error h a) /\ length h <= length h'.
  Proof.
    intros H E. unfold deepcopy in E. injection E as <- <-. eexists. split; [reflexivity|]. set (l := nodup Nat.eq_dec (leaves t)).
    assert (Hl : forall a, In a l <-> In a (leaves t)) by (intros; apply nodup_In).
    repeat split.
    - lia.
    - destruct (nth_some h a (H a H0)) as (c & Ec).
      assert (X : nth_error (h ++ flat_map (fun a => match nth_error h a with Some c => [c] | None => [] end) l) (length h + index_of a l) = Some c).
      { rewrite nth_error_app2 by lia. replace (length h + index_of a l - length h) with (index_of a l) by lia. rewrite fetch_all by (intros; apply H, Hl; auto).
        rewrite index_of_nth by (apply Hl; auto). auto. }
      eapply nth_lt. exact X.
    - rewrite nth_error_app2 by lia. replace (length h + index_of a l - length h) with (index_of a l) by lia. rewrite fetch_all by (intros; apply H, Hl; auto).
      rewrite index_of_nth by (apply Hl; auto). reflexivity.
    - intros a Ha. apply nth_error_app1. auto.
    - rewrite app_length. lia.
  Qed.
  (* the state after a reset of some rows *)
  Lemma reset_some_ok p t s n pos copy (h : heap row) : plain s -> resolve n s = Ok pos -> state p = Some t ->
    (forall a, In a (leaves t) -> exists rows, nth_error h a = Some (Batch rows) /\ length rows = n) ->
    exists h' g, reset zero poke poke_single p (Some s) copy h = (h', Policy (params p) (Some (tmap g t)), Ok tt) /\ length h <= length h' /\
      (forall a, In a (leaves t) -> nth_error h' (g a) = Some (Batch (clear zero pos (rows_of h a)))) /\
      (forall a, a < length h -> copy = true \/ ~ In a (leaves t) -> nth_error h' a = nth_error h a) /\
      (forall a, In a (leaves t) -> if copy then length h <= g a else g a = a).
  Proof.
    intros P E Et H. cbn. rewrite Et. destruct copy.
    - assert (Hl : forall a, In a (leaves t) -> a < length h) by (intros a Ha; destruct (H a Ha) as (rows & X & _); eapply nth_lt; eauto).
      destruct (deepcopy t h) as [h1 t1] eqn:Ed. destruct (deepcopy_ok t h h1 t1 Hl Ed) as (g & -> & Hg & Ho & Ll).
      rewrite reset_tensors_all, leaves_tmap.
      destruct (reset_all_ok s n pos P E (map g (leaves t)) h1) as (h2 & Er & L2 & O2 & I2).
      { intros b Hb. apply in_map_iff in Hb. destruct Hb as (a & <- & Ha). destruct (H a Ha) as (rows & X & Y). exists rows. split; auto. rewrite (proj2 (proj2 (Hg a Ha))). auto. }
      rewrite Er. exists h2, g. repeat split; auto.
      + lia.
      + intros a Ha. rewrite I2 by (apply in_map; auto). unfold rows_of. rewrite (proj2 (proj2 (Hg a Ha))). reflexivity.
      + intros a Ha _. rewrite O2, Ho; auto. intros Hi. apply in_map_iff in Hi. destruct Hi as (b & Eb & Hb). destruct (Hg b Hb). lia.
      + intros a Ha. apply Hg. auto.
    - rewrite reset_tensors_all. destruct (reset_all_ok s n pos P E (leaves t) h) as (h2 & Er & L2 & O2 & I2); auto. rewrite Er.
      exists h2, (fun a => a). repeat split; auto.
      + rewrite tmap_id. reflexivity.
      + lia.
      + intros a Ha [X|X]; [discriminate|]. apply O2; auto.
  Qed.
End Heap.

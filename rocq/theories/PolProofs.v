From Verif Require Import Prelude ScoreProofs ObjProofs PolModel PolSpec.

Lemma tree_ind' {A} (P : tree A -> Prop) : (forall a, P (Tensor a)) -> P Text -> (forall l, Forall P l -> P (Mapping l)) -> (forall l, Forall P l -> P (Iter l)) ->
  P Other -> forall t, P t.
Proof.
  intros HT HX HM HI HO. fix IH 1. intros [a| |l|l|]; [apply HT|exact HX| | |exact HO].
  - apply HM. induction l; constructor; auto.
  - apply HI. induction l; constructor; auto.
Qed.
Lemma tmap_tmap {A B C} (f : B -> C) (g : A -> B) t : tmap f (tmap g t) = tmap (fun a => f (g a)) t.
Proof. induction t as [a| |l IH|l IH|] using tree_ind'; cbn; auto; f_equal; rewrite map_map; apply map_ext_in; rewrite Forall_forall in IH; auto. Qed.
Lemma tmap_id {A} (t : tree A) : tmap (fun a => a) t = t.
Proof. induction t as [a| |l IH|l IH|] using tree_ind'; cbn; auto; f_equal; induction l; cbn; auto; inversion IH; subst; f_equal; auto. Qed.
Lemma leaves_tmap {A B} (f : A -> B) t : leaves (tmap f t) = map f (leaves t).
Proof.
  induction t as [a| |l IH|l IH|] using tree_ind'; cbn; auto; induction l; cbn; auto; inversion IH; subst; rewrite map_app; f_equal; auto.
Qed.
Lemma tmap_ext {A B} (f g : A -> B) t : (forall a, In a (leaves t) -> f a = g a) -> tmap f t = tmap g t.
Proof.
  induction t as [a| |l IH|l IH|] using tree_ind'; cbn; intros H; auto; f_equal; auto; apply map_ext_in; rewrite Forall_forall in IH; intros x Hx; apply IH; auto;
    intros a Ha; apply H; apply in_flat_map; eauto.
Qed.
Lemma only_tmap {A B} (f : A -> B) t : tensors_only (tmap f t) = tensors_only t.
Proof. induction t as [a| |l IH|l IH|] using tree_ind'; cbn; auto; induction l; cbn; auto; inversion IH; subst; f_equal; auto. Qed.
Lemma tsequence_ok {A B} (f : A -> result B) g t : (forall a, In a (leaves t) -> f a = Ok (g a)) -> tsequence (tmap f t) = Ok (tmap g t).
Proof.
  assert (Q : forall l, Forall (fun t => (forall a, In a (leaves t) -> f a = Ok (g a)) -> tsequence (tmap f t) = Ok (tmap g t)) l ->
              (forall a, In a (flat_map leaves l) -> f a = Ok (g a)) -> sequence (map tsequence (map (tmap f) l)) = Ok (map (tmap g) l)).
  { induction l as [|x l IH]; intros F H; [reflexivity|]. cbn. inversion F; subst. rewrite H2 by (intros; apply H; cbn; apply in_app_iff; auto).
    rewrite IH; auto. intros; apply H; cbn; apply in_app_iff; auto. }
  induction t as [a| |l IH|l IH|] using tree_ind'; cbn; intros H; auto.
  - rewrite H by auto. reflexivity.
  - rewrite Q; auto.
  - rewrite Q; auto.
Qed.

(* ---- selections ---- *)
Lemma int_index_spec n z : (- Z.of_nat n <= z < Z.of_nat n)%Z ->
  exists k, int_index n z = Ok k /\ k < n /\ forall i, i < n -> ((z = Z.of_nat i \/ z = Z.of_nat i - Z.of_nat n)%Z <-> k = i).
Proof.
  intros H. unfold int_index. assert (((- Z.of_nat n <=? z) && (z <? Z.of_nat n))%Z = true) as -> by lia.
  eexists. split; [reflexivity|]. destruct (z <? 0)%Z eqn:E; split; try lia; intros; lia.
Qed.
Lemma trues_nth l : forall k j i, nth_error (trues k l) j = Some i <-> k <= i /\ nth_error l (i - k) = Some true /\ count_occ Bool.bool_dec (firstn (i - k) l) true = j.
Proof.
  induction l as [|b l IH]; intros k j i; cbn [trues].
  - destruct j; (split; [discriminate|intros (_ & H & _); destruct (i - k); discriminate]).
  - destruct b.
    + destruct j as [|j].
      * cbn [nth_error]. split.
        { intros E. injection E as ->. rewrite Nat.sub_diag. auto. }
        { intros (L & H & C). destruct (Nat.eq_dec k i) as [->|N]; auto. replace (i - k) with (S (i - S k)) in C by lia. discriminate. }
      * cbn [nth_error]. rewrite IH. split.
        { intros (L & H & C). replace (i - k) with (S (i - S k)) by lia. cbn. rewrite C. repeat split; auto. lia. }
        { intros (L & H & C). destruct (Nat.eq_dec k i) as [->|N]; [rewrite Nat.sub_diag in C; discriminate|]. replace (i - k) with (S (i - S k)) in H, C by lia.
          cbn in H, C. injection C as C. repeat split; auto. lia. }
    + rewrite IH. split.
      { intros (L & H & C). replace (i - k) with (S (i - S k)) by lia. cbn. repeat split; auto. lia. }
      { intros (L & H & C). destruct (Nat.eq_dec k i) as [->|N]; [rewrite Nat.sub_diag in H; discriminate|]. replace (i - k) with (S (i - S k)) in H, C by lia.
        cbn in H, C. repeat split; auto. lia. }
Qed.
Lemma trues_length l : forall k, length (trues k l) = count_occ Bool.bool_dec l true.
Proof. induction l as [|[] l IH]; intros k; cbn; auto. Qed.
Lemma resolve_valid n s : valid n s -> exists pos, resolve n s = Ok pos /\ length pos = width s /\ (forall j i, nth_error pos j = Some i <-> selects n s j i) /\ Forall (fun i => i < n) pos.
Proof.
  intros V. destruct V as [l F|l L].
  - assert (Q : exists pos, sequence (map (int_index n) l) = Ok pos /\ length pos = length l /\ Forall (fun i => i < n) pos /\
        forall j i, nth_error pos j = Some i <-> exists z, nth_error l j = Some z /\ i < n /\ (z = Z.of_nat i \/ z = Z.of_nat i - Z.of_nat n)%Z).
    { induction l as [|z l IH].
      - exists []. repeat split; auto; [destruct j; discriminate|intros (z & H & _); destruct j; discriminate].
      - destruct IH as (pos & E & L & Fp & N); [inversion F; auto|]. destruct (int_index_spec n z) as (k & Ek & Hk & Hi); [inversion F; auto|].
        exists (k :: pos). cbn. rewrite Ek, E. repeat split; cbn; auto.
        + destruct j as [|j]; cbn; [|apply N]. intros X. injection X as <-. exists z. repeat split; auto. apply Hi; auto.
        + destruct j as [|j]; cbn; [|apply N]. intros (z' & X & Li & D). injection X as <-. f_equal. apply Hi; auto. }
    destruct Q as (pos & E & L & Fp & N). exists pos. repeat split; auto.
    + intros H. apply N in H. destruct H as (z & A & B & C). econstructor; eauto.
    + intros H. inversion H; subst. apply N. eauto.
  - exists (trues 0 l). cbn. rewrite (proj2 (Nat.eqb_eq _ _) L). repeat split; auto using trues_length.
    + intros H. apply trues_nth in H. rewrite Nat.sub_0_r in H. destruct H as (_ & A & <-). constructor. auto.
    + intros H. inversion H; subst. apply trues_nth. rewrite Nat.sub_0_r. repeat split; auto. lia.
    + apply Forall_forall. intros i Hi. apply In_nth_error in Hi. destruct Hi as (j & Hj). apply trues_nth in Hj. destruct Hj as (_ & A & _). rewrite Nat.sub_0_r in A. apply nth_lt in A. lia.
Qed.
Lemma selected_dec n s pos i : resolve n s = Ok pos -> (forall j i, nth_error pos j = Some i <-> selects n s j i) -> selected n s i <-> In i pos.
Proof.
  intros E N. split.
  - intros (j & H). apply N in H. eapply nth_error_In; eauto.
  - intros H. apply In_nth_error in H. destruct H as (j & H). exists j. apply N. auto.
Qed.

(* ---- writing into rows ---- *)
Section Rows.
  Context {row : Type}.
  Variable zero : row -> row.
  Definition clear (pos : list nat) (rows : list row) : list row :=
    fold_left (fun rs k => match nth_error rs k with Some r => upd rs k (zero r) | None => rs end) pos rows.
  Lemma clear_length pos : forall rows, length (clear pos rows) = length rows.
  Proof. induction pos as [|k pos IH]; intros rows; cbn; auto. rewrite IH. destruct (nth_error rows k); auto. apply upd_length. Qed.
  Lemma clear_out pos : forall rows i, ~ In i pos -> nth_error (clear pos rows) i = nth_error rows i.
  Proof.
    induction pos as [|k pos IH]; intros rows i H; cbn; auto. rewrite IH by (intro; apply H; right; auto).
    destruct (nth_error rows k); auto. apply upd_other. intro; apply H; left; auto.
  Qed.
  Hypothesis zero_zero : forall r, zero (zero r) = zero r.
  Lemma clear_in pos : forall rows i, In i pos -> nth_error (clear pos rows) i = option_map zero (nth_error rows i).
  Proof.
    induction pos as [|k pos IH]; intros rows i H; [contradiction|]. cbn.
    destruct (in_dec Nat.eq_dec i pos) as [I|N].
    - rewrite IH by auto. destruct (nth_error rows k) as [r|] eqn:E; auto. rewrite nth_error_upd. destruct (Nat.eqb_spec k i) as [->|]; auto.
      rewrite E. assert (i < length rows) as L by (eapply nth_lt; eauto). apply Nat.ltb_lt in L. rewrite L. cbn. f_equal. auto.
    - destruct H as [->|]; [|contradiction]. rewrite clear_out by auto. destruct (nth_error rows i) as [r|] eqn:E; [|auto]. cbn. apply upd_same. eapply nth_lt; eauto.
  Qed.
  Lemma clear_clear pos rows : clear pos (clear pos rows) = clear pos rows.
  Proof.
    apply nth_error_ext. intros i. destruct (in_dec Nat.eq_dec i pos) as [I|N].
    - rewrite !clear_in by auto. destruct (nth_error rows i); cbn; congruence.
    - rewrite !clear_out by auto. reflexivity.
  Qed.
End Rows.
Section Rows2.
  Context {row : Type}.
  Definition put_rows (pos : list nat) (vs : list row) (rows : list row) : list row := fold_left (fun rs kv => upd rs (fst kv) (snd kv)) (combine pos vs) rows.
  Lemma put_length pos : forall vs rows, length (put_rows pos vs rows) = length rows.
  Proof. unfold put_rows. induction pos as [|k pos IH]; intros [|v vs] rows; cbn; auto. rewrite IH. apply upd_length. Qed.
  Lemma put_out pos : forall vs rows i, ~ In i pos -> nth_error (put_rows pos vs rows) i = nth_error rows i.
  Proof.
    unfold put_rows. induction pos as [|k pos IH]; intros [|v vs] rows i H; cbn; auto. rewrite IH by (intro; apply H; right; auto). apply upd_other. intro; apply H; left; auto.
  Qed.
  Lemma put_in pos : forall vs rows i, In i pos -> length vs = length pos -> i < length rows ->
    exists j, nth_error pos j = Some i /\ (forall j', j < j' -> nth_error pos j' <> Some i) /\ nth_error (put_rows pos vs rows) i = nth_error vs j.
  Proof.
    induction pos as [|k pos IH]; intros [|v vs] rows i H L Li; try contradiction; try discriminate. cbn in L. injection L as L.
    destruct (in_dec Nat.eq_dec i pos) as [I|N].
    - destruct (IH vs (upd rows k v) i I L) as (j & A & B & C); [rewrite upd_length; auto|]. exists (S j). repeat split; auto.
      intros [|j'] Hj; [lia|]. cbn. apply B. lia.
    - destruct H as [->|]; [|contradiction]. exists 0. repeat split; auto.
      + intros [|j'] Hj; [lia|]. cbn. intros X. apply N. eapply nth_error_In; eauto.
      + change (put_rows (i :: pos) (v :: vs) rows) with (put_rows pos vs (upd rows i v)). rewrite put_out by auto. rewrite upd_same by auto. reflexivity.
  Qed.
  Lemma broadcast_ok (v : cell row) k : fits v k -> exists vs, broadcast v k = Ok vs /\ length vs = k /\ forall j, j < k -> nth_error vs j = value v j.
  Proof.
    assert (R : forall (r : row) k j, j < k -> nth_error (repeat r k) j = Some r).
    { intros r. induction k0 as [|k0 IH]; intros [|j] H; cbn; try lia; auto. apply IH. lia. }
    destruct v as [r|[|r [|r' l]]]; unfold broadcast, fits, value.
    - exists (repeat r k). repeat split; auto using repeat_length.
    - intros [H|H]; [discriminate|]. subst. exists []. repeat split; auto.
    - exists (repeat r k). repeat split; auto using repeat_length.
    - intros [H|H]; [discriminate|]. rewrite (proj2 (Nat.eqb_eq _ _) H). eexists. repeat split; auto.
  Qed.
  Definition rows_of (h : heap row) (a : nat) : list row := match nth_error h a with Some (Batch l) => l | _ => [] end.
  (* transposition of the results of the networks *)
  Lemma transpose_length w (l : list (list row)) : Forall (fun r => length r = w) l -> length (transpose w l) = w.
  Proof. induction l as [|x l IH]; intros F; cbn; [apply repeat_length|]. inversion F; subst. rewrite map2_length, IH; auto. lia. Qed.
  Lemma transpose_nth w (l : list (list row)) d k : Forall (fun r => length r = w) l -> k < w -> nth_error (transpose w l) k = Some (map (fun r => nth k r d) l).
  Proof.
    intros F Hk. induction l as [|x l IH]; cbn.
    - clear F. revert w Hk. induction k as [|k IH]; intros [|w] H; cbn; try lia; auto. apply IH; lia.
    - inversion F; subst. rewrite map2_nth_error, IH by auto. rewrite (nth_error_nth' x d) by auto. reflexivity.
  Qed.
End Rows2.

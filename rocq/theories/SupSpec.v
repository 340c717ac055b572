(* What minibatch sampling should do: one stream of minibatches, the epochs one after the other, from which every draw takes the next
   minibatch; the loss of a network on some minibatches is the mean. *)
From Coq Require Import QArith.
From Verif Require Import Prelude SupModel.
Close Scope Q_scope.
Open Scope nat_scope.

Definition qsum (l : list Q) : Q := fold_right Qplus 0%Q l.
Definition mean_loss {B N} (loss : N -> B -> Q) (net : N) (bs : list B) : Q :=
  (qsum (map (loss net) bs) / inject_Z (Z.of_nat (length bs)))%Q.
(* [stream] is the concatenation of all epochs *)
Definition is_stream {B} (epoch : nat -> list B) (stream : nat -> B) : Prop :=
  forall m i b, nth_error (concat (map epoch (seq 0 m))) i = Some b -> stream i = b.

Section S.
Variables B N : Type.
Variable loss : N -> B -> Q.
Variable stream : nat -> B.
Variable n : nat.
Definition draws (pos : nat) : list B := map stream (seq pos n).
(* what each operation should give, and the new position in the stream *)
Inductive spec_step (common : bool) : nat -> sup_op N -> nat -> sup_out B -> Prop :=
| spec_get pos : spec_step common pos GetMinibatch (S pos) (OutBatch (Ok (stream pos)))
| spec_common pos nets qs : common = true -> Forall2 Qeq qs (map (fun net => mean_loss loss net (draws pos)) nets) ->
    spec_step common pos (Evaluate nets) (pos + n) (OutLosses (Ok qs))
| spec_separate pos nets qs : common = false ->
    Forall2 Qeq qs (map2 (fun i net => mean_loss loss net (draws (pos + i * n))) (seq 0 (length nets)) nets) ->
    spec_step common pos (Evaluate nets) (pos + length nets * n) (OutLosses (Ok qs)).
Inductive spec_run (common : bool) : nat -> list (sup_op N) -> list (sup_out B) -> Prop :=
| spec_nil pos : spec_run common pos [] []
| spec_cons pos op pos' o ops os : spec_step common pos op pos' o -> spec_run common pos' ops os -> spec_run common pos (op :: ops) (o :: os).
End S.

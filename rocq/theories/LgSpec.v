(* What should be printed once the logger is configured. *)
From Verif Require Import Prelude LgModel.

(* handlers are different objects, made before now *)
Definition logger_ok (s : logger) : Prop := NoDup (map h_id (l_handlers s)) /\ forall h, In h (l_handlers s) -> h_id h < l_next s.
Definition line (show_process show_lineno : bool) : list field :=
  match show_process, show_lineno with
  | true, true => [Asctime; Levelname; Process; FilenameLineno; Message]
  | true, false => [Asctime; Levelname; Process; LoggerName; Message]
  | false, true => [Asctime; Levelname; FilenameLineno; Message]
  | false, false => [Asctime; Levelname; LoggerName; Message]
  end.
(* a message appears once: on stdout below the level WARNING (30), on stderr from there *)
Inductive printed (logger_level : nat) (show_process show_lineno : bool) (level : nat) : list (target * list field) -> Prop :=
| printed_nothing : level < logger_level -> printed logger_level show_process show_lineno level []
| printed_stdout : logger_level <= level -> level < 30 -> printed logger_level show_process show_lineno level [(Stdout, line show_process show_lineno)]
| printed_stderr : logger_level <= level -> 30 <= level -> printed logger_level show_process show_lineno level [(Stderr, line show_process show_lineno)].
(* every second element *)
Fixpoint every_second {A} (l : list A) : list A := match l with x :: y :: r => y :: every_second r | _ => [] end.
Fixpoint times {A} (n : nat) (f : A -> A) (x : A) : A := match n with O => x | S n => f (times n f x) end.
Definition unconfigured (s : logger) : Prop := l_handlers s = [] /\ (l_propagate s = false \/ l_above s = []).

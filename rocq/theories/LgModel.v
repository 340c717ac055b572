(* Model of the configuration of the Python logger: misc.py:2072-2139 set_default_logger_config, and of the part of the
   logging module which it uses (handlers, filters, propagation, levels).
   Simplifications: all ancestors of the logger are one list of handlers and one level, and each of them propagates; the text
   of a line is the list of its fields; the warning about an existing configuration is a message of level WARNING. *)
From Verif Require Import Prelude.

Inductive field := Asctime | Levelname | Process | FilenameLineno | LoggerName | Message.
Inductive target := Stdout | Stderr | Foreign.
(* the filters which occur: misc.py:2130, 2135, or none *)
Inductive filter_kind := BelowWarning | FromWarning | AnyLevel.
(* objects have an identity *)
Record handler := mkH { h_id : nat; h_target : target; h_filter : filter_kind; h_fields : list field }.
Record logger := mkL { l_handlers : list handler; l_level : nat; l_propagate : bool; l_next : nat;
                       l_above : list handler; l_level_above : nat }.
Definition WARNING : nat := 30.
Definition accepts (h : handler) (level : nat) : bool :=
  match h_filter h with BelowWarning => level <? WARNING | FromWarning => WARNING <=? level | AnyLevel => true end.

(* logging: Logger.getEffectiveLevel, isEnabledFor, callHandlers *)
Definition effective_level (s : logger) : nat := if l_level s =? 0 then l_level_above s else l_level s.
Definition emit (s : logger) (level : nat) : list (target * list field) :=
  if effective_level s <=? level
  then map (fun h => (h_target h, h_fields h))
           (filter (fun h => accepts h level) (l_handlers s ++ (if l_propagate s then l_above s else [])))
  else [].
(* logging: Logger.hasHandlers *)
Definition has_handlers (s : logger) : bool :=
  match l_handlers s with _ :: _ => true | [] => l_propagate s && match l_above s with [] => false | _ => true end end.
(* logging: Logger.removeHandler *)
Fixpoint remove_handler (h : handler) (hs : list handler) : list handler :=
  match hs with [] => [] | x :: r => if h_id x =? h_id h then r else x :: remove_handler h r end.
(* misc.py:2111-2112: for handler in logger.handlers: logger.removeHandler(handler); the list changes during the loop *)
Fixpoint remove_loop (fuel i : nat) (hs : list handler) : list handler :=
  match fuel with
  | O => hs
  | S fuel => match nth_error hs i with None => hs | Some h => remove_loop fuel (S i) (remove_handler h hs) end
  end.
(* misc.py:2117-2125 the formatter *)
Definition format (show_process show_lineno : bool) : list field :=
  [Asctime; Levelname] ++ (if show_process then [Process] else []) ++ [if show_lineno then FilenameLineno else LoggerName] ++ [Message].
(* misc.py:2072-2139 set_default_logger_config: the new state and what was printed meanwhile *)
Definition set_default_logger_config (s : logger) (logger_level : nat) (show_process show_lineno override : bool)
  : logger * list (target * list field) :=
  if negb override && has_handlers s then (s, emit s WARNING)
  else
    let hs := if override then remove_loop (length (l_handlers s)) 0 (l_handlers s) else l_handlers s in
    let f := format show_process show_lineno in
    let out := mkH (l_next s) Stdout BelowWarning f in
    let err := mkH (S (l_next s)) Stderr FromWarning f in
    (mkL (hs ++ [out; err]) logger_level false (S (S (l_next s))) (l_above s) (l_level_above s), []).
(* repeated calls *)
Definition override_call (logger_level : nat) (show_process show_lineno : bool) (s : logger) : logger :=
  fst (set_default_logger_config s logger_level show_process show_lineno true).

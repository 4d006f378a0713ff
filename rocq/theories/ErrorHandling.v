(** Model of the exception-behaviour switch, src/error_handling/exceptions.hh:58-92 and exceptions.cc:53-62.
    [behavior] is a variable in an UNNAMED namespace of a header, so every translation unit that includes it has its own
    copy.  The setters and the query live in exceptions.cc and use that file's copy.  Jali_throw is a function template:
    its instantiation (whichever one the linker keeps) belongs to a translation unit that calls it, and exceptions.cc does
    not call it (exceptions.cc:48-62). *)
From Verif Require Import Base.

(** enum Exception_action, exceptions.hh:62-66 *)
Inductive action := RAISE | ABORT.
(** translation units: exceptions.cc and all the others *)
Inductive tu := ExceptionsCc | OtherTu (n : nat).
(** one copy of [behavior] per translation unit, initialised to RAISE, exceptions.hh:77-79 *)
Definition copies := tu -> action.
Definition initial : copies := fun _ => RAISE.

(** set_exception_behavior_raise / _abort / set_exception_behavior(action), exceptions.cc:53-55 *)
Definition set_behavior (c : copies) (a : action) : copies :=
  fun t => match t with ExceptionsCc => a | OtherTu _ => c t end.
(** exception_behavior(), exceptions.cc:57-60 *)
Definition exception_behavior (c : copies) : action := c ExceptionsCc.
Inductive throw_result := Raised | Aborted.
(** Jali_throw, exceptions.hh:84-92, as instantiated in translation unit [OtherTu n] *)
Definition Jali_throw (c : copies) (n : nat) : throw_result := match c (OtherTu n) with RAISE => Raised | ABORT => Aborted end.

(** a history of setter calls *)
Definition run_setters (l : list action) : copies := fold_left set_behavior l initial.

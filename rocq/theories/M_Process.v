(** The process from its command line to its exit code: /repo/src/main.rs:11-49 with
    the command line of M_Inline.v. *)
From Verif Require Import Base M_Data M_Output M_Args M_Inline.
From Verif Require M_Script.
From Coq Require Import String.
Import M_Script(settings, s_inputs, s_output).

(** /repo/src/main.rs:11-49.  [Options::parse] ends the process when the command line
    is not accepted, with exit code 0 after a help or version text and 2 otherwise;
    [help] tells which.  [None] stands for a panic. *)
Definition process {F} (pr : profile) (pf : string -> option F) (three : F) (cores : N) (help : list string -> bool)
  (e : surroundings (settings F)) (words : list string) : option nat * list effect :=
  match options_parse_inline pr pf three cores words with
  | Ok o => run s_inputs s_output e o
  | Err _ => (Some (if help words then 0 else 2), [])
  | Panic => (None, [])
  end.

(** Model of the whole program: necessist/src/main.rs:16-32. *)
From Verif Require Import Base M_Text M_Span M_Run M_Options M_Cli M_Main.
From Verif Require M_Skill.

Section Program.
Context {V : Type} (yaml : text -> option M_Skill.header) (semver : text -> option V) (vcmp : V -> V -> comparison)
        (vshow : V -> text) (pshow : path -> text) (builtin_skill : text) (builtin_version : V)
        (hash16 : text -> text) (default_toml : text) (g : setting).

(** [main]: clap ends the program itself for --help and --version (0) and for usage errors (2); logging is not modelled.
    The words are those after the program's name. *)
Definition program (words : list text) (k : disk) : answer :=
  match command_line words with
  | Run o sel => necessist yaml semver vcmp vshow pshow builtin_skill builtin_version hash16 default_toml g o sel k
  | Info => done (Ok true)
  | Usage => done (Err tt)
  end.
End Program.

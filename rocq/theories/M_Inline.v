(** The command line with the inline forms of [clap]: --name=value, -nVALUE, -n=VALUE,
    joined short switches (-ag, -agt5s) and the final "--". *)
From Verif Require Import Base.
From Verif Require Import M_Script M_Args.
From Coq Require Import String Ascii.
Notation length := Datatypes.length.
Notation get := Base.get.
Open Scope string_scope.
Open Scope list_scope.

(** The part before the first equals sign, and the part after it. *)
(** /repo/src/main.rs:29 ([clap]: --name=value). *)
Fixpoint cut (s : string) : string * option string :=
  match s with
  | "" => ("", None)
  | String c t => if Ascii.eqb c "=" then ("", Some t) else let (n, v) := cut t in (String c n, v)
  end.

(** The declaration with this long name. *)
(** /repo/src/options.rs:8-44. *)
Definition long_arg (name : string) : option arg := find (fun a => String.eqb name (arg_long a)) declared.
(** The declaration with this short name. *)
(** /repo/src/options.rs:8-44. *)
Definition short_arg (c : ascii) : option arg :=
  find (fun a => match arg_short a with Some s => String.eqb (String "-" (String c "")) s | None => false end) declared.

(** The letters behind a single dash: switches, and possibly an argument with the text
    that follows it. *)
(** /repo/src/main.rs:29 ([clap]: joined short names). *)
Fixpoint cluster (s : string) : option (list field * option (field * string)) :=
  match s with
  | "" => Some ([], None)
  | String c t =>
      match short_arg c with
      | None => None
      | Some a =>
          match arg_takes a with
          | Switch => match cluster t with Some (fs, p) => Some (arg_field a :: fs, p) | None => None end
          | _ => Some ([], Some (arg_field a, t))
          end
      end
  end.

(** An attached value may follow an equals sign. *)
(** /repo/src/main.rs:29 ([clap]: -n=VALUE). *)
Definition attached (s : string) : string := match s with String c t => if Ascii.eqb c "=" then t else s | "" => "" end.

(** Switches have no value. *)
(** /repo/src/options.rs:6-44. *)
Definition on (f : field) : field * string := (f, "").

(** What a word of the command line says: [--] alone, one argument that still needs its
    value in the next word (after some switches), or all of its arguments. *)
(** /repo/src/main.rs:29 ([clap]'s reading of one word). *)
Inductive reading := Dashes | Needs (before : list (field * string)) (f : field) | Says (m : list (field * string)).
(** /repo/src/main.rs:29 [Options::parse]: one word. *)
Definition read_word (w : string) : option reading :=
  match w with
  | String d (String d' name) =>
      if negb (Ascii.eqb d "-") then None
      else if Ascii.eqb d' "-" then
        if String.eqb name "" then Some Dashes
        else
          let (n, inline) := cut name in
          match long_arg (String "-" (String "-" n)) with
          | None => None
          | Some a =>
              match arg_takes a, inline with
              | Switch, Some _ => None
              | Switch, None => Some (Says [on (arg_field a)])
              | _, Some v => Some (Says [(arg_field a, v)])
              | _, None => Some (Needs [] (arg_field a))
              end
          end
      else
        match cluster (String d' name) with
        | None => None
        | Some (fs, None) => Some (Says (map on fs))
        | Some (fs, Some (f, "")) => Some (Needs (map on fs) f)
        | Some (fs, Some (f, t)) => Some (Says (map on fs ++ [(f, attached t)]))
        end
  | _ => None
  end.
(** /repo/src/main.rs:29 [Options::parse], the words of the command line. *)
Fixpoint clap_items (words : list string) : option (list (field * string)) :=
  match words with
  | [] => Some []
  | w :: rest =>
      match read_word w with
      | None => None
      | Some Dashes => match rest with [] => Some [] | _ => None end
      | Some (Says m) => option_map (fun m' => m ++ m') (clap_items rest)
      | Some (Needs m f) =>
          match rest with
          | v :: rest' => if dashed v then None else option_map (fun m' => m ++ (f, v) :: m') (clap_items rest')
          | [] => None
          end
      end
  end.

(** No argument but [--input] is given twice. *)
(** /repo/src/options.rs:6-44. *)
Fixpoint once_b (m : list (field * string)) : bool :=
  match m with
  | [] => true
  | (f, _) :: t => ((if field_eq f FInput then true else negb (existsb (fun x => if field_eq (fst x) f then true else false) t)) && once_b t)%bool
  end.

(** /repo/src/main.rs:29, /repo/src/options.rs:3-45 [Options::parse]; like
    [options_parse] (M_Args.v), with the inline forms. *)
Definition options_parse_inline {F} (pr : profile) (pf : string -> option F) (three : F) (cores : N) (words : list string) : outcome (settings F) :=
  match clap_items words with
  | None => Err msg_usage
  | Some m =>
      if negb (once_b m) then Err msg_usage
      else
      let* e := valued m FExp (value_parser pf) (Ok three) in
      let* t := valued m FTimeout (parse_time pr) (parse_time pr "60s") in
      let* c := valued m FCsTimeout (parse_time pr) (parse_time pr "3s") in
      let* j := valued m FThreads (value_parser parse_u32) (Ok cores) in
      let* n := valued m FNeighbors (value_parser parse_u32) (Ok 12%N) in
      Ok (mkSettings (found m FInput) (match found m FOutput with [] => None | v :: _ => Some v end) (flagged m FAny) e t c
                     (flagged m FNoCs) (flagged m FNoCsSimp) j n (flagged m FGreedy))
  end.

(** The command line: the declarations of /repo/src/options.rs read the way the
    [clap] library reads them. *)
From Verif Require Import Base.
From Verif Require Import M_Script.
From Coq Require Import String Ascii.
Notation length := Datatypes.length.
Notation get := Base.get.
Open Scope string_scope.
Open Scope list_scope.

(** /repo/src/options.rs:6-44, the fields of [Options]. *)
Inductive field := FInput | FOutput | FAny | FExp | FTimeout | FCsTimeout | FNoCs | FNoCsSimp | FThreads | FNeighbors | FGreedy.
(** Equality of the fields. *)
(** /repo/src/options.rs:6-44. *)
Definition field_eq (a b : field) : {a = b} + {a <> b}.
Proof. decide equality. Defined.

(** What an argument takes, by the type of its field: a [Vec] any number of values,
    a [bool] none, everything else one value. *)
(** /repo/src/options.rs:6-44. *)
Inductive takes := Many | One | Switch.

(** One [#[arg(..)]] declaration. *)
(** /repo/src/options.rs:6-44. *)
Record arg := mkArg { arg_field : field; arg_short : option string; arg_long : string; arg_takes : takes }.

(** /repo/src/options.rs:8-44: the [short] and [long] names. *)
Definition declared : list arg :=
  [ mkArg FInput (Some "-i") "--input" Many;
    mkArg FOutput (Some "-o") "--output" One;
    mkArg FAny (Some "-a") "--any" Switch;
    mkArg FExp (Some "-p") "--pref-exp" One;
    mkArg FTimeout (Some "-t") "--timeout" One;
    mkArg FCsTimeout None "--cs-timeout" One;
    mkArg FNoCs None "--no-cs" Switch;
    mkArg FNoCsSimp None "--no-cs-simp" Switch;
    mkArg FThreads (Some "-j") "--threads" One;
    mkArg FNeighbors (Some "-n") "--max-neighbors" One;
    mkArg FGreedy (Some "-g") "--greedy" Switch ].

(** A word is the name of an argument. *)
(** /repo/src/options.rs:8-44. *)
Definition named (a : arg) (w : string) : bool :=
  (match arg_short a with Some s => String.eqb w s | None => false end || String.eqb w (arg_long a))%bool.

(** [clap] takes a word that starts with a dash for an option, not for a value. *)
(** /repo/src/options.rs:6-44 (no [allow_hyphen_values]). *)
Definition dashed (w : string) : bool :=
  match w with String "-" (String _ _) => true | _ => false end.

(** /repo/src/main.rs:29 [Options::parse], the words of the command line: every word
    is the name of a declared argument or the value of the one before; an argument
    other than [--input] is given at most once.  [None] covers the usage errors and
    the texts of [--help] and [--version], all of which end the program.
    Simplification: names and values are separate words ([--output=x], [-ox] and
    [-ag], which [clap] splits, are modelled in M_Inline.v). *)
Fixpoint clap_words (seen : list field) (words : list string) : option (list (field * string)) :=
  match words with
  | [] => Some []
  | w :: rest =>
      match find (fun a => named a w) declared with
      | None => None
      | Some a =>
          let f := arg_field a in
          match arg_takes a with
          | Switch => if in_dec field_eq f seen then None
                      else option_map (cons (f, "")) (clap_words (f :: seen) rest)
          | Many => match rest with
                    | v :: rest' => if dashed v then None else option_map (cons (f, v)) (clap_words seen rest')
                    | [] => None
                    end
          | One => if in_dec field_eq f seen then None
                   else match rest with
                        | v :: rest' => if dashed v then None else option_map (cons (f, v)) (clap_words (f :: seen) rest')
                        | [] => None
                        end
          end
      end
  end.

(** The values found for a field. *)
(** /repo/src/options.rs:6-44. *)
Definition found (m : list (field * string)) (f : field) : list string :=
  map snd (filter (fun x => if field_eq (fst x) f then true else false) m).

(** A [bool] field: given or not. *)
(** /repo/src/options.rs:6-44. *)
Definition flagged (m : list (field * string)) (f : field) : bool :=
  match found m f with [] => false | _ => true end.

(** A field with one value, or the default. *)
(** /repo/src/options.rs:6-44. *)
Definition valued {A} (m : list (field * string)) (f : field) (parse : string -> outcome A) (default : outcome A) : outcome A :=
  match found m f with [] => default | v :: _ => parse v end.

(** The usage error of [clap]. *)
(** /repo/src/main.rs:29. *)
Definition msg_usage : string := "usage".

(** A parser that may fail, as a value parser. *)
(** /repo/src/options.rs:17-41. *)
Definition value_parser {A} (p : string -> option A) (s : string) : outcome A :=
  match p s with Some x => Ok x | None => Err msg_usage end.

(** /repo/src/main.rs:29, /repo/src/options.rs:3-45 [Options::parse] with the
    defaults of the declarations.  [three] is 3.0 and [cores] is
    [default_thread_count()]. *)
Definition options_parse {F} (pr : profile) (pf : string -> option F) (three : F) (cores : N) (words : list string) : outcome (settings F) :=
  match clap_words [] words with
  | None => Err msg_usage
  | Some m =>
      let* e := valued m FExp (value_parser pf) (Ok three) in
      let* t := valued m FTimeout (parse_time pr) (parse_time pr "60s") in
      let* c := valued m FCsTimeout (parse_time pr) (parse_time pr "3s") in
      let* j := valued m FThreads (value_parser parse_u32) (Ok cores) in
      let* n := valued m FNeighbors (value_parser parse_u32) (Ok 12%N) in
      Ok (mkSettings (found m FInput) (match found m FOutput with [] => None | v :: _ => Some v end) (flagged m FAny) e t c
                     (flagged m FNoCs) (flagged m FNoCsSimp) j n (flagged m FGreedy))
  end.

(** /repo/src/options.rs:47-63 [Options::default]. *)
Definition default_options {F} (three : F) (cores : N) : settings F :=
  mkSettings [] None false three 60%Z 3%Z false false cores 12%N false.

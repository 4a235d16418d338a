(** Strings: fuzzy name lookup, decimal text. *)
From Verif Require Import Base.
From Coq Require Import Ascii String.
From Coq Require DecimalString.
Notation length := Datatypes.length.
Notation get := Base.get.

(** [value.split(' ')]: always at least one token. *)
(** Used at /repo/src/input/fuzzy_match.rs:32. *)
Fixpoint split_sp (s : string) : list string :=
  match s with
  | EmptyString => [EmptyString]
  | String c t =>
      if Ascii.eqb c " " then EmptyString :: split_sp t
      else match split_sp t with
           | [] => [String c EmptyString]
           | tok :: rest => String c tok :: rest
           end
  end.

(** [value.contains(key)] *)
(** Used at /repo/src/input/fuzzy_match.rs:48. *)
Fixpoint str_contains (key s : string) : bool :=
  String.prefix key s ||
  match s with EmptyString => false | String _ t => str_contains key t end.

(** [iter().enumerate().filter_map(|(i, v)| f(v).then_some(i))] *)
(** The loops of /repo/src/input/fuzzy_match.rs:27-50. *)
Fixpoint idx_filter {A} (f : A -> bool) (i : nat) (l : list A) : list nat :=
  match l with
  | [] => []
  | x :: t => if f x then i :: idx_filter f (S i) t else idx_filter f (S i) t
  end.

(** /repo/src/input/fuzzy_match.rs:19-25 [find_exact]. *)
Definition find_exact (key : string) (values : list string) : list nat :=
  idx_filter (fun v => String.eqb v key) 0 values.

(** /repo/src/input/fuzzy_match.rs:27-42 [find_by_token]. *)
Definition find_by_token (key : string) (values : list string) (only_first : bool) : list nat :=
  idx_filter (fun v => existsb (fun tok => String.eqb tok key)
                               (if only_first then firstn 1 (split_sp v) else split_sp v)) 0 values.

(** /repo/src/input/fuzzy_match.rs:44-50 [find_by_substring]. *)
Definition find_by_substring (key : string) (values : list string) : list nat :=
  idx_filter (fun v => str_contains key v) 0 values.

(** /repo/src/input/fuzzy_match.rs:4-17 [FuzzyMatch::find]. *)
Definition fuzzy_find (key : string) (values : list string) : list nat :=
  match find_exact key values with
  | (_ :: _) as m => m
  | [] => match find_by_token key values true with
          | (_ :: _) as m => m
          | [] => match find_by_token key values false with
                  | (_ :: _) as m => m
                  | [] => find_by_substring key values
                  end
          end
  end.

(** [i64::to_string] / [u32::to_string]. *)
(** Used at /repo/src/input/rhai_interface.rs:832. *)
Definition z_to_string (z : Z) : string := DecimalString.NilZero.string_of_int (Z.to_int z).
(** Used at /repo/src/input/input_builder.rs:129 (the part number) and by the counters of /repo/src/status.rs:242-245. *)
Definition n_to_string (n : N) : string := z_to_string (Z.of_N n).

(** [char::to_digit(10)], used by [parse] (/repo/src/options.rs:70-73,
    /repo/src/input/rhai_interface.rs:526, 534, 695). *)
Definition digit_val (c : ascii) : option N :=
  let n := N_of_ascii c in
  if (48 <=? n)%N && (n <=? 57)%N then Some (n - 48)%N else None.

(** The digit loop of Rust's integer parser: [None] on a non-digit or when the
    value exceeds [lim]. *)
(** Library code, called at /repo/src/input/constraint_builder.rs:351,
    /repo/src/input/rhai_interface.rs:526, 534, 695 and /repo/src/main.rs:18. *)
Fixpoint parse_digits (lim : N) (acc : N) (s : string) : option N :=
  match s with
  | EmptyString => Some acc
  | String c t =>
      match digit_val c with
      | None => None
      | Some v => let r := (acc * 10 + v)%N in
                  if (r <=? lim)%N then parse_digits lim r t else None
      end
  end.

(** [str::parse] for an unsigned type with maximum [lim]: optional [+], then at
    least one digit. *)
(** Called at /repo/src/input/constraint_builder.rs:351, /repo/src/input/rhai_interface.rs:526, 534 and /repo/src/main.rs:18. *)
Definition parse_unsigned (lim : N) (s : string) : option N :=
  match s with
  | EmptyString => None
  | String "+" t => match t with EmptyString => None | _ => parse_digits lim 0 t end
  | _ => parse_digits lim 0 s
  end.

(** [usize::MAX] (64 bit), for /repo/src/input/constraint_builder.rs:351. *)
Definition usize_max : N := 18446744073709551615.
(** /repo/src/input/constraint_builder.rs:351. *)
Definition parse_usize (s : string) : option N := parse_unsigned usize_max s.

(** The error of the digit loop, as text ([ParseIntError], library code; called at
    /repo/src/input/constraint_builder.rs:352). *)
Fixpoint digits_error (lim : N) (acc : N) (s : string) : string :=
  match s with
  | EmptyString => ""%string
  | String c t =>
      match digit_val c with
      | None => "invalid digit found in string"%string
      | Some v => let r := (acc * 10 + v)%N in
                  if (r <=? lim)%N then digits_error lim r t else "number too large to fit in target type"%string
      end
  end.
(** The text of the error of [parse::<usize>], when there is one:
    /repo/src/input/constraint_builder.rs:352. *)
Definition parse_error (s : string) : string :=
  match s with
  | EmptyString => "cannot parse integer from empty string"%string
  | String "+" t => match t with EmptyString => "invalid digit found in string"%string | _ => digits_error usize_max 0 t end
  | _ => digits_error usize_max 0 s
  end.

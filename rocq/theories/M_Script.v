(** Model of the script interface: /repo/src/input/rhai_interface.rs,
    /repo/src/input/tagged.rs, /repo/src/options.rs (time strings) and the part
    of /repo/src/input/input_reader.rs that runs a script.

    The Rhai engine itself is not modelled: a script run is the list of
    interface calls it makes, in order, with the values it passes ([op] below).
    The mutexes are never contended while a script runs (one thread), so taking
    a lock is a no-op. *)
From Verif Require Import Base M_Data M_Names M_Rng M_Build.
From Coq Require Import String Ascii.
Notation length := Datatypes.length.
Notation get := Base.get.

(** ** options.rs *)

(** [ch.is_ascii_lowercase()] *)
(** /repo/src/options.rs:77. *)
Definition is_lower (c : ascii) : bool :=
  let n := N_of_ascii c in (97 <=? n)%N && (n <=? 122)%N.

(** [checked_mul(10)] and [checked_add(digit)] on [i32]. *)
(** /repo/src/options.rs:71-76. *)
Definition push_digit (current : Z) (v : N) : option Z :=
  let m := (current * 10)%Z in
  if (i32_min <=? m)%Z && (m <=? i32_max)%Z then
    let r := (m + Z.of_N v)%Z in
    if (i32_min <=? r)%Z && (r <=? i32_max)%Z then Some r else None
  else None.

(** /repo/src/options.rs:78-84: the multiplier table. *)
Definition unit_seconds (c : ascii) : option Z :=
  if Ascii.eqb c "s" then Some 1%Z
  else if Ascii.eqb c "m" then Some 60%Z
  else if Ascii.eqb c "h" then Some 3600%Z
  else if Ascii.eqb c "d" then Some 86400%Z
  else if Ascii.eqb c "w" then Some 604800%Z
  else None.

(** /repo/src/options.rs:75, 85-87, 93-95 (without the value). *)
Definition msg_time : string := "Unknown time specifier.".

(** /repo/src/options.rs:65-100 [parse_time], the character loop.  [value.chars()]
    is read byte by byte: every byte of a non-ASCII character fails both tests
    as the character itself does.  [total += current * multiplier] is unchecked
    [i32] arithmetic: [i32_wrap] (M_Rng) panics in debug builds, wraps in release. *)
Fixpoint time_loop (pr : profile) (total current : Z) (s : string) : outcome Z :=
  match s with
  | EmptyString => Ok total
  | String c t =>
      match digit_val c with
      | Some v => match push_digit current v with
                  | Some cur => time_loop pr total cur t
                  | None => Err msg_time
                  end
      | None =>
          if is_lower c then
            match unit_seconds c with
            | None => Err msg_time
            | Some m => let* x := i32_wrap pr (current * m) in
                        let* y := i32_wrap pr (total + x) in
                        time_loop pr y 0 t
            end
          else Err msg_time
      end
  end.
(** /repo/src/options.rs:65-100 [parse_time]. *)
Definition parse_time (pr : profile) (s : string) : outcome Z := time_loop pr 0 0 s.

(** /repo/src/options.rs:6-44 [Options], every field.  [F] stands for [f64]. *)
Record settings (F : Type) := mkSettings {
  s_inputs : list string;
  s_output : option string;
  s_any : bool;
  s_pref_exp : F;
  s_timeout : Z;
  s_cs_timeout : Z;
  s_no_cs : bool;
  s_no_cs_simp : bool;
  s_threads : N;
  s_max_neighbors : N;
  s_greedy : bool
}.
Arguments mkSettings {F}.
Arguments s_inputs {F}. Arguments s_output {F}. Arguments s_any {F}. Arguments s_pref_exp {F}.
Arguments s_timeout {F}. Arguments s_cs_timeout {F}. Arguments s_no_cs {F}. Arguments s_no_cs_simp {F}.
Arguments s_threads {F}. Arguments s_max_neighbors {F}. Arguments s_greedy {F}.

(** [next.field = value], one per field. *)
(** /repo/src/input/rhai_interface.rs:483-541, [input_files.push]. *)
Definition add_input {F} (v : string) (o : settings F) :=
  mkSettings (s_inputs o ++ [v]) (s_output o) (s_any o) (s_pref_exp o) (s_timeout o) (s_cs_timeout o)
             (s_no_cs o) (s_no_cs_simp o) (s_threads o) (s_max_neighbors o) (s_greedy o).
(** /repo/src/input/rhai_interface.rs:483-541, [output_file]. *)
Definition set_output {F} (v : string) (o : settings F) :=
  mkSettings (s_inputs o) (Some v) (s_any o) (s_pref_exp o) (s_timeout o) (s_cs_timeout o)
             (s_no_cs o) (s_no_cs_simp o) (s_threads o) (s_max_neighbors o) (s_greedy o).
(** /repo/src/input/rhai_interface.rs:483-541, [any]. *)
Definition set_any {F} (o : settings F) :=
  mkSettings (s_inputs o) (s_output o) true (s_pref_exp o) (s_timeout o) (s_cs_timeout o)
             (s_no_cs o) (s_no_cs_simp o) (s_threads o) (s_max_neighbors o) (s_greedy o).
(** /repo/src/input/rhai_interface.rs:483-541, [preference_exponent]. *)
Definition set_pref_exp {F} (v : F) (o : settings F) :=
  mkSettings (s_inputs o) (s_output o) (s_any o) v (s_timeout o) (s_cs_timeout o)
             (s_no_cs o) (s_no_cs_simp o) (s_threads o) (s_max_neighbors o) (s_greedy o).
(** /repo/src/input/rhai_interface.rs:483-541, [timeout_seconds]. *)
Definition set_timeout {F} (v : Z) (o : settings F) :=
  mkSettings (s_inputs o) (s_output o) (s_any o) (s_pref_exp o) v (s_cs_timeout o)
             (s_no_cs o) (s_no_cs_simp o) (s_threads o) (s_max_neighbors o) (s_greedy o).
(** /repo/src/input/rhai_interface.rs:483-541, [critical_set_timeout_seconds]. *)
Definition set_cs_timeout {F} (v : Z) (o : settings F) :=
  mkSettings (s_inputs o) (s_output o) (s_any o) (s_pref_exp o) (s_timeout o) v
             (s_no_cs o) (s_no_cs_simp o) (s_threads o) (s_max_neighbors o) (s_greedy o).
(** /repo/src/input/rhai_interface.rs:483-541, [no_critical_sets]. *)
Definition set_no_cs {F} (o : settings F) :=
  mkSettings (s_inputs o) (s_output o) (s_any o) (s_pref_exp o) (s_timeout o) (s_cs_timeout o)
             true (s_no_cs_simp o) (s_threads o) (s_max_neighbors o) (s_greedy o).
(** /repo/src/input/rhai_interface.rs:483-541, [no_critical_set_simplification]. *)
Definition set_no_cs_simp {F} (o : settings F) :=
  mkSettings (s_inputs o) (s_output o) (s_any o) (s_pref_exp o) (s_timeout o) (s_cs_timeout o)
             (s_no_cs o) true (s_threads o) (s_max_neighbors o) (s_greedy o).
(** /repo/src/input/rhai_interface.rs:483-541, [thread_count]. *)
Definition set_threads {F} (v : N) (o : settings F) :=
  mkSettings (s_inputs o) (s_output o) (s_any o) (s_pref_exp o) (s_timeout o) (s_cs_timeout o)
             (s_no_cs o) (s_no_cs_simp o) v (s_max_neighbors o) (s_greedy o).
(** /repo/src/input/rhai_interface.rs:483-541, [max_neighbors]. *)
Definition set_max_neighbors {F} (v : N) (o : settings F) :=
  mkSettings (s_inputs o) (s_output o) (s_any o) (s_pref_exp o) (s_timeout o) (s_cs_timeout o)
             (s_no_cs o) (s_no_cs_simp o) (s_threads o) v (s_greedy o).
(** /repo/src/input/rhai_interface.rs:483-541, [greedy]. *)
Definition set_greedy {F} (o : settings F) :=
  mkSettings (s_inputs o) (s_output o) (s_any o) (s_pref_exp o) (s_timeout o) (s_cs_timeout o)
             (s_no_cs o) (s_no_cs_simp o) (s_threads o) (s_max_neighbors o) true.

(** [value.parse::<u32>()] *)
(** /repo/src/input/rhai_interface.rs:526, 534. *)
Definition parse_u32 (s : string) : option N := parse_unsigned u32_max s.

(** [iter.next().ok_or_else(..)?] and the parse errors. *)
(** /repo/src/input/rhai_interface.rs:483-541 (the texts are shortened). *)
Definition msg_missing : string := "Missing value.".
(** /repo/src/input/rhai_interface.rs:503-505, 525-527, 533-535 (the library text is not modelled). *)
Definition msg_number : string := "Not a number.".
(** /repo/src/input/rhai_interface.rs:483-541, the last arm (shortened). *)
Definition msg_argument : string := "Unknown argument.".

(** One arm of the match, for example ["-t" | "--timeout"], /repo/src/input/rhai_interface.rs:483-541. *)
Definition is_flag (short long arg : string) : bool := String.eqb arg short || String.eqb arg long.

(** /repo/src/input/rhai_interface.rs:483-541: the argument loop of
    [set_arguments], working on the copy [next].  [pf] is [str::parse::<f64>]. *)
Fixpoint arg_loop {F} (pr : profile) (pf : string -> option F) (next : settings F) (args : list string)
  : outcome (settings F) :=
  match args with
  | [] => Ok next
  | arg :: rest =>
      if is_flag "-i" "--input" arg then
        match rest with
        | [] => Err msg_missing
        | v :: rest' => arg_loop pr pf (add_input v next) rest'
        end
      else if is_flag "-o" "--output" arg then
        match rest with
        | [] => Err msg_missing
        | v :: rest' => arg_loop pr pf (set_output v next) rest'
        end
      else if is_flag "-a" "--any" arg then arg_loop pr pf (set_any next) rest
      else if is_flag "-p" "--pref-exp" arg then
        match rest with
        | [] => Err msg_missing
        | v :: rest' => match pf v with
                        | None => Err msg_number
                        | Some x => arg_loop pr pf (set_pref_exp x next) rest'
                        end
        end
      else if is_flag "-t" "--timeout" arg then
        match rest with
        | [] => Err msg_missing
        | v :: rest' => let* x := parse_time pr v in arg_loop pr pf (set_timeout x next) rest'
        end
      else if String.eqb arg "--cs-timeout" then
        match rest with
        | [] => Err msg_missing
        | v :: rest' => let* x := parse_time pr v in arg_loop pr pf (set_cs_timeout x next) rest'
        end
      else if String.eqb arg "--no-cs" then arg_loop pr pf (set_no_cs next) rest
      else if String.eqb arg "--no-cs-simp" then arg_loop pr pf (set_no_cs_simp next) rest
      else if is_flag "-j" "--threads" arg then
        match rest with
        | [] => Err msg_missing
        | v :: rest' => match parse_u32 v with
                        | None => Err msg_number
                        | Some x => arg_loop pr pf (set_threads x next) rest'
                        end
        end
      else if is_flag "-n" "--max-neighbors" arg then
        match rest with
        | [] => Err msg_missing
        | v :: rest' => match parse_u32 v with
                        | None => Err msg_number
                        | Some x => arg_loop pr pf (set_max_neighbors x next) rest'
                        end
        end
      else if is_flag "-g" "--greedy" arg then arg_loop pr pf (set_greedy next) rest
      else if is_flag "-h" "--help" arg || String.eqb arg "--version" then arg_loop pr pf next rest
      else Err msg_argument
  end.

(** A Rhai value in an array: a string, an integer or anything else. *)
(** The elements of [Array], /repo/src/input/rhai_interface.rs:469-478, 674-691. *)
Inductive dyn := DStr (s : string) | DInt (z : Z) | DOther.

(** /repo/src/input/rhai_interface.rs:470-478: every argument must be a string. *)
Fixpoint all_strings (args : list dyn) : option (list string) :=
  match args with
  | [] => Some []
  | DStr s :: t => match all_strings t with Some r => Some (s :: r) | None => None end
  | _ :: _ => None
  end.

(** /repo/src/input/rhai_interface.rs:469-545 [set_arguments]: the result and
    the options the reader has afterwards ([*parsed = next] is the last step). *)
Definition set_arguments {F} (pr : profile) (pf : string -> option F) (o : settings F) (args : list dyn)
  : outcome unit * settings F :=
  match all_strings args with
  | None => (Err "set_arguments expects strings.", o)
  | Some ss => match arg_loop pr pf o ss with
               | Ok o' => (Ok tt, o')
               | Err m => (Err m, o)
               | Panic => (Panic, o)
               end
  end.

(** ** Numbers and tags *)

(** [str::parse::<i64>]: optional sign, then at least one digit, in range. *)
(** /repo/src/input/rhai_interface.rs:695. *)
Definition parse_i64 (s : string) : option Z :=
  match s with
  | String "-" t => match t with
                    | EmptyString => None
                    | _ => match parse_digits 9223372036854775808 0 t with
                           | Some n => Some (- Z.of_N n)%Z
                           | None => None
                           end
                    end
  | _ => match parse_unsigned 9223372036854775807 s with
         | Some n => Some (Z.of_N n)
         | None => None
         end
  end.

(** [u32::try_from(z)] *)
(** /repo/src/input/rhai_interface.rs:416-431, 679, 681, 697. *)
Definition z_to_u32 (z : Z) : outcome N :=
  if (0 <=? z)%Z && (z <=? 4294967295)%Z then Ok (Z.to_N z) else Err "out of range integral type conversion attempted".

(** [i32::try_from(n)] on [u32] *)
(** /repo/src/input/rhai_interface.rs:202, 212, 222, 236-239. *)
Definition u32_to_i32 (n : N) : outcome Z :=
  if (Z.of_N n <=? i32_max)%Z then Ok (Z.of_N n) else Err "out of range integral type conversion attempted".

(** /repo/src/input/rhai_interface.rs:693-698 [parse_string_uint]. *)
Definition parse_string_uint (s : string) : outcome N :=
  match parse_i64 s with
  | None => Err msg_number
  | Some z => z_to_u32 z
  end.

(** /repo/src/input/rhai_interface.rs:674-691 [array_to_u32].  (The [i32] case
    cannot occur: Rhai integers are [i64].) *)
Definition array_to_u32 (a : list dyn) : outcome (list N) :=
  mmap (fun d => match d with
                 | DInt z => z_to_u32 z
                 | DStr s => parse_string_uint s
                 | DOther => Err "Unsupported chooser preference value."
                 end) a.

(** [z as i32] *)
(** /repo/src/input/rhai_interface.rs:198, 208, 218, 228. *)
Definition as_i32 (z : Z) : Z := ((z + 2147483648) mod 4294967296 - 2147483648)%Z.

(** /repo/src/input/tagged.rs:1-24 [Tag], [Tagged]. *)
Inductive tag := TMin | TMax | TBounds | TParts | TOptional.
(** /repo/src/input/tagged.rs:10-24 [Tagged]. *)
Record tagged := mkTag { t_tag : tag; t_vals : list Z }.

(** /repo/src/input/rhai_interface.rs:197-247: [min], [max], [parts], [bounds],
    [optional_if] for integers and for strings; the constant [optional] (270) is
    [optional_if true]. *)
Inductive num_tag := NMin | NMax | NParts.
(** /repo/src/input/rhai_interface.rs:197-226: the tag of each function. *)
Definition tag_of (t : num_tag) : tag := match t with NMin => TMin | NMax => TMax | NParts => TParts end.
(** /repo/src/input/rhai_interface.rs:197-199, 207-209, 217-219. *)
Definition tag_int (t : num_tag) (v : Z) : tagged := mkTag (tag_of t) [as_i32 v].
(** /repo/src/input/rhai_interface.rs:200-206, 210-216, 220-226. *)
Definition tag_str (t : num_tag) (s : string) : outcome tagged :=
  let* n := parse_string_uint s in
  let* z := u32_to_i32 n in Ok (mkTag (tag_of t) [z]).
(** /repo/src/input/rhai_interface.rs:227-229. *)
Definition bounds_int (lo hi : Z) : tagged := mkTag TBounds [as_i32 lo; as_i32 hi].
(** /repo/src/input/rhai_interface.rs:230-244. *)
Definition bounds_str (lo hi : string) : outcome tagged :=
  let* a := parse_string_uint lo in
  let* b := parse_string_uint hi in
  let* x := u32_to_i32 a in
  let* y := u32_to_i32 b in Ok (mkTag TBounds [x; y]).
(** /repo/src/input/rhai_interface.rs:245-247, 270. *)
Definition optional_if (b : bool) : tagged := mkTag TOptional [if b then 1%Z else 0%Z].

(** A tag argument as the script writes it. *)
(** The functions of /repo/src/input/rhai_interface.rs:197-247, 270. *)
Inductive tag_arg :=
| TgInt (t : num_tag) (v : Z)
| TgStr (t : num_tag) (s : string)
| TgBounds (lo hi : Z)
| TgBoundsStr (lo hi : string)
| TgOptional (b : bool).
(** /repo/src/input/rhai_interface.rs:197-247, 270. *)
Definition eval_tag (a : tag_arg) : outcome tagged :=
  match a with
  | TgInt t v => Ok (tag_int t v)
  | TgStr t s => tag_str t s
  | TgBounds lo hi => Ok (bounds_int lo hi)
  | TgBoundsStr lo hi => bounds_str lo hi
  | TgOptional b => Ok (optional_if b)
  end.

(** /repo/src/input/rhai_interface.rs:411-435: one step of the tag loop of
    [choice]. *)
Definition apply_tag (p : proto) (t : tagged) : outcome proto :=
  match t_tag t with
  | TMin => let* v := get (t_vals t) 0 in
            let* n := z_to_u32 v in
            Ok (mkProto (p_name p) n (p_max p) (p_parts p) (p_optional p))
  | TMax => let* v := get (t_vals t) 0 in
            let* n := z_to_u32 v in
            Ok (mkProto (p_name p) (p_min p) n (p_parts p) (p_optional p))
  | TBounds => let* v := get (t_vals t) 0 in
               let* n := z_to_u32 v in
               let* w := get (t_vals t) 1 in
               let* m := z_to_u32 w in
               Ok (mkProto (p_name p) n m (p_parts p) (p_optional p))
  | TParts => let* v := get (t_vals t) 0 in
              let* n := z_to_u32 v in
              Ok (mkProto (p_name p) (p_min p) (p_max p) n (p_optional p))
  | TOptional => let* v := get (t_vals t) 0 in
                 Ok (mkProto (p_name p) (p_min p) (p_max p) (p_parts p) (v =? 1)%Z)
  end.
(** /repo/src/input/rhai_interface.rs:404-435: the new choice's data. *)
Definition new_choice (name : string) (tags : list tagged) : outcome proto :=
  mfold apply_tag tags (mkProto name 1 1 1 false).

(** ** range and slice *)

(** [end], /repo/src/input/rhai_interface.rs:271. *)
Definition i64_max : Z := 9223372036854775807.

(** [from, from+1, ...], [n] values. *)
(** The loop of /repo/src/input/rhai_interface.rs:722-730. *)
Fixpoint count_up (from : Z) (n : nat) : list Z :=
  match n with O => [] | Datatypes.S k => from :: count_up (from + 1) k end.
(** /repo/src/input/rhai_interface.rs:722-730 [range]. *)
Definition range (from to : Z) : list Z :=
  if (from <=? to)%Z then count_up from (Z.to_nat (to - from + 1)) else [].

(** /repo/src/input/rhai_interface.rs:732-766 [slice]. *)
Definition msg_slice : string := "An array can not be sliced like this.".
(** /repo/src/input/rhai_interface.rs:732-766 [slice]. *)
Definition slice {A} (values : list A) (from to : Z) : outcome (list A) :=
  if (from <? 0)%Z || (to <? 0)%Z then Err msg_slice else
  let from := Z.to_nat from in
  if (length values <=? from)%nat then Err msg_slice else
  let* to := (if (to =? i64_max)%Z then Ok (length values - 1)%nat
              else if (length values <=? Z.to_nat to)%nat then Err msg_slice else Ok (Z.to_nat to)) in
  if (to <? from)%nat then Ok []
  else Ok (firstn (to - from + 1) (skipn from values)).

(** ** The reader state *)

(** /repo/src/input/rhai_interface.rs:19-28 [ReaderState]; the flag is
    [object.registered]. *)
Record rstate := mkRState {
  rs_slots : list (slot_data * bool);
  rs_choices : list (proto * bool);
  rs_choosers : list (chooser_data * bool);
  rs_slot_ids : list nat;
  rs_choice_ids : list nat;
  rs_chooser_ids : list nat;
  rs_exprs : list expr
}.
(** [ReaderState::default()], /repo/src/input/rhai_interface.rs:19. *)
Definition rs_empty : rstate := mkRState [] [] [] [] [] [] [].

(** [registered_ids.iter().map(|id| name of objects[id])] *)
(** /repo/src/input/rhai_interface.rs:615-652. *)
Definition reg_names {A} (nm : A -> string) (objs : list (A * bool)) (ids : list nat) : outcome (list string) :=
  mmap (fun id => let* ob := get objs id in Ok (nm (fst ob))) ids.

(** /repo/src/input/rhai_interface.rs:654-672 [find_registered_name]. *)
Definition find_registered {A} (nm : A -> string) (objs : list (A * bool)) (ids : list nat) (name : string)
  : outcome (option nat) :=
  let* names := reg_names nm objs ids in
  match fuzzy_find name names with
  | [] => Ok None
  | [i] => let* id := get ids i in Ok (Some id)
  | _ => Err (msg_ambiguous name)
  end.

(** /repo/src/input/rhai_interface.rs:547-603 [register_slot], [register_choice],
    [register_chooser] (the three bodies are the same but for the word in the
    message, which is left out here): the new object list and id list. *)
Definition register {A} (nm : A -> string) (objs : list (A * bool)) (ids : list nat) (id : nat)
  : outcome (list (A * bool) * list nat) :=
  let* ob := get objs id in
  let name := nm (fst ob) in
  let* dup := mexists (fun j => if (j =? id)%nat then Ok false else
                                let* oj := get objs j in Ok (String.eqb (nm (fst oj)) name)) ids in
  if dup then Err ("Duplicate name '" ++ name ++ "'.")
  else if existsb (Nat.eqb id) ids then Ok (objs, ids)
  else let* objs' := set objs id (fst ob, true) in Ok (objs', ids ++ [id]).

(** [state.objects[id].name = name] *)
(** /repo/src/input/rhai_interface.rs:852-859, 895-902, 956-963. *)
Definition rename {A} (f : A -> A) (objs : list (A * bool)) (id : nat) : outcome (list (A * bool)) :=
  let* ob := get objs id in set objs id (f (fst ob), snd ob).

(** /repo/src/input/rhai_interface.rs:852-859 [set_name] of a slot. *)
Definition slot_named (n : string) (_ : slot_data) : slot_data := mkSlot n.
(** /repo/src/input/rhai_interface.rs:895-902 [set_name] of a choice. *)
Definition proto_named (n : string) (p : proto) : proto :=
  mkProto n (p_min p) (p_max p) (p_parts p) (p_optional p).
(** /repo/src/input/rhai_interface.rs:956-963 [set_name] of a chooser. *)
Definition chooser_named (n : string) (c : chooser_data) : chooser_data := mkChooser n (cs_prefs c).

(** A handle a script holds ([SlotRef], [ChoiceRef], [ChooserRef]:
    /repo/src/input/rhai_interface.rs:35-51). *)
Inductive handle := HSlot (id : nat) | HChoice (id : nat) | HChooser (id : nat).

(** One side of a constraint as the script writes it:
    [s], [s.choices], [s.size], [c], [c.slot], [c.slot(k)], [c.choosers],
    [c.choosers(k)], [p], [p.choices], an integer. *)
(** The functions are registered at /repo/src/input/rhai_interface.rs:150-178, 185-192. *)
Inductive operand :=
| OpSlot (id : nat) | OpSlotChoices (id : nat) | OpSlotSize (id : nat)
| OpChoice (id : nat) | OpChoiceSlot (id : nat) | OpChoiceSlotPart (id : nat) (part : Z)
| OpChoiceChoosers (id : nat) | OpChoiceChoosersPart (id : nat) (part : Z)
| OpChooser (id : nat) | OpChooserChoices (id : nat)
| OpInt (z : Z).

(** /repo/src/input/rhai_interface.rs:838-846 [name_value] of a slot. *)
Definition slot_name (st : rstate) (id : nat) : outcome string :=
  let* ob := get (rs_slots st) id in Ok (sl_name (fst ob)).
(** /repo/src/input/rhai_interface.rs:881-889 [name_value] of a choice. *)
Definition choice_name (st : rstate) (id : nat) : outcome string :=
  let* ob := get (rs_choices st) id in Ok (p_name (fst ob)).
(** /repo/src/input/rhai_interface.rs:942-950 [name_value] of a chooser. *)
Definition chooser_name (st : rstate) (id : nat) : outcome string :=
  let* ob := get (rs_choosers st) id in Ok (cs_name (fst ob)).

(** [usize::try_from(part)] *)
(** /repo/src/input/rhai_interface.rs:927, 936. *)
Definition to_part (z : Z) : outcome nat :=
  if (0 <=? z)%Z then Ok (Z.to_nat z) else Err "out of range integral type conversion attempted".

(** /repo/src/input/rhai_interface.rs:801-973: the accessor an operand denotes. *)
Definition eval_operand (st : rstate) (x : operand) : outcome accessor :=
  match x with
  | OpSlot id => let* n := slot_name st id in Ok (mkA ASlot ANotSet n 0)
  | OpSlotChoices id => let* n := slot_name st id in Ok (mkA ASlot AChoice n 0)
  | OpSlotSize id => let* n := slot_name st id in Ok (mkA ASlot ASize n 0)
  | OpChoice id => let* n := choice_name st id in Ok (mkA AChoice ANotSet n 0)
  | OpChoiceSlot id => let* n := choice_name st id in Ok (mkA AChoice ASlot n 0)
  | OpChoiceSlotPart id z => let* n := choice_name st id in let* k := to_part z in Ok (mkA AChoice ASlot n k)
  | OpChoiceChoosers id => let* n := choice_name st id in Ok (mkA AChoice AChooser n 0)
  | OpChoiceChoosersPart id z => let* n := choice_name st id in let* k := to_part z in Ok (mkA AChoice AChooser n k)
  | OpChooser id => let* n := chooser_name st id in Ok (mkA AChooser ANotSet n 0)
  | OpChooserChoices id => let* n := chooser_name st id in Ok (mkA AChooser AChoice n 0)
  | OpInt z => Ok (mkA AInteger ANotSet (z_to_string z) 0)
  end.

(** What a script does to the reader, call by call
    (/repo/src/input/rhai_interface.rs:57-262). *)
Inductive op :=
| OpNewSlot (name : string)
| OpNewChoice (name : string) (tags : list tag_arg)
| OpNewChooser (name : string) (prefs : list dyn)
| OpAdd (h : handle)
| OpRename (h : handle) (name : string)
| OpConstrain (l : operand) (r : rel_kind) (rt : operand)
| OpArgs (args : list dyn).

(** What the reader shares with the script: [state] and [options]. *)
(** /repo/src/input/input_reader.rs:18-33. *)
Record world (F : Type) := mkWorld { w_state : rstate; w_opts : settings F }.
Arguments mkWorld {F}. Arguments w_state {F}. Arguments w_opts {F}.

(** Assignment to two fields of [ReaderState], /repo/src/input/rhai_interface.rs:20-28. *)
Definition with_slots (st : rstate) objs ids := mkRState objs (rs_choices st) (rs_choosers st) ids (rs_choice_ids st) (rs_chooser_ids st) (rs_exprs st).
(** Assignment to two fields of [ReaderState], /repo/src/input/rhai_interface.rs:20-28. *)
Definition with_choices (st : rstate) objs ids := mkRState (rs_slots st) objs (rs_choosers st) (rs_slot_ids st) ids (rs_chooser_ids st) (rs_exprs st).
(** Assignment to two fields of [ReaderState], /repo/src/input/rhai_interface.rs:20-28. *)
Definition with_choosers (st : rstate) objs ids := mkRState (rs_slots st) (rs_choices st) objs (rs_slot_ids st) (rs_choice_ids st) ids (rs_exprs st).
(** /repo/src/input/rhai_interface.rs:605-613 [register_constraint]. *)
Definition with_expr (st : rstate) e := mkRState (rs_slots st) (rs_choices st) (rs_choosers st) (rs_slot_ids st) (rs_choice_ids st) (rs_chooser_ids st) (rs_exprs st ++ [e]).

(** /repo/src/input/rhai_interface.rs:380-394 [slot]. *)
Definition do_slot (st : rstate) (name : string) : outcome (handle * rstate) :=
  let* found := find_registered sl_name (rs_slots st) (rs_slot_ids st) name in
  match found with
  | Some id => Ok (HSlot id, st)
  | None => Ok (HSlot (length (rs_slots st)),
                with_slots st (rs_slots st ++ [(mkSlot name, false)]) (rs_slot_ids st))
  end.
(** /repo/src/input/rhai_interface.rs:396-444 [choice]. *)
Definition do_choice (st : rstate) (name : string) (tags : list tagged) : outcome (handle * rstate) :=
  let* found := find_registered p_name (rs_choices st) (rs_choice_ids st) name in
  match found with
  | Some id => Ok (HChoice id, st)
  | None => let* p := new_choice name tags in
            Ok (HChoice (length (rs_choices st)),
                with_choices st (rs_choices st ++ [(p, false)]) (rs_choice_ids st))
  end.
(** /repo/src/input/rhai_interface.rs:446-467 [chooser]. *)
Definition do_chooser (st : rstate) (name : string) (prefs : list N) : outcome (handle * rstate) :=
  let* found := find_registered cs_name (rs_choosers st) (rs_chooser_ids st) name in
  match found with
  | Some id => Ok (HChooser id, st)
  | None => Ok (HChooser (length (rs_choosers st)),
                with_choosers st (rs_choosers st ++ [(mkChooser name prefs, false)]) (rs_chooser_ids st))
  end.
(** [+object] / [add(object)]. *)
(** /repo/src/input/rhai_interface.rs:130-149, 547-603. *)
Definition do_add (st : rstate) (h : handle) : outcome (handle * rstate) :=
  match h with
  | HSlot id => let* (objs, ids) := register sl_name (rs_slots st) (rs_slot_ids st) id in
                Ok (h, with_slots st objs ids)
  | HChoice id => let* (objs, ids) := register p_name (rs_choices st) (rs_choice_ids st) id in
                  Ok (h, with_choices st objs ids)
  | HChooser id => let* (objs, ids) := register cs_name (rs_choosers st) (rs_chooser_ids st) id in
                   Ok (h, with_choosers st objs ids)
  end.
(** [object.name = ..] / [set_name]. *)
(** /repo/src/input/rhai_interface.rs:117-128, 852-859, 895-902, 956-963. *)
Definition do_rename (st : rstate) (h : handle) (n : string) : outcome (handle * rstate) :=
  match h with
  | HSlot id => let* objs := rename (slot_named n) (rs_slots st) id in Ok (h, with_slots st objs (rs_slot_ids st))
  | HChoice id => let* objs := rename (proto_named n) (rs_choices st) id in Ok (h, with_choices st objs (rs_choice_ids st))
  | HChooser id => let* objs := rename (chooser_named n) (rs_choosers st) id in Ok (h, with_choosers st objs (rs_chooser_ids st))
  end.
(** [+constraint(l rel r)]: [build_expression] and [register_constraint],
    /repo/src/input/rhai_interface.rs:367-378, 605-613.
    Simplified: the expression is built and registered by one statement, so an
    operand's name is the one the object carries when the constraint is added;
    scripts that keep an attribute or an expression in a variable, and which
    comparisons there are at all (here: any), are in M_Values.v. *)
Definition do_constrain (st : rstate) (l : operand) (r : rel_kind) (rt : operand) : outcome rstate :=
  let* a := eval_operand st l in
  let* b := eval_operand st rt in
  Ok (with_expr st (mkE a r b)).

(** One call: what the script sees (a handle where one is returned) and the
    world afterwards.  A call that fails changes nothing; the script may catch
    the error and go on.  A panic leaves the world as it is here. *)
(** [script_result], /repo/src/input/rhai_interface.rs:276-278, and the lock on the shared state. *)
Definition keep {F A} (w : world F) (r : outcome (A * rstate)) : outcome (option A) * world F :=
  match r with
  | Ok (h, st) => (Ok (Some h), mkWorld st (w_opts w))
  | Err m => (Err m, w)
  | Panic => (Panic, w)
  end.
(** The registered functions, /repo/src/input/rhai_interface.rs:71-247. *)
Definition exec {F} (pr : profile) (pf : string -> option F) (w : world F) (x : op) : outcome (option handle) * world F :=
  let st := w_state w in
  match x with
  | OpNewSlot n => keep w (do_slot st n)
  | OpNewChoice n ts => keep w (let* tags := mmap eval_tag ts in do_choice st n tags)
  | OpNewChooser n ps => keep w (let* prefs := array_to_u32 ps in do_chooser st n prefs)
  | OpAdd h => keep w (do_add st h)
  | OpRename h n => keep w (do_rename st h n)
  | OpConstrain l r rt =>
      match do_constrain st l r rt with
      | Ok st' => (Ok None, mkWorld st' (w_opts w))
      | Err m => (Err m, w)
      | Panic => (Panic, w)
      end
  | OpArgs args => match set_arguments pr pf (w_opts w) args with
                   | (Ok _, o) => (Ok None, mkWorld st o)
                   | (Err m, o) => (Err m, mkWorld st o)
                   | (Panic, o) => (Panic, mkWorld st o)
                   end
  end.

(** A run of a script: all its calls, and what each returned. *)
(** The engine runs the script at /repo/src/input/input_reader.rs:66-90. *)
Definition event : Type := op * outcome (option handle).
(** /repo/src/input/input_reader.rs:66-90: the calls in the order the engine makes them. *)
Fixpoint exec_all {F} (pr : profile) (pf : string -> option F) (w : world F) (xs : list op)
  : list event * world F :=
  match xs with
  | [] => ([], w)
  | x :: t => let (r, w') := exec pr pf w x in
              let (tr, w2) := exec_all pr pf w' t in ((x, r) :: tr, w2)
  end.
(** Did the call unwind? (/repo/src/input/input_reader.rs:66-90 has no handler.) *)
Definition panicked (e : event) : bool := match snd e with Panic => true | _ => false end.

(** /repo/src/input/input_reader.rs:116-171 [sync_from_state]: the registered
    objects in order; whether some created object is unregistered. *)
Definition picked {A} (objs : list (A * bool)) (ids : list nat) : outcome (list A) :=
  mmap (fun id => let* ob := get objs id in Ok (fst ob)) ids.
(** /repo/src/input/input_reader.rs:117-171 [sync_from_state]. *)
Definition to_reader (st : rstate) : outcome reader :=
  let* ss := picked (rs_slots st) (rs_slot_ids st) in
  let* cs := picked (rs_choices st) (rs_choice_ids st) in
  let* ps := picked (rs_choosers st) (rs_chooser_ids st) in
  Ok (mkReader ss cs ps (rs_exprs st)).
(** /repo/src/input/input_reader.rs:117-171: is there an unregistered object? *)
Definition has_unused (st : rstate) : bool :=
  existsb (fun ob => negb (snd ob)) (rs_slots st) || existsb (fun ob => negb (snd ob)) (rs_choices st)
  || existsb (fun ob => negb (snd ob)) (rs_choosers st).

(** /repo/src/input/input_reader.rs:66-114 [read_input]: the state the previous
    read left is reset (73-76), the script makes the calls [xs] and ends normally
    or with an uncaught error [fail], the result is built.  The options are kept.
    A panicking call unwinds through [read_input] (and poisons the options
    mutex: the reader is unusable afterwards). *)
Definition read_with {F} (pr : profile) (pf : string -> option F) (w : world F)
    (xs : list op) (fail : option string) : outcome input_data * world F :=
  let (tr, w') := exec_all pr pf (mkWorld rs_empty (w_opts w)) xs in
  if existsb panicked tr then (Panic, w') else
  (match fail with
   | Some m => Err m
   | None => let* r := to_reader (w_state w') in read_input pr (has_unused (w_state w')) r
   end, w').
(** /repo/src/input/input_reader.rs:35-58 [new], one [read_input], then 179-184
    [effective_options]. *)
Definition read_script {F} (pr : profile) (pf : string -> option F) (o : settings F)
    (xs : list op) (fail : option string) : outcome input_data * settings F :=
  let (r, w) := read_with pr pf (mkWorld rs_empty o) xs fail in (r, w_opts w).

(** Model of constraint building and input compilation:
    /repo/src/input/constraint_builder.rs, /repo/src/constraints.rs,
    /repo/src/input/input_builder.rs. *)
From Verif Require Import Base M_Data M_Union M_Names.
From Coq Require Import String Ascii.
Notation length := Datatypes.length.
Notation get := Base.get.

(** ** Expressions *)

(** /repo/src/input/constraint_expression.rs:1-9 [AccessorType]. *)
Inductive acc_kind := ANotSet | AChooser | AChoice | ASlot | ASize | AInteger.

(** /repo/src/input/constraint_expression.rs:11-21 [RelationType]. *)
Inductive rel_kind := REq | RNeq | RGt | RLt | RGeq | RLeq | RContains | RNotContains.

(** /repo/src/input/constraint_expression.rs:23-41. *)
Record accessor := mkA { a_kind : acc_kind; a_sub : acc_kind; a_name : string; a_part : nat }.
(** /repo/src/input/constraint_expression.rs:36-41 [ConstraintExpression]. *)
Record expr := mkE { e_left : accessor; e_rel : rel_kind; e_right : accessor }.

(** /repo/src/input/proto_choice_data.rs:1-8 [ProtoChoiceData]. *)
Record proto := mkProto {
  p_name : string; p_min : N; p_max : N; p_parts : N; p_optional : bool }.

(** The part of [InputReader] (/repo/src/input/input_reader.rs:18-30) that the
    builder reads: registered slots, choices, choosers, expressions, in order. *)
Record reader := mkReader {
  r_slots : list slot_data;
  r_choices : list proto;
  r_choosers : list chooser_data;
  r_exprs : list expr
}.

(** ** constraint_builder.rs *)

(** What the name lookup reads of the [InputData] under construction. *)
(** Read by /repo/src/input/constraint_builder.rs:298-367. *)
Record ctx := mkCtx { x_slots : list slot_data; x_choosers : list chooser_data; x_choices : list choice_data }.

(** The message of /repo/src/input/constraint_builder.rs:363-365. *)
Definition msg_ambiguous (name : string) : string := ("The name """ ++ name ++ """ is ambiguous.")%string.

(** /repo/src/input/constraint_builder.rs:358-367 [find_name]. *)
Definition find_name (name : string) (values : list string) : outcome (option nat) :=
  match fuzzy_find name values with
  | [i] => Ok (Some i)
  | [] => Ok None
  | _ => Err (msg_ambiguous name)
  end.

(** The message of /repo/src/input/constraint_builder.rs:338-341. *)
Definition msg_no_part (asked : nat) : string := ("The given choice doesn't have a part " ++ n_to_string (N.of_nat asked) ++ ".")%string.

(** /repo/src/input/constraint_builder.rs:335-346, following continuations; [asked]
    is the part given in the accessor, [part] the rest of the way. *)
Fixpoint follow_parts (asked : nat) (cs : list choice_data) (choice part : nat) : outcome nat :=
  match part with
  | O => Ok choice
  | S q => let* cd := get cs choice in
           match ch_cont cd with
           | None => Err (msg_no_part asked)
           | Some next => follow_parts asked cs next q
           end
  end.

(** /repo/src/input/constraint_builder.rs:303-356 [resolve_accessor].  The
    result is [usize], here [N]; indices are converted by the caller. *)
Definition resolve_accessor (x : ctx) (a : accessor) : outcome (option N) :=
  match a_kind a with
  | ASlot => let* i := find_name (a_name a) (map sl_name (x_slots x)) in Ok (option_map N.of_nat i)
  | AChooser => let* i := find_name (a_name a) (map cs_name (x_choosers x)) in Ok (option_map N.of_nat i)
  | AChoice =>
      let* i := find_name (a_name a) (map ch_name (x_choices x)) in
      match i with
      | None => Ok None
      | Some c => let* c' := follow_parts (a_part a) (x_choices x) c (a_part a) in Ok (Some (N.of_nat c'))
      end
  | AInteger => match parse_usize (a_name a) with
                | Some n => Ok (Some n)
                | None => Err (parse_error (a_name a))
                end
  | _ => Err "Unexpected accessor type."
  end.

(** /repo/src/input/constraint_builder.rs:267-301 [add_constraint]. *)
Definition add_constraint (x : ctx) (e : expr) (k : kind) (ex : extra) : outcome (list constraint) :=
  let* rt :=
    match a_kind (e_right e) with
    | ASlot => let* r := resolve_accessor x (e_right e) in
               Ok (option_map (fun n => TSlot (N.to_nat n)) r)
    | AChoice => let* r := resolve_accessor x (e_right e) in
                 Ok (option_map (fun n => TChoice (N.to_nat n)) r)
    | AChooser => let* r := resolve_accessor x (e_right e) in
                  Ok (option_map (fun n => TChooser (N.to_nat n)) r)
    | AInteger => let* r := resolve_accessor x (e_right e) in
                  let* n := expect r in
                  if (n <=? u32_max)%N then Ok (Some (TLimit n)) else Panic
    | _ => Ok (Some TNone)
    end in
  match rt with
  | None => Ok []
  | Some t =>
      let* l := resolve_accessor x (e_left e) in
      match l with
      | None => Ok []
      | Some n => Ok [mkC k (N.to_nat n) t ex]
      end
  end.

(** /repo/src/input/constraint_builder.rs:21-248: the table of supported forms. *)
Definition table (e : expr) : option (kind * extra) :=
  match a_kind (e_left e), a_sub (e_left e), e_rel e, a_kind (e_right e), a_sub (e_right e) with
  | AChoice, ASlot, REq, ASlot, ANotSet => Some (ChoiceIsInSlot, ENone)
  | AChoice, ASlot, RNeq, ASlot, ANotSet => Some (ChoiceIsNotInSlot, ENone)
  | AChoice, ASlot, REq, AChoice, ASlot => Some (ChoicesAreInSameSlot, ENone)
  | AChoice, ASlot, RNeq, AChoice, ASlot => Some (ChoicesAreNotInSameSlot, ENone)
  | ASlot, AChoice, RContains, AChoice, ANotSet => Some (SlotContainsChoice, ENone)
  | ASlot, AChoice, RNotContains, AChoice, ANotSet => Some (SlotNotContainsChoice, ENone)
  | ASlot, AChoice, REq, ASlot, AChoice => Some (SlotsHaveSameChoices, ENone)
  | AChoice, AChooser, REq, AChoice, AChooser => Some (ChoicesHaveSameChoosers, ENone)
  | AChooser, AChoice, RContains, AChoice, ANotSet => Some (ChooserIsInChoice, ENone)
  | AChooser, AChoice, RNotContains, AChoice, ANotSet => Some (ChooserIsNotInChoice, ENone)
  | AChooser, AChoice, REq, AChooser, AChoice => Some (ChoosersHaveSameChoices, ENone)
  | AChoice, AChooser, RContains, AChooser, ANotSet => Some (ChoiceContainsChooser, ENone)
  | AChoice, AChooser, RNotContains, AChooser, ANotSet => Some (ChoiceNotContainsChooser, ENone)
  | ASlot, ASize, REq, AInteger, ANotSet => Some (SlotHasLimitedSize, EOp OpEq)
  | ASlot, ASize, RNeq, AInteger, ANotSet => Some (SlotHasLimitedSize, EOp OpNeq)
  | ASlot, ASize, RGt, AInteger, ANotSet => Some (SlotHasLimitedSize, EOp OpGt)
  | ASlot, ASize, RLt, AInteger, ANotSet => Some (SlotHasLimitedSize, EOp OpLt)
  | ASlot, ASize, RGeq, AInteger, ANotSet => Some (SlotHasLimitedSize, EOp OpGeq)
  | ASlot, ASize, RLeq, AInteger, ANotSet => Some (SlotHasLimitedSize, EOp OpLeq)
  | _, _, _, _, _ => None
  end.

(** /repo/src/input/constraint_builder.rs:251-255: exchange the sides, keep the relation. *)
Definition swap_sides (e : expr) : expr := mkE (e_right e) (e_rel e) (e_left e).

(** /repo/src/input/constraint_builder.rs:12-265 [ConstraintBuilder::build]. *)
Definition build_expr (x : ctx) (e : expr) : outcome (list constraint) :=
  match table e with
  | Some (k, ex) => add_constraint x e k ex
  | None => match table (swap_sides e) with
            | Some (k, ex) => add_constraint x (swap_sides e) k ex
            | None => Err "Unsupported constraint."
            end
  end.

(** ** constraints.rs *)

(** /repo/src/constraints.rs:3-14 [get_dependent_choices]. *)
Definition join_same (cs : list constraint) (u : uf) : outcome uf :=
  mfold (fun u k => if kind_eqb (c_kind k) ChoicesHaveSameChoosers
                    then let* o := con_other_choice k in uf_join u (c_left k) o
                    else Ok u) cs u.
(** /repo/src/constraints.rs:3-14 [get_dependent_choices]. *)
Definition get_dependent_choices (cs : list constraint) (n : nat) : outcome (list (list nat)) :=
  let* u := uf_new n in
  let* u := join_same cs u in
  uf_groups u.

(** /repo/src/constraints.rs:155-166 [get_mandatory_critical_sets]. *)
Definition get_mandatory_critical_sets (cs : list constraint) : outcome (list (list nat)) :=
  let* m := mfold (fun m k => if kind_eqb (c_kind k) ChooserIsInChoice
                              then let* o := con_other_choice k in Ok (bt_push m (c_left k) o)
                              else Ok m) cs [] in
  Ok (map snd m).

(** /repo/src/constraints.rs:96-104: all pairs [i < j] of one group. *)
Fixpoint pairs_not_same (g : list nat) : list constraint :=
  match g with
  | [] => []
  | a :: t => map (fun b => mkC ChoicesAreNotInSameSlot a (TChoice b) ENone) t ++ pairs_not_same t
  end.

(** /repo/src/constraints.rs:117-123: first group containing the choice, or empty. *)
Definition group_of (groups : list (list nat)) (c : nat) : list nat :=
  match find (fun g => existsb (Nat.eqb c) g) groups with Some g => g | None => [] end.

(** /repo/src/constraints.rs:109-140. *)
Definition expand_one (groups : list (list nat)) (k : constraint) : outcome (list constraint) :=
  if kind_eqb (c_kind k) ChooserIsInChoice || kind_eqb (c_kind k) ChooserIsNotInChoice then
    let* o := con_other_choice k in
    Ok (map (fun c => mkC (c_kind k) (c_left k) (TChoice c) ENone)
            (filter (fun c => negb (c =? o)) (group_of groups o)))
  else Ok [].

(** Derived [Ord] of [ConstraintTarget] / [ConstraintExtra] and the sort key of
    constraints.rs:143-150 (lexicographic). *)
Definition target_code (t : target) : N * N :=
  match t with
  | TNone => (0, 0)
  | TSlot s => (1, N.of_nat s)
  | TChoice c => (2, N.of_nat c)
  | TChooser p => (3, N.of_nat p)
  | TLimit n => (4, n)
  end%N.
(** /repo/src/constraint.rs:58-63 [ConstraintExtra]: its derived order as a pair of numbers. *)
Definition extra_code (e : extra) : Z * Z :=
  match e with
  | ENone => (0, 0)
  | EOffset z => (1, z)
  | EOp o => (2, op_code o)
  end%Z.
(** The sort key, /repo/src/constraints.rs:143-150. *)
Definition con_key (k : constraint) : list Z :=
  let '(t1, t2) := target_code (c_right k) in
  let '(x1, x2) := extra_code (c_extra k) in
  [Z.of_N (kind_code (c_kind k)); Z.of_nat (c_left k); Z.of_N t1; Z.of_N t2; x1; x2].
(** The lexicographic order on tuples that /repo/src/constraints.rs:143-150 relies on. *)
Fixpoint lex_leb (a b : list Z) : bool :=
  match a, b with
  | [], _ => true
  | _ :: _, [] => false
  | x :: a', y :: b' => if (x <? y)%Z then true else if (y <? x)%Z then false else lex_leb a' b'
  end.
(** The comparison made by /repo/src/constraints.rs:143-150. *)
Definition con_leb (a b : constraint) : bool := lex_leb (con_key a) (con_key b).
(** Derived [PartialEq] on [Constraint]: equality of all four fields. *)
(** Used by [dedup], /repo/src/constraints.rs:151; /repo/src/constraint.rs:65 derives it. *)
Definition con_eqb (a b : constraint) : bool := con_leb a b && con_leb b a.

(** [sort_by_key] (stable), as insertion sort. *)
(** Used at /repo/src/constraints.rs:143. *)
Fixpoint con_insert (k : constraint) (l : list constraint) : list constraint :=
  match l with
  | [] => [k]
  | h :: t => if con_leb k h then k :: l else h :: con_insert k t
  end.
(** /repo/src/constraints.rs:143-150 [sort_by_key]. *)
Definition con_sort (l : list constraint) : list constraint := fold_right con_insert [] l.

(** [Vec::dedup]: drop an element equal to its predecessor. *)
(** Used at /repo/src/constraints.rs:151. *)
Fixpoint con_dedup (l : list constraint) : list constraint :=
  match l with
  | [] => []
  | a :: t => match t with
              | [] => [a]
              | b :: _ => if con_eqb a b then con_dedup t else a :: con_dedup t
              end
  end.

(** /repo/src/constraints.rs:85-153 [expand_dependent_constraints]. *)
Definition expand_dependent (cs : list constraint) (n : nat) : outcome (list constraint) :=
  let* dep := get_dependent_choices cs n in
  let* mand := get_mandatory_critical_sets cs in
  let* ex := mmap (expand_one dep) cs in
  Ok (con_dedup (con_sort (flat_map pairs_not_same dep ++ flat_map pairs_not_same mand
                           ++ List.concat ex ++ cs))).

(** /repo/src/constraints.rs:23-77: one iteration; the pushed constraints (at
    most one) and whether infeasibility was detected. *)
Definition reduce_one (k : constraint) : outcome (list constraint * bool) :=
  let switched (nk : kind) (mk : nat -> target) :=
    match c_right k with
    | TSlot s | TChoice s | TChooser s => Ok ([mkC nk s (mk (c_left k)) (c_extra k)], false)
    | _ => Panic
    end in
  match c_kind k with
  | SlotContainsChoice => switched ChoiceIsInSlot TSlot
  | SlotNotContainsChoice => switched ChoiceIsNotInSlot TSlot
  | ChoiceContainsChooser => switched ChooserIsInChoice TChoice
  | ChoiceNotContainsChooser => switched ChooserIsNotInChoice TChoice
  | SlotsHaveSameChoices => let* s := con_slot k in Ok ([], negb (c_left k =? s))
  | _ => Ok ([k], false)
  end.

(** /repo/src/constraints.rs:16-83 [reduce_and_optimize]. *)
Definition reduce_and_optimize (cs : list constraint) (n : nat) : outcome (list constraint * bool) :=
  let* rs := mmap reduce_one cs in
  let* out := expand_dependent (flat_map fst rs) n in
  Ok (out, existsb snd rs).

(** ** input_builder.rs *)

(** /repo/src/input/input_builder.rs:62-83 [build_preferences]: the maximum over
    all choosers, then mirroring. *)
Definition max_pref_of (cs : list chooser_data) : N :=
  fold_left (fun m c => fold_left N.max (cs_prefs c) m) cs 0%N.

(** The message of /repo/src/input/input_builder.rs:66-69. *)
Definition msg_prefs (name : string) : string := ("Wrong number of preferences given for chooser """ ++ name ++ """.")%string.
(** /repo/src/input/input_builder.rs:64-70: the first chooser with a wrong number
    of preferences is reported. *)
Definition first_wrong (r : reader) : string :=
  match find (fun c => negb (length (cs_prefs c) =? length (r_choices r))) (r_choosers r) with
  | Some c => msg_prefs (cs_name c)
  | None => ""
  end.

(** /repo/src/input/input_builder.rs:62-83 [build_preferences]. *)
Definition build_preferences (pr : profile) (r : reader) : outcome (N * list chooser_data) :=
  if forallb (fun c => length (cs_prefs c) =? length (r_choices r)) (r_choosers r) then
    let m := max_pref_of (r_choosers r) in
    let* cs := mmap (fun c => let* ps := mmap (fun x => sub_u32 pr m x) (cs_prefs c) in
                              Ok (mkChooser (cs_name c) ps)) (r_choosers r) in
    Ok (m, cs)
  else Err (first_wrong r).

(** /repo/src/input/input_builder.rs:85-95 [build_preference_levels]:
    [sort_unstable] then [dedup] on [u32]. *)
Fixpoint n_insert (x : N) (l : list N) : list N :=
  match l with
  | [] => [x]
  | h :: t => if (x <=? h)%N then x :: l else h :: n_insert x t
  end.
(** /repo/src/input/input_builder.rs:93 [sort_unstable]. *)
Definition n_sort (l : list N) : list N := fold_right n_insert [] l.
(** /repo/src/input/input_builder.rs:94 [dedup]. *)
Fixpoint n_dedup (l : list N) : list N :=
  match l with
  | [] => []
  | a :: t => match t with
              | [] => [a]
              | b :: _ => if (a =? b)%N then n_dedup t else a :: n_dedup t
              end
  end.
(** /repo/src/input/input_builder.rs:85-95 [build_preference_levels]. *)
Definition build_levels (r : reader) (m : N) : list N :=
  n_dedup (n_sort (flat_map cs_prefs (r_choosers r) ++ [m; 0%N])).

(** /repo/src/input/input_builder.rs:113-122: repeat the preference at [idx]. *)
Fixpoint repeat_pref (i idx parts : nat) (l : list N) : list N :=
  match l with
  | [] => []
  | x :: t => repeat x (if i =? idx then parts else 1) ++ repeat_pref (S i) idx parts t
  end.

(** /repo/src/input/input_builder.rs:126-131: name of a generated part. *)
Definition part_name (k : nat) (name : string) : string :=
  ("~[" ++ n_to_string (N.of_nat (k + 1)) ++ "] " ++ name)%string.

(** /repo/src/input/input_builder.rs:100-140: one iteration over the reader's
    choices.  State: compiled choices, choosers ([next_index] is the number of
    compiled choices at the start of the iteration). *)
Definition compile_one (st : list choice_data * list chooser_data) (p : proto)
  : list choice_data * list chooser_data :=
  let '(chs, css) := st in
  let next := length chs in
  let parts := N.to_nat (p_parts p) in
  let first := mkChoice (p_name p) (p_min p) (p_max p)
                        (if 1 <? parts then Some (next + 1) else None) (p_optional p) in
  if 1 <? parts then
    (chs ++ first ::
       map (fun k => mkChoice (part_name k (p_name p)) (p_min p) (p_max p)
                              (if k =? parts - 1 then None else Some (next + k + 1)) (p_optional p))
           (seq 1 (parts - 1)),
     map (fun c => mkChooser (cs_name c) (repeat_pref 0 next parts (cs_prefs c))) css)
  else (chs ++ [first], css).

(** /repo/src/input/input_builder.rs:97-141 [compile_choices]. *)
Definition compile_choices (ps : list proto) (css : list chooser_data)
  : list choice_data * list chooser_data :=
  fold_left compile_one ps ([], css).

(** /repo/src/input/input_builder.rs:195-224 [compute_part_constraints].  Groups
    come sorted from [groups], so [sort_unstable] is the identity. *)
Fixpoint part_pairs (off : nat) (a : nat) (rest : list nat) : outcome (list constraint) :=
  match rest with
  | [] => Ok []
  | b :: t => let* z := to_i32 off in
              let* r := part_pairs (S off) a t in
              Ok (mkC ChoicesHaveSameChoosers a (TChoice b) ENone ::
                  mkC ChoicesHaveOffset a (TChoice b) (EOffset z) :: r)
  end.
(** /repo/src/input/input_builder.rs:205-222: all pairs of one sorted group. *)
Fixpoint group_part_constraints (g : list nat) : outcome (list constraint) :=
  match g with
  | [] => Ok []
  | a :: t => let* x := part_pairs 1 a t in
              let* y := group_part_constraints t in
              Ok (x ++ y)
  end.
(** /repo/src/input/input_builder.rs:195-224 [compute_part_constraints]. *)
Definition compute_part_constraints (chs : list choice_data) : outcome (list constraint) :=
  let* u := uf_new (length chs) in
  let* u := mfold (fun u i => let* c := get chs i in
                              match ch_cont c with
                              | Some next => uf_join u i next
                              | None => Ok u
                              end) (seq 0 (length chs)) u in
  let* gs := uf_groups u in
  let* l := mmap group_part_constraints gs in
  Ok (List.concat l).

(** /repo/src/input/input_builder.rs:226-249 [get_dependent_choice_limits]. *)
Definition get_dependent_limits (chs : list choice_data) (cs : list constraint)
  : outcome (list (N * N)) :=
  let* u := uf_new (length chs) in
  let* u := join_same cs u in
  let* lim := mfold (fun lim c =>
      let* g := uf_find u c in
      let* l := get lim g in
      let* cd := get chs c in
      set lim g (N.max (fst l) (ch_min cd), N.min (snd l) (ch_max cd)))
    (seq 0 (length chs)) (repeat (0%N, u32_max) (length chs)) in
  mfold (fun lim c =>
      let* g := uf_find u c in
      let* l := get lim g in
      set lim c l) (seq 0 (length chs)) lim.

(** /repo/src/input/input_builder.rs:263-272: one row, one group. *)
Definition group_min (row : list N) (g : list nat) : outcome (list N) :=
  let* vs := mmap (get row) g in
  let m := fold_left N.min vs u32_max in
  mfold (fun row c => set row c m) g row.

(** /repo/src/input/input_builder.rs:251-282 [get_dependent_preferences].
    ([iter().min().unwrap_or(u32::MAX)] is [fold min u32::MAX] on u32 values.) *)
Definition get_dependent_prefs (chs : list choice_data) (css : list chooser_data)
           (cs : list constraint) : outcome (list (list N)) :=
  let* gs := get_dependent_choices cs (length chs) in
  let* prefs := mmap (fun c => mfold group_min gs (cs_prefs c)) css in
  mfold (fun prefs k =>
      if kind_eqb (c_kind k) ChooserIsInChoice then
        let* o := con_other_choice k in
        let* row := get prefs (c_left k) in
        let* row' := set row o 0%N in
        set prefs (c_left k) row'
      else Ok prefs) cs prefs.

(** [map.get_mut(&i).expect(..).push(k)] *)
(** Used at /repo/src/input/input_builder.rs:299-303, 308-317, 320-324, 327-346, 349-353. *)
Definition push_at (m : list (list constraint)) (i : nat) (k : constraint)
  : outcome (list (list constraint)) :=
  let* l := get m i in set m i (l ++ [k]).

(** /repo/src/input/input_builder.rs:296-358: one iteration. *)
Definition map_one (nc np : nat) (ms : list (list constraint) * list (list constraint)) (k : constraint)
  : outcome (list (list constraint) * list (list constraint)) :=
  let '(cm, pm) := ms in
  match c_kind k with
  | ChoiceIsInSlot | ChoiceIsNotInSlot =>
      let* cm := push_at cm (c_left k) k in Ok (cm, pm)
  | ChoicesAreInSameSlot | ChoicesAreNotInSameSlot | ChoicesHaveOffset =>
      let* cm := push_at cm (c_left k) k in
      let* o := con_other_choice k in
      let* cm := push_at cm o k in Ok (cm, pm)
  | ChooserIsInChoice | ChooserIsNotInChoice =>
      let* pm := push_at pm (c_left k) k in Ok (cm, pm)
  | ChoosersHaveSameChoices =>
      let* pm := push_at pm (c_left k) k in
      let* o := con_other_chooser k in
      let* pm := push_at pm o k in Ok (cm, pm)
  | ChoicesHaveSameChoosers =>
      let* pm := mfold (fun pm p => push_at pm p k) (seq 0 np) pm in Ok (cm, pm)
  | SlotHasLimitedSize =>
      let* cm := mfold (fun cm c => push_at cm c k) (seq 0 nc) cm in Ok (cm, pm)
  | _ => Panic
  end.

(** /repo/src/input/input_builder.rs:284-359 [build_constraint_maps]. *)
Definition build_maps (nc np : nat) (sched : list constraint)
  : outcome (list (list constraint) * list (list constraint)) :=
  mfold (map_one nc np) sched (repeat [] nc, repeat [] np).

(** The message of input_builder.rs:156-158. *)
Definition msg_unsat : string := "The given constraints are not satisfiable.".

(** /repo/src/input/input_builder.rs:28-36: slots, or one generated slot. *)
Definition build_slots (r : reader) : list slot_data :=
  match r_slots r with [] => [mkSlot "Generated Slot"] | l => l end.

(** /repo/src/input/input_builder.rs:143-193 (first half): the constraint list
    before preprocessing. *)
Definition raw_constraints (x : ctx) (es : list expr) : outcome (list constraint) :=
  let* built := mmap (build_expr x) es in
  let* parts := compute_part_constraints (x_choices x) in
  Ok (List.concat built ++ parts).

(** /repo/src/input/input_builder.rs:14-53 [process_input_reader] with
    [build_constraints] (lines 143-193). *)
Definition build_input (pr : profile) (r : reader) : outcome input_data :=
  let slots := build_slots r in
  let* mc := build_preferences pr r in
  let '(m, mirrored) := mc in
  let levels := build_levels r m in
  let '(chs, css) := compile_choices (r_choices r) mirrored in
  let* raw := raw_constraints (mkCtx slots css chs) (r_exprs r) in
  let* res := reduce_and_optimize raw (length chs) in
  let '(cs, infeasible) := res in
  if infeasible then Err msg_unsat else
  let* limits := get_dependent_limits chs cs in
  let* prefs := get_dependent_prefs chs css cs in
  let chs' := map (fun cl => mkChoice (ch_name (fst cl)) (fst (snd cl)) (snd (snd cl))
                                      (ch_cont (fst cl)) (ch_optional (fst cl)))
                  (combine chs limits) in
  let css' := map (fun cp => mkChooser (cs_name (fst cp)) (snd cp)) (combine css prefs) in
  let sched := filter is_scheduling_constraint cs in
  let assign := filter is_assignment_constraint cs in
  let* groups := get_dependent_choices cs (length chs') in
  let* maps := build_maps (length chs') (length css') sched in
  Ok (mkInput chs' css' slots sched assign groups levels m (fst maps) (snd maps)).

(** /repo/src/input/input_reader.rs:91-114 [read_input] after the script ran:
    [unused] says whether some created object was never added. *)
Definition read_input (pr : profile) (unused : bool) (r : reader) : outcome input_data :=
  if unused then Err "Newly created object not used. Did you try to access an existing one instead of creating a new one?" else
  match r_choices r, r_choosers r with
  | [], _ => Err "No choices defined in input."
  | _, [] => Err "No choosers defined in input."
  | _, _ => build_input pr r
  end.

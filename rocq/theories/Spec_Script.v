(** What the script interface is supposed to do: time strings, arguments, name
    lookup, tags, slices, registration.  Independent of the code in M_Script
    except for the data types of calls and their results. *)
From Verif Require Import Base M_Data Spec M_Build Spec_Input M_Script.
From Coq Require Import String Ascii Sorted.
Notation length := Datatypes.length.
Notation get := Base.get.

(** ** Time strings *)

(** The decimal digit [d] as a character; the value of a digit sequence. *)
Definition digit_char (d : nat) : ascii := ascii_of_nat (48 + d).
Definition digits_text (ds : list nat) : string := string_of_list_ascii (map digit_char ds).
Definition digits_value (ds : list nat) : Z := fold_left (fun a d => (10 * a + Z.of_nat d)%Z) ds 0%Z.
Definition units : list (ascii * Z) :=
  [("s", 1); ("m", 60); ("h", 3600); ("d", 86400); ("w", 604800)]%char%Z.

(** [s] is a sequence of number-unit components denoting [z] seconds. *)
Inductive time_text : string -> Z -> Prop :=
| tt_end : time_text "" 0
| tt_more ds u m rest z :
    ds <> [] -> Forall (fun d => d < 10) ds -> In (u, m) units -> time_text rest z ->
    time_text (digits_text ds ++ String u rest) (digits_value ds * m + z).

(** The same with missing numbers (counting as 0) and digits after the last
    unit (ignored). *)
Inductive loose_text : string -> Z -> Prop :=
| lt_end ds : Forall (fun d => d < 10) ds -> loose_text (digits_text ds) 0
| lt_more ds u m rest z :
    Forall (fun d => d < 10) ds -> In (u, m) units -> loose_text rest z ->
    loose_text (digits_text ds ++ String u rest) (digits_value ds * m + z).

(** ** Arguments *)

(** [applies o args o']: going through [args] from left to right turns [o] into
    [o'].  [fl], [tm], [num] say which texts denote which numbers. *)
Inductive applies {F} (fl : string -> F -> Prop) (tm : string -> Z -> Prop) (num : string -> N -> Prop)
  : settings F -> list string -> settings F -> Prop :=
| ap_end o : applies fl tm num o [] o
| ap_input o a v t o' i out any e to cs nc ns th mx gr :
    In a ["-i"; "--input"]%string ->
    o = mkSettings i out any e to cs nc ns th mx gr ->
    applies fl tm num (mkSettings (i ++ [v]) out any e to cs nc ns th mx gr) t o' ->
    applies fl tm num o (a :: v :: t) o'
| ap_output o a v t o' i out any e to cs nc ns th mx gr :
    In a ["-o"; "--output"]%string ->
    o = mkSettings i out any e to cs nc ns th mx gr ->
    applies fl tm num (mkSettings i (Some v) any e to cs nc ns th mx gr) t o' ->
    applies fl tm num o (a :: v :: t) o'
| ap_any o a t o' i out any e to cs nc ns th mx gr :
    In a ["-a"; "--any"]%string ->
    o = mkSettings i out any e to cs nc ns th mx gr ->
    applies fl tm num (mkSettings i out true e to cs nc ns th mx gr) t o' ->
    applies fl tm num o (a :: t) o'
| ap_exp o a v t o' x i out any e to cs nc ns th mx gr :
    In a ["-p"; "--pref-exp"]%string -> fl v x ->
    o = mkSettings i out any e to cs nc ns th mx gr ->
    applies fl tm num (mkSettings i out any x to cs nc ns th mx gr) t o' ->
    applies fl tm num o (a :: v :: t) o'
| ap_timeout o a v t o' x i out any e to cs nc ns th mx gr :
    In a ["-t"; "--timeout"]%string -> tm v x ->
    o = mkSettings i out any e to cs nc ns th mx gr ->
    applies fl tm num (mkSettings i out any e x cs nc ns th mx gr) t o' ->
    applies fl tm num o (a :: v :: t) o'
| ap_cs_timeout o a v t o' x i out any e to cs nc ns th mx gr :
    In a ["--cs-timeout"]%string -> tm v x ->
    o = mkSettings i out any e to cs nc ns th mx gr ->
    applies fl tm num (mkSettings i out any e to x nc ns th mx gr) t o' ->
    applies fl tm num o (a :: v :: t) o'
| ap_no_cs o a t o' i out any e to cs nc ns th mx gr :
    In a ["--no-cs"]%string ->
    o = mkSettings i out any e to cs nc ns th mx gr ->
    applies fl tm num (mkSettings i out any e to cs true ns th mx gr) t o' ->
    applies fl tm num o (a :: t) o'
| ap_no_cs_simp o a t o' i out any e to cs nc ns th mx gr :
    In a ["--no-cs-simp"]%string ->
    o = mkSettings i out any e to cs nc ns th mx gr ->
    applies fl tm num (mkSettings i out any e to cs nc true th mx gr) t o' ->
    applies fl tm num o (a :: t) o'
| ap_threads o a v t o' x i out any e to cs nc ns th mx gr :
    In a ["-j"; "--threads"]%string -> num v x ->
    o = mkSettings i out any e to cs nc ns th mx gr ->
    applies fl tm num (mkSettings i out any e to cs nc ns x mx gr) t o' ->
    applies fl tm num o (a :: v :: t) o'
| ap_neighbors o a v t o' x i out any e to cs nc ns th mx gr :
    In a ["-n"; "--max-neighbors"]%string -> num v x ->
    o = mkSettings i out any e to cs nc ns th mx gr ->
    applies fl tm num (mkSettings i out any e to cs nc ns th x gr) t o' ->
    applies fl tm num o (a :: v :: t) o'
| ap_greedy o a t o' i out any e to cs nc ns th mx gr :
    In a ["-g"; "--greedy"]%string ->
    o = mkSettings i out any e to cs nc ns th mx gr ->
    applies fl tm num (mkSettings i out any e to cs nc ns th mx true) t o' ->
    applies fl tm num o (a :: t) o'
| ap_ignored o a t o' :
    In a ["-h"; "--help"; "--version"]%string ->
    applies fl tm num o t o' ->
    applies fl tm num o (a :: t) o'.

(** A decimal numeral with an optional plus sign, at most [lim]. *)
Definition numeral (lim : N) (s : string) (n : N) : Prop :=
  exists ds, ds <> [] /\ Forall (fun d => d < 10) ds /\ Z.of_N n = digits_value ds /\ (n <= lim)%N /\
             (s = digits_text ds \/ s = String "+" (digits_text ds)).
(** The same with a sign, for [i64]. *)
Definition signed_numeral (s : string) (z : Z) : Prop :=
  (exists n, numeral 9223372036854775807 s n /\ z = Z.of_N n) \/
  (exists ds, ds <> [] /\ Forall (fun d => d < 10) ds /\ s = String "-" (digits_text ds) /\
              z = (- digits_value ds)%Z /\ (-9223372036854775808 <= z)%Z).

(** ** Name lookup *)

Definition no_space (s : string) : Prop := ~ In " "%char (list_ascii_of_string s).
(** [key] is the first of the words (separated by single spaces) of [v]. *)
Definition first_word (key v : string) : Prop :=
  no_space key /\ (v = key \/ exists rest, v = (key ++ " " ++ rest)%string).
(** [key] is one of the words of [v]. *)
Definition a_word (key v : string) : Prop :=
  no_space key /\
  exists a b, v = (a ++ key ++ b)%string /\
    (a = ""%string \/ exists a', a = (a' ++ " ")%string) /\ (b = ""%string \/ exists b', b = (" " ++ b')%string).
Definition occurs (key v : string) : Prop := exists a b, v = (a ++ key ++ b)%string.

(** The four levels of matching, best first. *)
Definition levels (key : string) : list (string -> Prop) :=
  [fun v => v = key; first_word key; a_word key; occurs key].

(** [l] lists, in order, the positions of the names with property [P]. *)
Definition positions (P : string -> Prop) (names : list string) (l : list nat) : Prop :=
  StronglySorted lt l /\ forall i, In i l <-> exists v, nth_error names i = Some v /\ P v.

(** [l]: the positions matching at the best level at which any name matches. *)
Inductive best_match (names : list string) : list (string -> Prop) -> list nat -> Prop :=
| bm_none : best_match names [] []
| bm_here P Ps l : positions P names l -> l <> [] -> best_match names (P :: Ps) l
| bm_next P Ps l : positions P names [] -> best_match names Ps l -> best_match names (P :: Ps) l.

(** ** Runs of a script *)

(** Handles a call uses, and the one it returns. *)
Definition operand_handles (x : operand) : list handle :=
  match x with
  | OpSlot i | OpSlotChoices i | OpSlotSize i => [HSlot i]
  | OpChoice i | OpChoiceSlot i | OpChoiceSlotPart i _ | OpChoiceChoosers i | OpChoiceChoosersPart i _ => [HChoice i]
  | OpChooser i | OpChooserChoices i => [HChooser i]
  | OpInt _ => []
  end.
Definition uses (x : op) : list handle :=
  match x with
  | OpAdd h | OpRename h _ => [h]
  | OpConstrain l _ r => operand_handles l ++ operand_handles r
  | _ => []
  end.
Definition returned (r : outcome (option handle)) : list handle :=
  match r with Ok (Some h) => [h] | _ => [] end.
Definition issued (tr : list event) : list handle := flat_map (fun e => returned (snd e)) tr.

(** Scripts can only use handles they were given. *)
Definition proper_trace (tr : list event) : Prop :=
  forall t1 e t2, tr = t1 ++ e :: t2 -> incl (uses (fst e)) (issued t1).

Definition is_rename (x : op) : bool := match x with OpRename _ _ => true | _ => false end.
Definition no_renames (xs : list op) : Prop := forallb (fun x => negb (is_rename x)) xs = true.

(** [h] was created under the name [n]: the first call that returned [h] asked
    for [n]. *)
Definition asked_name (x : op) : option string :=
  match x with OpNewSlot n | OpNewChoice n _ | OpNewChooser n _ => Some n | _ => None end.
Definition created_as (tr : list event) (h : handle) (n : string) : Prop :=
  exists t1 x t2, tr = t1 ++ (x, Ok (Some h)) :: t2 /\ ~ In h (issued t1) /\ asked_name x = Some n.

(** Handles successfully added, each once, in the order of the first addition. *)
Definition added (e : event) : list handle :=
  match e with (OpAdd h, Ok _) => [h] | _ => [] end.
Definition handle_eqb (a b : handle) : bool :=
  match a, b with
  | HSlot i, HSlot j | HChoice i, HChoice j | HChooser i, HChooser j => (i =? j)%nat
  | _, _ => false
  end.
Fixpoint firsts (seen l : list handle) : list handle :=
  match l with
  | [] => []
  | h :: t => if existsb (handle_eqb h) seen then firsts seen t else h :: firsts (h :: seen) t
  end.
Definition additions (tr : list event) : list handle := firsts [] (flat_map added tr).
Definition is_slot (h : handle) : bool := match h with HSlot _ => true | _ => false end.
Definition is_choice (h : handle) : bool := match h with HChoice _ => true | _ => false end.
Definition is_chooser (h : handle) : bool := match h with HChooser _ => true | _ => false end.

(** The names the handles [hs] were created under, in order. *)
Definition named (tr : list event) (hs : list handle) (ns : list string) : Prop :=
  Forall2 (created_as tr) hs ns.

(** ** Tags *)

(** What a tag argument says literally: the intended values. *)
Definition literal (a : tag_arg) (p p' : proto) : Prop :=
  match a with
  | TgInt NMin v => exists n, Z.of_N n = v /\ p' = mkProto (p_name p) n (p_max p) (p_parts p) (p_optional p)
  | TgInt NMax v => exists n, Z.of_N n = v /\ p' = mkProto (p_name p) (p_min p) n (p_parts p) (p_optional p)
  | TgInt NParts v => exists n, Z.of_N n = v /\ p' = mkProto (p_name p) (p_min p) (p_max p) n (p_optional p)
  | TgStr NMin s => exists n, signed_numeral s (Z.of_N n) /\ p' = mkProto (p_name p) n (p_max p) (p_parts p) (p_optional p)
  | TgStr NMax s => exists n, signed_numeral s (Z.of_N n) /\ p' = mkProto (p_name p) (p_min p) n (p_parts p) (p_optional p)
  | TgStr NParts s => exists n, signed_numeral s (Z.of_N n) /\ p' = mkProto (p_name p) (p_min p) (p_max p) n (p_optional p)
  | TgBounds lo hi => exists n m, Z.of_N n = lo /\ Z.of_N m = hi /\ p' = mkProto (p_name p) n m (p_parts p) (p_optional p)
  | TgBoundsStr lo hi => exists n m, signed_numeral lo (Z.of_N n) /\ signed_numeral hi (Z.of_N m) /\
                                     p' = mkProto (p_name p) n m (p_parts p) (p_optional p)
  | TgOptional b => p' = mkProto (p_name p) (p_min p) (p_max p) (p_parts p) b
  end.
(** All tags applied from left to right. *)
Inductive literally : list tag_arg -> proto -> proto -> Prop :=
| li_end p : literally [] p p
| li_more a t p q p' : literal a p q -> literally t q p' -> literally (a :: t) p p'.
(** The integers written in the tag fit in 32 bits. *)
Definition small_tag (a : tag_arg) : Prop :=
  match a with
  | TgInt _ v => (i32_min <= v <= i32_max)%Z
  | TgBounds lo hi => (i32_min <= lo <= i32_max)%Z /\ (i32_min <= hi <= i32_max)%Z
  | _ => True
  end.

(** Non-negative 32-bit values are accepted. *)
Definition in_range (z : Z) : Prop := (0 <= z <= i32_max)%Z.
Definition fair_tag (a : tag_arg) : Prop :=
  match a with
  | TgInt _ v => in_range v
  | TgStr _ s => exists n, signed_numeral s (Z.of_N n) /\ in_range (Z.of_N n)
  | TgBounds lo hi => in_range lo /\ in_range hi
  | TgBoundsStr lo hi => (exists n, signed_numeral lo (Z.of_N n) /\ in_range (Z.of_N n)) /\
                         (exists n, signed_numeral hi (Z.of_N n) /\ in_range (Z.of_N n))
  | TgOptional _ => True
  end.

(** ** Slices *)

(** The inclusive end of a slice: the largest 64-bit integer stands for the
    last position. *)
Definition slice_end {A} (l : list A) (y : Z) : Z := if (y =? i64_max)%Z then (Z.of_nat (length l) - 1)%Z else y.
(** A slice some of whose ends is not a position of the array. *)
Definition slice_bad {A} (l : list A) (x y : Z) : Prop :=
  (x < 0 \/ y < 0 \/ Z.of_nat (length l) <= x \/ Z.of_nat (length l) <= slice_end l y)%Z.

(** ** What a constraint was written about *)

(** The accessor spells out the operand, with the names the objects were
    created under. *)
Definition spells (tr : list event) (x : operand) (a : accessor) : Prop :=
  match x with
  | OpSlot i => exists n, created_as tr (HSlot i) n /\ a = mkA ASlot ANotSet n 0
  | OpSlotChoices i => exists n, created_as tr (HSlot i) n /\ a = mkA ASlot AChoice n 0
  | OpSlotSize i => exists n, created_as tr (HSlot i) n /\ a = mkA ASlot ASize n 0
  | OpChoice i => exists n, created_as tr (HChoice i) n /\ a = mkA AChoice ANotSet n 0
  | OpChoiceSlot i => exists n, created_as tr (HChoice i) n /\ a = mkA AChoice ASlot n 0
  | OpChoiceSlotPart i k => exists n, created_as tr (HChoice i) n /\ (0 <= k)%Z /\ a = mkA AChoice ASlot n (Z.to_nat k)
  | OpChoiceChoosers i => exists n, created_as tr (HChoice i) n /\ a = mkA AChoice AChooser n 0
  | OpChoiceChoosersPart i k => exists n, created_as tr (HChoice i) n /\ (0 <= k)%Z /\ a = mkA AChoice AChooser n (Z.to_nat k)
  | OpChooser i => exists n, created_as tr (HChooser i) n /\ a = mkA AChooser ANotSet n 0
  | OpChooserChoices i => exists n, created_as tr (HChooser i) n /\ a = mkA AChooser AChoice n 0
  | OpInt z => a = mkA AInteger ANotSet (M_Names.z_to_string z) 0
  end.
(** The constraints successfully added, in order. *)
Definition constrained (e : event) : list (operand * rel_kind * operand) :=
  match e with (OpConstrain l r rt, Ok _) => [(l, r, rt)] | _ => [] end.
Definition constraints_of (tr : list event) : list (operand * rel_kind * operand) := flat_map constrained tr.
Definition spelled (tr : list event) (c : operand * rel_kind * operand) (e : expr) : Prop :=
  let '(l, r, rt) := c in spells tr l (e_left e) /\ e_rel e = r /\ spells tr rt (e_right e).

(** ** What was declared *)

(** The first call that returned [h]. *)
Definition created_by (tr : list event) (h : handle) (x : op) : Prop :=
  exists t1 t2, tr = t1 ++ (x, Ok (Some h)) :: t2 /\ ~ In h (issued t1).
(** The preference value written as [x]. *)
Definition pref_value (x : dyn) (n : N) : Prop :=
  match x with DInt z => Z.of_N n = z | DStr s => signed_numeral s (Z.of_N n) | DOther => False end.
(** The choice / chooser a call declares; a choice has by default one part, room
    for exactly one and is not optional. *)
Definition declares_choice (x : op) (p : proto) : Prop :=
  exists n tags, x = OpNewChoice n tags /\ p_name p = n /\
    (Forall small_tag tags -> literally tags (mkProto n 1 1 1 false) p).
Definition declares_chooser (x : op) (c : chooser_data) : Prop :=
  exists n prefs, x = OpNewChooser n prefs /\ cs_name c = n /\ Forall2 pref_value prefs (cs_prefs c).
Definition declared_choice (tr : list event) (h : handle) (p : proto) : Prop :=
  exists x, created_by tr h x /\ declares_choice x p.
Definition declared_chooser (tr : list event) (h : handle) (c : chooser_data) : Prop :=
  exists x, created_by tr h x /\ declares_chooser x c.

(** ** Lookups *)

(** The kind of object a call asks for. *)
Definition kind_of (x : op) : handle -> bool :=
  match x with
  | OpNewSlot _ => is_slot | OpNewChoice _ _ => is_choice | OpNewChooser _ _ => is_chooser
  | _ => fun _ => false
  end.
(** The other arguments of a creating call are acceptable. *)
Definition fair_args (x : op) : Prop :=
  match x with
  | OpNewChoice _ tags => Forall fair_tag tags
  | OpNewChooser _ prefs => exists ns, Forall2 pref_value prefs ns /\ Forall (fun n => (n <= u32_max)%N) ns
  | _ => True
  end.

(** ** What a constraint between handles means for a solution *)
Section Means.
Variables (tr : list event) (ps : list proto) (strict : bool) (S : scheduling) (A : assignment).
(** The position of an object in the result: slots and choosers in the order of
    their first addition, choices likewise, each with its parts in a row. *)
Definition slot_at (i s : nat) : Prop := nth_error (filter is_slot (additions tr)) s = Some (HSlot i).
Definition chooser_at (i p : nat) : Prop := nth_error (filter is_chooser (additions tr)) p = Some (HChooser i).
Definition choice_at (i k c : nat) : Prop :=
  exists pos, nth_error (filter is_choice (additions tr)) pos = Some (HChoice i) /\ is_part ps pos k c.
(** [x] is the slot of part [k] of choice [i] / the choosers of that part. *)
Definition slot_of (x : operand) (i k : nat) : Prop := x = OpChoiceSlot i /\ k = 0 \/ x = OpChoiceSlotPart i (Z.of_nat k).
Definition choosers_of (x : operand) (i k : nat) : Prop := x = OpChoiceChoosers i /\ k = 0 \/ x = OpChoiceChoosersPart i (Z.of_nat k).

(** The documented meaning of [l rel rt] (/repo/doc/src/Manual.md), read from left
    to right.  [strict = false]: attendance is required of choices that are held. *)
Definition means_direct (l : operand) (rel : rel_kind) (rt : operand) : Prop :=
  (forall i k j c s, slot_of l i k -> rt = OpSlot j -> choice_at i k c -> slot_at j s ->
     (rel = REq -> scheduled_in S c s) /\ (rel = RNeq -> ~ scheduled_in S c s)) /\
  (forall i k j m c c' s, slot_of l i k -> slot_of rt j m -> choice_at i k c -> choice_at j m c' ->
     (rel = REq -> (scheduled_in S c s <-> scheduled_in S c' s)) /\
     (rel = RNeq -> ~ (scheduled_in S c s /\ scheduled_in S c' s))) /\
  (forall i j s c, l = OpSlotChoices i -> rt = OpChoice j -> slot_at i s -> choice_at j 0 c ->
     (rel = RContains -> scheduled_in S c s) /\ (rel = RNotContains -> ~ scheduled_in S c s)) /\
  (forall i j s s' c, l = OpSlotChoices i -> rt = OpSlotChoices j -> slot_at i s -> slot_at j s' ->
     rel = REq -> (scheduled_in S c s <-> scheduled_in S c s')) /\
  (forall i k j m c c' p, choosers_of l i k -> choosers_of rt j m -> choice_at i k c -> choice_at j m c' ->
     (strict = false -> held S c /\ held S c') -> rel = REq -> (attends A p c <-> attends A p c')) /\
  (forall i j p c, l = OpChooserChoices i -> rt = OpChoice j -> chooser_at i p -> choice_at j 0 c ->
     (rel = RContains -> (strict = false -> held S c) -> attends A p c) /\ (rel = RNotContains -> ~ attends A p c)) /\
  (forall i j p p' c, l = OpChooserChoices i -> rt = OpChooserChoices j -> chooser_at i p -> chooser_at j p' ->
     rel = REq -> (attends A p c <-> attends A p' c)) /\
  (forall i k j p c, choosers_of l i k -> rt = OpChooser j -> choice_at i k c -> chooser_at j p ->
     (rel = RContains -> (strict = false -> held S c) -> attends A p c) /\ (rel = RNotContains -> ~ attends A p c)) /\
  (forall i z s m, l = OpSlotSize i -> rt = OpInt z -> slot_at i s -> cardinal (fun c => scheduled_in S c s) m ->
     z_rel rel (Z.of_nat m) z).
(** The same from left to right and, with the operator mirrored, from right to left. *)
Definition means (c : operand * rel_kind * operand) : Prop :=
  let '(l, rel, rt) := c in
  means_direct l rel rt /\
  match rel with RContains | RNotContains => True | _ => means_direct rt (mirror_rel rel) l end.
End Means.

(** Specification for C70 and C71: two inputs that differ in their constraints
    only, and two inputs that differ in their names only. *)
From Verif Require Import Base M_Data Spec M_Names M_Build Spec_Input.
From Coq Require Import String.
Notation length := Datatypes.length.

(** The same declared slots, choices and choosers. *)
Definition same_objects (r r' : reader) : Prop :=
  r_slots r' = r_slots r /\ r_choices r' = r_choices r /\ r_choosers r' = r_choosers r.

(** ** Renaming *)
Definition slot_called (r : reader) (i : nat) (n : string) : Prop :=
  exists s, nth_error (r_slots r) i = Some s /\ sl_name s = n.
Definition choice_called (r : reader) (i : nat) (n : string) : Prop :=
  exists p, nth_error (r_choices r) i = Some p /\ p_name p = n.
Definition chooser_called (r : reader) (i : nat) (n : string) : Prop :=
  exists c, nth_error (r_choosers r) i = Some c /\ cs_name c = n.

(** The name under which part [k] (from 0) of a choice called [n] is listed:
    the first part keeps the name, part [k] is listed as "~[k+1] n". *)
Definition listed_as (n : string) (k : nat) : string :=
  if Nat.eqb k 0 then n else ("~[" ++ n_to_string (N.of_nat (k + 1)) ++ "] " ++ n)%string.

(** No two objects of a kind have the same name; a choice is not called like a
    part of another choice. *)
Record clear_names (r : reader) : Prop := {
  cn_slots : forall i j n, slot_called r i n -> slot_called r j n -> i = j;
  cn_choosers : forall i j n, chooser_called r i n -> chooser_called r j n -> i = j;
  cn_choices : forall i j n n' k, choice_called r i n -> choice_called r j n' ->
     (forall q, nth_error (r_choices r) j = Some q -> k < copies q) -> listed_as n' k = n -> i = j /\ k = 0
}.

(** Two accessors for the same object, each by its full name. *)
Definition same_target (r r' : reader) (a a' : accessor) : Prop :=
  a_kind a' = a_kind a /\ a_sub a' = a_sub a /\ a_part a' = a_part a /\
  match a_kind a with
  | ASlot => exists i, slot_called r i (a_name a) /\ slot_called r' i (a_name a')
  | AChoice => exists i, choice_called r i (a_name a) /\ choice_called r' i (a_name a')
  | AChooser => exists i, chooser_called r i (a_name a) /\ chooser_called r' i (a_name a')
  | _ => a_name a' = a_name a
  end.

(** [r'] is [r] with other names. *)
Record renamed (r r' : reader) : Prop := {
  rn_slots : length (r_slots r') = length (r_slots r);
  rn_choices : Forall2 (fun p p' => p_min p' = p_min p /\ p_max p' = p_max p /\ p_parts p' = p_parts p /\ p_optional p' = p_optional p)
                       (r_choices r) (r_choices r');
  rn_choosers : Forall2 (fun c c' => cs_prefs c' = cs_prefs c) (r_choosers r) (r_choosers r');
  rn_exprs : Forall2 (fun e e' => e_rel e' = e_rel e /\ same_target r r' (e_left e) (e_left e') /\
                                  same_target r r' (e_right e) (e_right e')) (r_exprs r) (r_exprs r')
}.

(** The same complaint about [r] and [r']: the same text, except that a wrong number
    of preferences is reported with the name the chooser has. *)
Definition same_complaint (r r' : reader) (m m' : string) : Prop :=
  m' = m \/
  exists i n n', chooser_called r i n /\ chooser_called r' i n' /\
    m = ("Wrong number of preferences given for chooser """ ++ n ++ """.")%string /\
    m' = ("Wrong number of preferences given for chooser """ ++ n' ++ """.")%string.

(** Two processed inputs that differ in names only. *)
Record same_but_names (d d' : input_data) : Prop := {
  sn_slots : length (i_slots d') = length (i_slots d);
  sn_choices : Forall2 (fun c c' => ch_min c' = ch_min c /\ ch_max c' = ch_max c /\ ch_cont c' = ch_cont c /\ ch_optional c' = ch_optional c)
                       (i_choices d) (i_choices d');
  sn_choosers : Forall2 (fun c c' => cs_prefs c' = cs_prefs c) (i_choosers d) (i_choosers d');
  sn_sched : i_sched d' = i_sched d;
  sn_assign : i_assign d' = i_assign d;
  sn_groups : i_groups d' = i_groups d;
  sn_levels : i_levels d' = i_levels d;
  sn_max : i_max_pref d' = i_max_pref d;
  sn_cmap : i_choice_map d' = i_choice_map d;
  sn_pmap : i_chooser_map d' = i_chooser_map d
}.

(** [r'] is [r] with some minima lowered, maxima raised, choices made optional. *)
Record relaxed (r r' : reader) : Prop := {
  rx_slots : r_slots r' = r_slots r;
  rx_choosers : r_choosers r' = r_choosers r;
  rx_exprs : r_exprs r' = r_exprs r;
  rx_choices : Forall2 (fun p p' => p_name p' = p_name p /\ p_parts p' = p_parts p /\
                          (p_min p' <= p_min p)%N /\ (p_max p <= p_max p')%N /\ (p_optional p = true -> p_optional p' = true))
                       (r_choices r) (r_choices r')
}.

(** [r'] is [r] with every preference [x] given as [f x] instead. *)
Record regraded (f : N -> N) (r r' : reader) : Prop := {
  rg_slots : r_slots r' = r_slots r;
  rg_choices : r_choices r' = r_choices r;
  rg_exprs : r_exprs r' = r_exprs r;
  rg_choosers : Forall2 (fun c c' => cs_name c' = cs_name c /\ cs_prefs c' = map f (cs_prefs c)) (r_choosers r) (r_choosers r')
}.

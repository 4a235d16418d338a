(** Specification for C91: what a list of option words says, and which options are
    then in effect. *)
From Verif Require Import Base.
From Verif Require Import M_Script.
From Coq Require Import String Ascii.
Notation length := Datatypes.length.
Notation get := Base.get.
Open Scope string_scope.
Open Scope list_scope.

(** The options of the manual with their names. *)
Inductive key := KInput | KOutput | KAny | KExp | KTimeout | KCsTimeout | KNoCs | KNoCsSimp | KThreads | KNeighbors | KGreedy | KHelp.
Definition names (k : key) : list string :=
  match k with
  | KInput => ["-i"; "--input"]
  | KOutput => ["-o"; "--output"]
  | KAny => ["-a"; "--any"]
  | KExp => ["-p"; "--pref-exp"]
  | KTimeout => ["-t"; "--timeout"]
  | KCsTimeout => ["--cs-timeout"]
  | KNoCs => ["--no-cs"]
  | KNoCsSimp => ["--no-cs-simp"]
  | KThreads => ["-j"; "--threads"]
  | KNeighbors => ["-n"; "--max-neighbors"]
  | KGreedy => ["-g"; "--greedy"]
  | KHelp => ["-h"; "--help"; "--version"]
  end.
Definition with_value (k : key) : Prop :=
  match k with KInput | KOutput | KExp | KTimeout | KCsTimeout | KThreads | KNeighbors => True | _ => False end.

(** [tells ws l]: the words [ws] say, in this order, the options [l] (with their values). *)
Inductive tells : list string -> list (key * string) -> Prop :=
| te_end : tells [] []
| te_value k w v ws l : In w (names k) -> with_value k -> tells ws l -> tells (w :: v :: ws) ((k, v) :: l)
| te_switch k w ws l : In w (names k) -> ~ with_value k -> tells ws l -> tells (w :: ws) ((k, "") :: l).

(** The value given last for an option. *)
Definition last_told (l : list (key * string)) (k : key) (v : string) : Prop :=
  exists l1 l2, l = l1 ++ (k, v) :: l2 /\ forall v', ~ In (k, v') l2.
Definition untold (l : list (key * string)) (k : key) : Prop := forall v, ~ In (k, v) l.
Inductive inputs_told : list (key * string) -> list string -> Prop :=
| it_end : inputs_told [] []
| it_input v l r : inputs_told l r -> inputs_told ((KInput, v) :: l) (v :: r)
| it_other k v l r : k <> KInput -> inputs_told l r -> inputs_told ((k, v) :: l) r.

(** The option [k] with its values read by [reads] is [x], and was [x0] before. *)
Definition setting {A} (reads : string -> A -> Prop) (l : list (key * string)) (k : key) (x0 x : A) : Prop :=
  (exists v, last_told l k v /\ reads v x) \/ untold l k /\ x = x0.
(** A switch is on when it was on or is given. *)
Definition switch (l : list (key * string)) (k : key) (b0 b : bool) : Prop :=
  b = true <-> b0 = true \/ exists v, In (k, v) l.

(** The options [o'] in effect when the options were [o] and then [l] is said. *)
Record in_effect {F} (fl : string -> F -> Prop) (tm : string -> Z -> Prop) (num : string -> N -> Prop)
  (l : list (key * string)) (o o' : settings F) : Prop := {
  ie_inputs : exists r, inputs_told l r /\ s_inputs o' = s_inputs o ++ r;
  ie_output : setting (fun v x => x = Some v) l KOutput (s_output o) (s_output o');
  ie_any : switch l KAny (s_any o) (s_any o');
  ie_exp : setting fl l KExp (s_pref_exp o) (s_pref_exp o');
  ie_timeout : setting tm l KTimeout (s_timeout o) (s_timeout o');
  ie_cs_timeout : setting tm l KCsTimeout (s_cs_timeout o) (s_cs_timeout o');
  ie_no_cs : switch l KNoCs (s_no_cs o) (s_no_cs o');
  ie_no_cs_simp : switch l KNoCsSimp (s_no_cs_simp o) (s_no_cs_simp o');
  ie_threads : setting num l KThreads (s_threads o) (s_threads o');
  ie_neighbors : setting num l KNeighbors (s_max_neighbors o) (s_max_neighbors o');
  ie_greedy : switch l KGreedy (s_greedy o) (s_greedy o')
}.

(** Every value that is said can be read. *)
Definition readable {F} (fl : string -> F -> Prop) (tm : string -> Z -> Prop) (num : string -> N -> Prop) (l : list (key * string)) : Prop :=
  forall k v, In (k, v) l ->
    match k with
    | KExp => exists x, fl v x
    | KTimeout | KCsTimeout => exists x, tm v x
    | KThreads | KNeighbors => exists x, num v x
    | _ => True
    end.

(** What a command line must keep to, beyond what a script may say: no option but
    [--input] twice, no help, and no value that looks like an option. *)
Definition option_like (v : string) : Prop := exists c s, v = String "-" (String c s).
Definition orderly (l : list (key * string)) : Prop :=
  (forall l1 k v l2, l = l1 ++ (k, v) :: l2 -> k <> KInput -> untold l2 k) /\
  (forall k v, In (k, v) l -> k <> KHelp /\ ~ option_like v).

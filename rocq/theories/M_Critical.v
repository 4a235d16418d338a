(** Model of critical sets: /repo/src/critical_set.rs and
    /repo/src/critical_set_analysis.rs. *)
From Verif Require Import Base M_Data.

(** /repo/src/critical_set.rs:1-5 [CriticalSet]. *)
Record cset := mkSet { set_pref : N; set_data : list nat }.
(** /repo/src/critical_set.rs:36-38 [size]. *)
Definition set_size (s : cset) : nat := length (set_data s).
(** derived [PartialEq] *)
(** /repo/src/critical_set.rs:1, used at /repo/src/critical_set_analysis.rs:171. *)
Definition cset_eqb (a b : cset) : bool :=
  (set_pref a =? set_pref b)%N && (if list_eq_dec Nat.eq_dec (set_data a) (set_data b) then true else false).

(** /repo/src/critical_set.rs:21-35: the two-index walk of [is_superset_of]
    (remaining suffixes instead of indices). *)
Fixpoint superset_walk (self other : list nat) : bool :=
  match self with
  | [] => match other with [] => true | _ => false end
  | x :: self' =>
      match other with
      | [] => true
      | y :: other' => match Nat.compare x y with
                       | Lt => superset_walk self' other
                       | Eq => superset_walk self' other'
                       | Gt => false
                       end
      end
  end.
(** /repo/src/critical_set.rs:16-36 [is_superset_of]. *)
Definition is_superset_of (self other : cset) : bool :=
  if set_size self <? set_size other then false else superset_walk (set_data self) (set_data other).
(** /repo/src/critical_set.rs:12-14 [is_covered_by]. *)
Definition is_covered_by (self other : cset) : bool :=
  (set_pref self <=? set_pref other)%N && is_superset_of self other.

(** /repo/src/critical_set_analysis.rs:115-123: the set of one chooser and level. *)
Definition chooser_set (pr : profile) (d : input_data) (pref : N) (chooser : nat) : outcome (list nat * N) :=
  mfold (fun sm choice =>
    let '(s, m) := sm in
    let* c := get (i_choosers d) chooser in
    let* x := get (cs_prefs c) choice in
    if (x <=? pref)%N then
      let* ch := get (i_choices d) choice in
      let* m' := add_u32 pr m (ch_min ch) in
      Ok (s ++ [choice], m')
    else Ok (s, m)) (seq 0 (length (i_choices d))) ([], 0%N).

(** /repo/src/critical_set_analysis.rs:125-130: [choosers * (slots - 1)] as u32. *)
Definition chooser_slots (d : input_data) : outcome N :=
  let v := (N.of_nat (length (i_choosers d)) * N.of_nat (length (i_slots d) - 1))%N in
  if (v <=? u32_max)%N then Ok v else Panic.

(** /repo/src/critical_set_analysis.rs:107-146: one (level, chooser) step. *)
Definition analyze_one (pr : profile) (d : input_data) (sets : list cset) (lc : N * nat) : outcome (list cset) :=
  let '(pref, chooser) := lc in
  let* sm := chooser_set pr d pref chooser in
  let '(data, min_count) := sm in
  let* cap := chooser_slots d in
  if (cap <? min_count)%N then Ok sets
  else
    let candidate := mkSet pref data in
    if existsb (fun other => is_covered_by candidate other) sets then Ok sets
    else Ok (sets ++ [candidate]).

(** /repo/src/critical_set_analysis.rs:106-149: levels in descending order, all
    choosers for each. *)
Definition analyze_sets (pr : profile) (d : input_data) : outcome (list cset) :=
  mfold (analyze_one pr d) (list_prod (rev (i_levels d)) (seq 0 (length (i_choosers d)))) [].

(** /repo/src/critical_set_analysis.rs:157-174: the simplification loop.  The
    index grows and the vector never does, so [length] rounds suffice as fuel. *)
Fixpoint simplify_loop (fuel index : nat) (remaining : list cset) : list cset :=
  match fuel with
  | O => remaining
  | S f => match nth_error remaining index with
           | None => remaining
           | Some current =>
               simplify_loop f (S index)
                 (filter (fun other => cset_eqb current other || negb (is_covered_by other current)) remaining)
           end
  end.
(** /repo/src/critical_set_analysis.rs:158-176: the simplification. *)
Definition simplify_sets (sets : list cset) : list cset := simplify_loop (length sets) 0 sets.

(** [Iterator::min] over sizes. *)
(** Used at /repo/src/critical_set_analysis.rs:37-42. *)
Fixpoint min_size (l : list nat) : option nat :=
  match l with
  | [] => None
  | x :: t => match min_size t with None => Some x | Some y => Some (Nat.min x y) end
  end.

(** /repo/src/critical_set_analysis.rs:35-46: the preference bound. *)
Definition bound_of (d : input_data) (sets : list cset) : N :=
  fold_left (fun b level =>
    match min_size (map set_size (filter (fun s => level <=? set_pref s)%N sets)) with
    | Some m => if length (i_slots d) <=? m then N.min b level else b
    | None => b
    end) (i_levels d) (i_max_pref d).

(** Stable [sort_by_key(CriticalSet::size)]. *)
(** Used at /repo/src/critical_set_analysis.rs:70 and 76. *)
Fixpoint insert_by_size (x : cset) (l : list cset) : list cset :=
  match l with
  | [] => [x]
  | y :: t => if set_size x <=? set_size y then x :: l else y :: insert_by_size x t
  end.
(** /repo/src/critical_set_analysis.rs:70, 76. *)
Definition sort_by_size (l : list cset) : list cset := fold_right insert_by_size [] l.

(** /repo/src/critical_set_analysis.rs:82-89 [insert_minimal_set]. *)
Definition insert_minimal (minimal : list cset) (candidate : cset) : list cset :=
  if existsb (fun s => is_superset_of candidate s) minimal then minimal
  else filter (fun s => negb (is_superset_of s candidate)) minimal ++ [candidate].

(** /repo/src/critical_set_analysis.rs:57-80 [build_cache]: the map from level
    to sets as an association list, levels visited in descending order. *)
Definition cache_step (sets : list cset) (acc : list cset * list (N * list cset)) (level : N)
  : list cset * list (N * list cset) :=
  let '(minimal, cache) := acc in
  let at_level := sort_by_size (filter (fun s => set_pref s =? level)%N sets) in
  let minimal' := sort_by_size (fold_left insert_minimal at_level minimal) in
  (minimal', (level, minimal') :: cache).
(** /repo/src/critical_set_analysis.rs:57-80 [build_cache]. *)
Definition build_cache (d : input_data) (sets : list cset) : list (N * list cset) :=
  snd (fold_left (cache_step sets) (rev (i_levels d)) ([], [])).

(** /repo/src/critical_set_analysis.rs:8-13 [CriticalSetAnalysis]. *)
Record analysis := mkAnalysis { an_sets : list cset; an_cache : list (N * list cset); an_bound : N }.

(** /repo/src/critical_set_analysis.rs:25-51 [CriticalSetAnalysis::new]. *)
Definition new_analysis (pr : profile) (d : input_data) (analyze simplify : bool) : outcome analysis :=
  if analyze then
    let* sets := analyze_sets pr d in
    let sets := if simplify then simplify_sets sets else sets in
    Ok (mkAnalysis sets (build_cache d sets) (bound_of d sets))
  else Ok (mkAnalysis [] [] 0).

(** /repo/src/critical_set_analysis.rs:53-55 [for_preference]. *)
Definition for_preference (a : analysis) (preference : N) : list cset :=
  match find (fun kv => fst kv =? preference)%N (an_cache a) with
  | Some kv => snd kv
  | None => []
  end.

(** /repo/src/prepared_problem.rs:18-25: when the analysis runs. *)
Definition prepare_analysis (pr : profile) (d : input_data) (no_cs greedy no_simplify : bool) : outcome analysis :=
  let do_cs := negb no_cs && negb greedy && (1 <? length (i_slots d)) in
  new_analysis pr d do_cs (do_cs && negb no_simplify).

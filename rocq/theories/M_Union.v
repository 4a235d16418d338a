(** Model of /repo/src/union_find.rs and of the [BTreeMap] grouping idiom. *)
From Verif Require Import Base.

(** /repo/src/union_find.rs:1-6 [UnionFind<usize>].  [elements] maps each
    [0 <= e < n] to itself (lines 17-25), so it is not stored. *)
Record uf := mkUF { uf_parents : list (option nat); uf_heights : list nat }.

(** /repo/src/union_find.rs:13-32 [new]. *)
Definition uf_new (n : nat) : outcome uf :=
  let* _ := to_i32 n in Ok (mkUF (repeat None n) (repeat 0 n)).

(** /repo/src/union_find.rs:51-53, the [while let] loop.  The loop has no bound
    in the code; running out of fuel (which would be an endless loop) is mapped
    to [Panic] and proved impossible. *)
Fixpoint uf_walk (fuel : nat) (ps : list (option nat)) (i : nat) : outcome nat :=
  match fuel with
  | O => Panic
  | S f => let* p := get ps i in
           match p with Some j => uf_walk f ps j | None => Ok i end
  end.

(** /repo/src/union_find.rs:49-55 [find]. *)
Definition uf_find (u : uf) (e : nat) : outcome nat :=
  if e <? length (uf_parents u)
  then uf_walk (S (length (uf_parents u))) (uf_parents u) e
  else Panic.

(** /repo/src/union_find.rs:34-47 [join] (the returned index is never used). *)
Definition uf_join (u : uf) (left right : nat) : outcome uf :=
  let* li := uf_find u left in
  let* ri := uf_find u right in
  if li =? ri then Ok u else
  let* hl := get (uf_heights u) li in
  let* hr := get (uf_heights u) ri in
  let '(li', ri', hl', hr') := if hr <? hl then (ri, li, hr, hl) else (li, ri, hl, hr) in
  let* ps := set (uf_parents u) li' (Some ri') in
  let* hs := set (uf_heights u) ri' (Nat.max hr' (hl' + 1)) in
  Ok (mkUF ps hs).

(** [map.entry(k).or_default().push(v)] on a [BTreeMap<usize, Vec<A>>], kept as a
    list of entries sorted by key. *)
(** Used at /repo/src/union_find.rs:65-68 and /repo/src/constraints.rs:159-162. *)
Fixpoint bt_push {A} (m : list (nat * list A)) (k : nat) (v : A) : list (nat * list A) :=
  match m with
  | [] => [(k, [v])]
  | (k', vs) :: t =>
      if k <? k' then (k, [v]) :: m
      else if k =? k' then (k', vs ++ [v]) :: t
      else (k', vs) :: bt_push t k v
  end.

(** /repo/src/union_find.rs:62-71 [groups]. *)
Definition uf_groups (u : uf) : outcome (list (list nat)) :=
  let* m := mfold (fun m e => let* r := uf_find u e in Ok (bt_push m r e))
                  (seq 0 (length (uf_parents u))) [] in
  Ok (map snd m).

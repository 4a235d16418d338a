(** Base layer: the outcome of running a piece of Rust code, indexing that can
    panic, and 32-bit arithmetic in both build profiles.  No property-specific
    content lives here. *)
From Coq Require Export List Arith NArith ZArith Bool Lia.
From Coq Require String.
Notation string := String.string.
Export ListNotations.

(** [Ok]: normal value; [Err]: the function returned [Result::Err(InputError)]
    (/repo/src/error.rs:1-18; the message text is kept as a string);
    [Panic]: the thread panics (failed index, [expect], [assert], [panic!] or,
    in debug builds, integer overflow). *)
Inductive outcome (A : Type) : Type :=
| Ok (a : A)
| Err (msg : string)
| Panic.
Arguments Ok {A} a.
Arguments Err {A} msg.
Arguments Panic {A}.

(** Rust's [?] and unwinding, for example /repo/src/main.rs:55 and 105-106. *)
Definition bind {A B} (x : outcome A) (f : A -> outcome B) : outcome B :=
  match x with Ok a => f a | Err m => Err m | Panic => Panic end.

Notation "'let*' x ':=' e 'in' f" := (bind e (fun x => f))
  (at level 200, x pattern, e at level 100, f at level 200, right associativity).

(** [v[i]] on a [Vec]: panics when out of range. *)
(** For example /repo/src/assignment_solver.rs:270. *)
Definition get {A} (l : list A) (i : nat) : outcome A :=
  match nth_error l i with Some x => Ok x | None => Panic end.

(** In-range replacement of one element (no effect when out of range). *)
(** The effect of an assignment to an element, for example /repo/src/mip_flow.rs:69. *)
Fixpoint upd {A} (l : list A) (i : nat) (x : A) : list A :=
  match l, i with
  | [], _ => []
  | _ :: t, O => x :: t
  | h :: t, S j => h :: upd t j x
  end.

(** [v[i] = x] on a [Vec]: panics when out of range. *)
(** For example /repo/src/mip_flow.rs:69. *)
Definition set {A} (l : list A) (i : nat) (x : A) : outcome (list A) :=
  if i <? length l then Ok (upd l i x) else Panic.

(** [opt.expect(..)] *)
(** For example /repo/src/scoring.rs:54. *)
Definition expect {A} (o : option A) : outcome A :=
  match o with Some x => Ok x | None => Panic end.

(** [for x in l { state = f(state, x) }] *)
(** For example /repo/src/constraints.rs:8-12. *)
Fixpoint mfold {A B} (f : B -> A -> outcome B) (l : list A) (b : B) : outcome B :=
  match l with
  | [] => Ok b
  | x :: t => let* b' := f b x in mfold f t b'
  end.

(** [for x in l { if !f(x) { return false } } true] *)
(** For example /repo/src/scoring.rs:103-174. *)
Fixpoint mforall {A} (f : A -> outcome bool) (l : list A) : outcome bool :=
  match l with
  | [] => Ok true
  | x :: t => let* b := f x in if b then mforall f t else Ok false
  end.

(** [l.iter().any(f)] *)
(** For example /repo/src/critical_set_analysis.rs:136. *)
Fixpoint mexists {A} (f : A -> outcome bool) (l : list A) : outcome bool :=
  match l with
  | [] => Ok false
  | x :: t => let* b := f x in if b then Ok true else mexists f t
  end.

(** [l.iter().map(f).collect()] *)
(** For example /repo/src/input/input_builder.rs:256-260. *)
Fixpoint mmap {A B} (f : A -> outcome B) (l : list A) : outcome (list B) :=
  match l with
  | [] => Ok []
  | x :: t => let* y := f x in let* ys := mmap f t in Ok (y :: ys)
  end.

(** [l.iter().filter(f).collect()] *)
(** For example /repo/src/scheduling_solver.rs:401-436. *)
Fixpoint mfilter {A} (f : A -> outcome bool) (l : list A) : outcome (list A) :=
  match l with
  | [] => Ok []
  | x :: t => let* b := f x in let* r := mfilter f t in Ok (if b then x :: r else r)
  end.

(** Build profile: integer overflow panics in debug builds, wraps in release. *)
(** Arithmetic such as /repo/src/input/input_builder.rs:78 depends on it; /repo/Cargo.toml has no [profile] section. *)
Inductive profile := Debug | Release.

(** [u32::MAX], for example /repo/src/input/input_builder.rs:237. *)
Definition u32_max : N := 4294967295.
(** [i32::MAX], the limit of conversions such as /repo/src/assignment_solver.rs:374. *)
Definition i32_max : Z := 2147483647.
(** [i32::MIN], for /repo/src/rng.rs:61 and /repo/src/options.rs:71-76. *)
Definition i32_min : Z := -2147483648.

(** [a + b] on [u32]. *)
(** For example /repo/src/assignment_solver.rs:187. *)
Definition add_u32 (p : profile) (a b : N) : outcome N :=
  let r := (a + b)%N in
  if (r <=? u32_max)%N then Ok r
  else match p with Debug => Panic | Release => Ok (r mod 4294967296)%N end.

(** [a - b] on [u32]. *)
(** For example /repo/src/input/input_builder.rs:78. *)
Definition sub_u32 (p : profile) (a b : N) : outcome N :=
  if (b <=? a)%N then Ok (a - b)%N
  else match p with Debug => Panic | Release => Ok (a + 4294967296 - b)%N end.

(** [u32::try_from(usize).unwrap_or(u32::MAX)] *)
(** /repo/src/scheduling.rs:27. *)
Definition sat_u32 (n : nat) : N := N.min (N.of_nat n) u32_max.

(** [i32::try_from(usize).expect(..)] *)
(** For example /repo/src/input/input_builder.rs:218. *)
Definition to_i32 (n : nat) : outcome Z :=
  let z := Z.of_nat n in if (z <=? i32_max)%Z then Ok z else Panic.

(** [Option<usize>] equality test. *)
(** For example /repo/src/assignment_solver.rs:216. *)
Definition opt_nat_eqb (a b : option nat) : bool :=
  match a, b with
  | Some x, Some y => x =? y
  | None, None => true
  | _, _ => false
  end.

(** [Option::is_some], for example /repo/src/scoring.rs:186. *)
Definition is_some {A} (o : option A) : bool :=
  match o with Some _ => true | None => false end.

(** ** Elementary facts *)

Lemma upd_length {A} (l : list A) i x : length (upd l i x) = length l.
Proof. revert i; induction l as [|h t IH]; intros [|i]; cbn; auto. Qed.

Lemma nth_error_upd_same {A} (l : list A) i x :
  i < length l -> nth_error (upd l i x) i = Some x.
Proof.
  revert i; induction l as [|h t IH]; intros [|i] H; cbn in *; try lia; auto.
  apply IH; lia.
Qed.

Lemma nth_error_upd_other {A} (l : list A) i j x :
  i <> j -> nth_error (upd l i x) j = nth_error l j.
Proof.
  revert i j; induction l as [|h t IH]; intros [|i] [|j] H; cbn; auto; try lia.
Qed.

Lemma nth_error_upd {A} (l : list A) i j x :
  nth_error (upd l i x) j =
  if i =? j then (if i <? length l then Some x else None) else nth_error l j.
Proof.
  destruct (Nat.eqb_spec i j) as [->|Hne].
  - destruct (Nat.ltb_spec j (length l)).
    + apply nth_error_upd_same; auto.
    + apply nth_error_None. rewrite upd_length; lia.
  - apply nth_error_upd_other; auto.
Qed.

Lemma opt_nat_eqb_spec a b : opt_nat_eqb a b = true <-> a = b.
Proof.
  destruct a, b; cbn; split; intro H; try congruence.
  - apply Nat.eqb_eq in H; congruence.
  - injection H as ->; apply Nat.eqb_refl.
Qed.

Lemma bind_ok {A B} (x : outcome A) (f : A -> outcome B) b :
  bind x f = Ok b <-> exists a, x = Ok a /\ f a = Ok b.
Proof.
  destruct x; cbn; split.
  - intros H; eauto.
  - intros (a' & E & H); injection E as ->; auto.
  - discriminate.
  - intros (a' & E & H); discriminate.
  - discriminate.
  - intros (a' & E & H); discriminate.
Qed.

Lemma get_ok {A} (l : list A) i x : get l i = Ok x <-> nth_error l i = Some x.
Proof. unfold get; destruct (nth_error l i); split; congruence. Qed.

Lemma set_ok {A} (l : list A) i x l' :
  set l i x = Ok l' <-> i < length l /\ l' = upd l i x.
Proof.
  unfold set; destruct (Nat.ltb_spec i (length l)); split; intro H'.
  - split; [auto | congruence].
  - destruct H' as [_ ->]; auto.
  - discriminate.
  - destruct H'; lia.
Qed.

Lemma mforall_true {A} (f : A -> outcome bool) l :
  mforall f l = Ok true <-> (forall x, In x l -> f x = Ok true).
Proof.
  induction l as [|a t IH]; cbn.
  - split; [intros _ x [] | auto].
  - split.
    + intros H x Hx. apply bind_ok in H as (b & Hb & H). destruct b; [|discriminate].
      destruct Hx as [<-|Hx]; auto. apply IH; auto.
    + intros H. rewrite (H a) by auto. cbn. apply IH; auto.
Qed.

Lemma mforall_ok {A} (f : A -> outcome bool) l :
  (forall x, In x l -> exists b, f x = Ok b) -> exists b, mforall f l = Ok b.
Proof.
  induction l as [|a t IH]; cbn; intros H; eauto.
  destruct (H a) as [b Hb]; auto. rewrite Hb; cbn. destruct b; eauto.
Qed.

Lemma mmap_length {A B} (f : A -> outcome B) l r :
  mmap f l = Ok r -> length r = length l.
Proof.
  revert r; induction l as [|a t IH]; cbn; intros r H.
  - injection H as <-; auto.
  - apply bind_ok in H as (y & _ & H). apply bind_ok in H as (ys & Hys & H).
    injection H as <-; cbn; f_equal; auto.
Qed.

Lemma mmap_nth {A B} (f : A -> outcome B) l r i a :
  mmap f l = Ok r -> nth_error l i = Some a ->
  exists b, nth_error r i = Some b /\ f a = Ok b.
Proof.
  revert r i; induction l as [|h t IH]; cbn; intros r i H Hi.
  - destruct i; discriminate.
  - apply bind_ok in H as (y & Hy & H). apply bind_ok in H as (ys & Hys & H).
    injection H as <-. destruct i; cbn in *.
    + injection Hi as ->; eauto.
    + eapply IH; eauto.
Qed.

Lemma mmap_ok {A B} (f : A -> outcome B) l :
  (forall x, In x l -> exists b, f x = Ok b) -> exists r, mmap f l = Ok r.
Proof.
  induction l as [|a t IH]; cbn; intros H; eauto.
  destruct (H a) as [b Hb]; auto. rewrite Hb; cbn.
  destruct IH as [r Hr]; auto. rewrite Hr; cbn; eauto.
Qed.

Lemma mmap_pure {A B} (f : A -> outcome B) (g : A -> B) l :
  (forall x, In x l -> f x = Ok (g x)) -> mmap f l = Ok (map g l).
Proof.
  induction l as [|a t IH]; cbn; intros H; auto.
  rewrite (H a) by auto; cbn. rewrite IH by auto; auto.
Qed.

Lemma mexists_pure {A} (f : A -> outcome bool) (g : A -> bool) l :
  (forall x, In x l -> f x = Ok (g x)) -> mexists f l = Ok (existsb g l).
Proof.
  induction l as [|a t IH]; cbn; intros H; auto.
  rewrite (H a) by auto; cbn. destruct (g a); auto.
Qed.

Lemma mforall_pure {A} (f : A -> outcome bool) (g : A -> bool) l :
  (forall x, In x l -> f x = Ok (g x)) -> mforall f l = Ok (forallb g l).
Proof.
  induction l as [|a t IH]; cbn; intros H; auto.
  rewrite (H a) by auto; cbn. destruct (g a); auto.
Qed.

Lemma mfilter_pure {A} (f : A -> outcome bool) (g : A -> bool) l :
  (forall x, In x l -> f x = Ok (g x)) -> mfilter f l = Ok (filter g l).
Proof.
  induction l as [|a t IH]; cbn; intros H; auto.
  rewrite (H a) by auto; cbn. rewrite IH by auto; cbn. destruct (g a); auto.
Qed.

Lemma mfold_pure {A B} (f : B -> A -> outcome B) (g : B -> A -> B) l b :
  (forall b x, In x l -> f b x = Ok (g b x)) -> mfold f l b = Ok (fold_left g l b).
Proof.
  revert b; induction l as [|a t IH]; cbn; intros b H; auto.
  rewrite H by auto; cbn. apply IH; auto.
Qed.

Lemma mfold_app {A B} (f : B -> A -> outcome B) l1 l2 b :
  mfold f (l1 ++ l2) b = let* b' := mfold f l1 b in mfold f l2 b'.
Proof.
  revert b; induction l1 as [|a t IH]; cbn; intros b; auto.
  destruct (f b a); cbn; auto.
Qed.

Lemma mfold_inv {A B} (P : B -> Prop) (f : B -> A -> outcome B) l b r :
  P b -> (forall b x b', In x l -> P b -> f b x = Ok b' -> P b') ->
  mfold f l b = Ok r -> P r.
Proof.
  revert b; induction l as [|a t IH]; cbn; intros b Hb Hstep H.
  - injection H as <-; auto.
  - apply bind_ok in H as (b' & Hb' & H).
    apply (IH b'); [eapply Hstep; eauto | | exact H].
    intros b0 x b1 Hx. apply Hstep; auto.
Qed.

Lemma existsb_false {A} (f : A -> bool) l :
  existsb f l = false <-> forall x, In x l -> f x = false.
Proof.
  induction l as [|a t IH]; cbn.
  - split; auto; intros _ x [].
  - rewrite orb_false_iff, IH. split.
    + intros [Ha H] x [<-|Hx]; auto.
    + intros H; split; auto.
Qed.

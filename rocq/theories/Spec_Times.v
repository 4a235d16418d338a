(** Specification for C22: exactly the texts that are read as times. *)
From Verif Require Import Base.
From Verif Require Import Spec_Script.
From Coq Require Import String.
Open Scope string_scope.
Open Scope list_scope.

(** Numbers with units s, m, h, d, w, without anything between them.  A number may be
    missing (it counts as 0), and digits may follow the last unit (they do not count);
    no single number is above 2147483647. *)
Inductive time_like : string -> Z -> Prop :=
| tl_end ds : Forall (fun d => d < 10) ds -> (digits_value ds <= 2147483647)%Z -> time_like (digits_text ds) 0
| tl_more ds u m rest z :
    Forall (fun d => d < 10) ds -> (digits_value ds <= 2147483647)%Z -> In (u, m) units -> time_like rest z ->
    time_like (digits_text ds ++ String u rest) (digits_value ds * m + z).

(** The text begins with a time of more than 2147483647 seconds. *)
Definition too_long (v : string) : Prop := exists a b y, v = (a ++ b)%string /\ time_like a y /\ (2147483647 < y)%Z.
(** The value of one of the two time options. *)
Definition time_option (flag : string) : Prop := In flag ["-t"; "--timeout"; "--cs-timeout"].


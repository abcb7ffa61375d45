(** SpecPath.v: the name of the file that a path leads to. Used only to state theorems. *)
From Coq Require Import String.
From Verif Require Import Base Paths.
Open Scope string_scope.

Definition no_slash (s : string) : Prop := forall a b, s <> a ++ "/" ++ b.
(** What may follow the name without changing it: any number of [/] and [/.]. *)
Inductive padding : string -> Prop :=
| pad_none : padding ""
| pad_slash : forall s, padding s -> padding ("/" ++ s)
| pad_dot : forall s, padding s -> padding ("/." ++ s).
(** [n] is the last name in the path [p]: it follows a slash or nothing, and only padding follows it. *)
Definition names_file (p : path) (n : string) : Prop :=
  no_slash n /\ n <> "" /\ n <> "." /\ n <> ".." /\
  exists before after, p = before ++ n ++ after /\ (before = "" \/ exists b, before = b ++ "/") /\ padding after.
Definition has_name (p : path) : Prop := exists n, names_file p n.

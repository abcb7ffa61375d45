(** SpecBuild.v: what it means for the overflow-checked build and the release build to agree (C46). *)
From Verif Require Import Base.

(** The checked build stops because an arithmetic operation overflowed, or both builds do the same. *)
Definition same_unless_overflow {A} (checked release : outcome A) : Prop :=
  checked = Panic POverflow \/ checked = release.

(** The same for an operation that also leaves a file behind: a stopped checked build has not
    changed the file. *)
Definition same_file_unless_overflow (file : list Z) (checked release : outcome unit * list Z) : Prop :=
  checked = (Panic POverflow, file) \/ checked = release.

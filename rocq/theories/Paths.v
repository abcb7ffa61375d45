(** Paths.v: the parts of std::path::Path used by src/lib.rs, src/manifest/mod.rs and src/rom/mod.rs,
    for Unix paths given as valid UTF-8 strings. *)
From Coq Require Import String Ascii.
From Verif Require Import Base.
Open Scope string_scope.

Definition path := string.

(** Split at ['/']. *)
Fixpoint split_slash (s : string) : list string :=
  match s with
  | EmptyString => [""]
  | String c s' =>
      if Ascii.eqb c "/" then "" :: split_slash s'
      else match split_slash s' with
           | [] => [String c ""]
           | w :: ws => String c w :: ws
           end
  end.

(** Path components other than the root, "." being skipped. *)
Definition components (p : path) : list string :=
  filter (fun c => negb (String.eqb c "" || String.eqb c ".")) (split_slash p).

(** [Path::file_name]: the last component, unless it is [..] or there is none. *)
Definition file_name (p : path) : option string :=
  match last_opt (components p) with
  | Some c => if String.eqb c ".." then None else Some c
  | None => None
  end.

(** Position-free split at the last dot: (before, after). *)
Fixpoint rsplit_dot (s : string) : option (string * string) :=
  match s with
  | EmptyString => None
  | String c s' =>
      match rsplit_dot s' with
      | Some (b, a) => Some (String c b, a)
      | None => if Ascii.eqb c "." then Some ("", s') else None
      end
  end.

(** [Path::extension]: after the last dot of the file name; none when the only dot is leading. *)
Definition extension (p : path) : option string :=
  match file_name p with
  | Some f => match rsplit_dot f with
              | Some (b, a) => if String.eqb b "" then None else Some a
              | None => None
              end
  | None => None
  end.

(** [Path::is_absolute] (Unix: has a root). *)
Definition is_absolute (p : path) : bool :=
  match p with String c _ => Ascii.eqb c "/" | EmptyString => false end.

Definition ends_with_slash (p : path) : bool :=
  match last_opt (list_ascii_of_string p) with Some c => Ascii.eqb c "/" | None => false end.

(** [Path::join]: an absolute argument replaces; otherwise a separator is inserted when needed. *)
Definition join (base p : path) : path :=
  if is_absolute p then p
  else if (String.eqb base "" || ends_with_slash base)%bool then base ++ p
  else base ++ "/" ++ p.

(** Base.v: outcomes, build modes, machine arithmetic and list helpers shared by the model.
    No definition here models a particular function of /repo; they fix how Rust's own
    semantics (panics, overflow, indexing, slicing) are represented. *)
From Coq Require Export ZArith List Bool Lia.
Export ListNotations.
Open Scope Z_scope.

(** Causes of a Rust panic. *)
Inductive panic :=
| POverflow        (* arithmetic overflow, overflow-checked build only *)
| PIndex           (* slice / Vec / array index out of range, bad slice range *)
| PUnwrap          (* Option::unwrap on None, Result::unwrap on Err *)
| PDivZero         (* integer division or remainder by zero *)
| PUnimplemented.  (* unimplemented!() *)

(** Causes of a [Result::Err] in the modelled code. *)
Inductive error :=
| EMoreThanOneVoice   (* src/nspc/track.rs:182 *)
| ECouldntFit         (* src/midi/mod.rs:14, 307, 468 *)
| ENoBaseChunk        (* src/rom/mod.rs:165 *)
| ENoOverflowChunk    (* src/rom/mod.rs:170 *)
| EDoesNotFit         (* src/rom/mod.rs:213, 287 *)
| EParseInt           (* src/lib.rs:139 *)
| EMidiRead           (* src/midi/mod.rs:150, 153 *)
| EIo                 (* std::io::Error *)
| EConvert            (* any error of the song converter passed to the ROM writer *)
| EJson.              (* serde_json error *)

(** Result of running a piece of Rust code. [Diverge] is exhaustion of the fuel of a
    modelled loop; theorems prove that it does not occur. *)
Inductive outcome (A : Type) :=
| Ok (a : A)
| Err (e : error)
| Panic (p : panic)
| Diverge.
Arguments Ok {A} a.
Arguments Err {A} e.
Arguments Panic {A} p.
Arguments Diverge {A}.

Definition bind {A B} (o : outcome A) (f : A -> outcome B) : outcome B :=
  match o with
  | Ok a => f a
  | Err e => Err e
  | Panic p => Panic p
  | Diverge => Diverge
  end.

Declare Scope outcome_scope.
Delimit Scope outcome_scope with outcome.
Notation "'let*' x ':=' e 'in' k" := (bind e (fun x => k))
  (at level 200, x binder, e at level 100, k at level 200, right associativity) : outcome_scope.
Open Scope outcome_scope.

(** Option to outcome: [None] panics with the given cause. *)
Definition or_panic {A} (p : panic) (o : option A) : outcome A :=
  match o with Some a => Ok a | None => Panic p end.

(** Left fold with early exit. *)
Fixpoint ofold {A S} (f : S -> A -> outcome S) (l : list A) (s : S) : outcome S :=
  match l with
  | [] => Ok s
  | x :: l' => let* s' := f s x in ofold f l' s'
  end.

(** Map with early exit. *)
Fixpoint omap {A B} (f : A -> outcome B) (l : list A) : outcome (list B) :=
  match l with
  | [] => Ok []
  | x :: l' => let* y := f x in let* ys := omap f l' in Ok (y :: ys)
  end.

(** Overflow checking: [cargo build]/[cargo test] (Debug) panics, [--release] wraps. *)
Inductive build := Debug | Release.

(** The mathematical result [x] of an operation on unsigned [bits]-bit integers. *)
Definition arith (b : build) (bits x : Z) : outcome Z :=
  if (0 <=? x) && (x <? 2 ^ bits) then Ok x
  else match b with Debug => Panic POverflow | Release => Ok (x mod 2 ^ bits) end.

(** [x as u8], [x as u16], ... on integers: truncation. *)
Definition as_u (bits x : Z) : Z := x mod 2 ^ bits.

Definition is_u (bits x : Z) : Prop := 0 <= x < 2 ^ bits.
Definition u8 (x : Z) : Prop := 0 <= x < 256.
Definition u16 (x : Z) : Prop := 0 <= x < 65536.
Definition u32 (x : Z) : Prop := 0 <= x < 4294967296.
Definition u8b (x : Z) : bool := (0 <=? x) && (x <? 256).

(** [l[i] = v] on a list; [None] when out of range. *)
Fixpoint set_nth {A} (l : list A) (i : nat) (v : A) : option (list A) :=
  match l, i with
  | [], _ => None
  | _ :: l', O => Some (v :: l')
  | x :: l', S i' => match set_nth l' i' v with Some r => Some (x :: r) | None => None end
  end.

(** In-place update of an element known to exist (used with indices below a fixed length). *)
Definition upd {A} (l : list A) (i : nat) (f : A -> A) : list A :=
  match nth_error l i with
  | Some x => firstn i l ++ f x :: skipn (S i) l
  | None => l
  end.

(** [&l[lo..hi]]; panics when [lo > hi] or [hi > len]. *)
Definition slice {A} (l : list A) (lo hi : nat) : outcome (list A) :=
  if (Nat.leb lo hi && Nat.leb hi (length l))%bool
  then Ok (firstn (hi - lo) (skipn lo l))
  else Panic PIndex.

Definition oelse {A} (o : option A) (d : A) : A := match o with Some a => a | None => d end.

Definition is_some {A} (o : option A) : bool := match o with Some _ => true | None => false end.

Fixpoint last_opt {A} (l : list A) : option A :=
  match l with
  | [] => None
  | [x] => Some x
  | _ :: l' => last_opt l'
  end.

(** Index of the first element satisfying [p]. *)
Fixpoint find_index {A} (p : A -> bool) (l : list A) : option nat :=
  match l with
  | [] => None
  | x :: l' => if p x then Some O else option_map S (find_index p l')
  end.

Definition zsum (l : list Z) : Z := fold_right Z.add 0 l.

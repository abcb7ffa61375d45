(** SpecSaving.v: independent descriptions for the size of optimised songs (C53) and the search for
    candidates (C54). Used only to state theorems. *)
From Verif Require Import Base Command Track SeqTree Song.

(** Number of commands of all the tracks of a song, loop bodies included. *)
Definition commands_in (trs : list track) : nat := list_sum (map (@length pcmd) trs).

(** Commands saved when every copy of the body is replaced by calls: the copies go, the body and one
    call per location come. *)
Definition saving (s : sequence) : Z :=
  zsum (map repeat_count (seq_locs s)) * Z.of_nat (length (seq_cmds s))
  - Z.of_nat (length (seq_cmds s)) - Z.of_nat (length (seq_locs s)).

(** A candidate the optimiser is meant to consider: four or more commands, two or more copies. *)
Definition worthwhile (s : sequence) : Prop :=
  (3 < length (seq_cmds s))%nat /\ 2 <= zsum (map repeat_count (seq_locs s)).

(** Node [t'] of tree [t] is reached by the commands [P] (one edge or more). *)
Inductive node_at : tree -> list pcmd -> tree -> Prop :=
| na_here : forall t ec t', In (Edge ec (Some t')) (edges_of t) -> node_at t ec t'
| na_below : forall t ec t1 P t', In (Edge ec (Some t1)) (edges_of t) -> node_at t1 P t' ->
    node_at t (ec ++ P) t'.

(** The bytes of the tracks of a song, one list per track, and their total number. *)
Definition song_bytes (s : song) (l : list (list Z)) : Prop :=
  length l = length (tracks s) /\
  forall i bytes, nth_error l i = Some bytes -> exists refs, write_track s [] i [] = Ok (bytes, refs).
Definition total_bytes (l : list (list Z)) : nat := list_sum (map (@length Z) l).

(** SpecLoop.v: independent descriptions for the call-loop properties (C24-C28). Used only to state
    theorems. *)
From Verif Require Import Base Command Track SeqTree Song.

(** [P] occurs in [tr] at position [c]. *)
Definition occurs (P tr : list pcmd) (c : nat) : Prop :=
  exists pre post, tr = pre ++ P ++ post /\ length pre = c.

(** [n] copies of [P], one after the other. *)
Fixpoint copies (n : nat) (P : list pcmd) : list pcmd :=
  match n with O => [] | S n' => P ++ copies n' P end.

(** What a command list plays as, once every loop call is replaced by the stated number of copies of
    what the called track plays as. *)
Inductive plays_as (song : list track) : list pcmd -> list pcmd -> Prop :=
| pa_nil : plays_as song [] []
| pa_plain : forall pc l out, (forall t n, cmd pc <> CallLoop t n) ->
    plays_as song l out -> plays_as song (pc :: l) (pc :: out)
| pa_call : forall pc t n body body_out l out, cmd pc = CallLoop t n -> 0 <= n ->
    nth_error song t = Some body -> plays_as song body body_out ->
    plays_as song l out -> plays_as song (pc :: l) (copies (Z.to_nat n) body_out ++ out).

(** A track without loop calls. *)
Definition loop_free (tr : track) : Prop :=
  Forall (fun pc => forall t n, cmd pc <> CallLoop t n) tr.

(** No block of four or more commands is directly followed by a copy of itself. *)
Definition no_immediate_repeat (tr : track) : Prop :=
  forall x w y, tr = x ++ w ++ w ++ y -> (length w < 4)%nat.

(** A command that may be moved into a loop body. *)
Definition may_loop (pc : pcmd) : Prop :=
  match cmd pc with CallLoop _ _ => False | PitchSlide _ _ _ => False | _ => True end.
Definition not_tie (pc : pcmd) : Prop := cmd pc <> Tie.

(** A passage of four or more commands that is played twice in a row is new: when it starts being
    repeated (at [q] of track [i]) it has not been played before, neither in an earlier track nor
    earlier in its own, unless the earlier playing (at [p]) is part of the same run, that is, the track
    has repeated itself with that distance ever since, and it starts less than four commands more than
    one copy before. So [A A], [A A A] and [A A x A] are fine, and [A x A A] is not. *)
Definition fresh_repeats (song : list track) : Prop :=
  forall i tr w q, nth_error song i = Some tr -> (4 <= length w)%nat -> Forall may_loop w -> occurs (w ++ w) tr q ->
  forall j tr' p, nth_error song j = Some tr' -> occurs w tr' p -> (j < i \/ j = i /\ p < q)%nat ->
    j = i /\ (q < p + length w + 4)%nat /\ forall k, (p <= k < q)%nat -> nth_error tr k = nth_error tr (k + length w).

(** The tracks [trs] are still played as they were: each has a track at its place in [r] that plays as it. *)
Definition keeps_music (trs r : list track) : Prop :=
  forall i original, nth_error trs i = Some original -> exists optimised, nth_error r i = Some optimised /\ plays_as r optimised original.

(** The extent of the commands a location claims to replace, for a body of [n] commands. *)
Definition claims (n : nat) (l : location) (k : nat) : Prop :=
  (cmd_idx l <= k < cmd_idx l + n * Z.to_nat (repeat_count l))%nat.

(** The location is a genuine run of [repeat_count] copies of [P]. *)
Definition genuine (trs : list track) (P : list pcmd) (l : location) : Prop :=
  exists tr, nth_error trs (track_idx l) = Some tr /\
    occurs (copies (Z.to_nat (repeat_count l)) P) tr (cmd_idx l).

(** A track that may serve as the body of a loop. *)
Definition good_body (P : track) : Prop :=
  (3 < length P)%nat /\ Forall may_loop P /\ exists pc rest, P = pc :: rest /\ not_tie pc.
(** A finished song whose first [n] tracks are the top-level ones: they call only the tracks after
    them, and those are good bodies. *)
Definition well_formed_loops (n : nat) (song : list track) : Prop :=
  (forall i tr pc t k, (i < n)%nat -> nth_error song i = Some tr -> In pc tr -> cmd pc = CallLoop t k ->
     (n <= t < length song)%nat /\ 1 <= k <= 4) /\
  (forall i tr, (n <= i)%nat -> nth_error song i = Some tr -> good_body tr).

(** Every location is a position at which the commands occur; locations of a track are in increasing
    order; no command is claimed twice. *)
Definition sound_candidate (trs : list track) (s : sequence) : Prop :=
  (forall l, In l (seq_locs s) ->
     exists tr, nth_error trs (track_idx l) = Some tr /\ occurs (seq_cmds s) tr (cmd_idx l)) /\
  (forall i j l l', (i < j)%nat -> nth_error (seq_locs s) i = Some l -> nth_error (seq_locs s) j = Some l' ->
     track_idx l = track_idx l' ->
     (cmd_idx l < cmd_idx l')%nat /\ forall k, ~ (claims (length (seq_cmds s)) l k /\ claims (length (seq_cmds s)) l' k)).

(** SpecGrid.v: music on a grid (C79). Used only to state theorems. *)
From Coq Require Import ZArith List.
From Verif Require Import Base Messages SpecMidi.
Open Scope Z_scope.

(** The lines of a grid of [u] steps: the times of 0, u, 2u, ... steps. A step is 1/24 beat, [tpb] ticks are a beat. The
    distance of two lines must be a whole number of ticks. *)
Definition grid (tpb u : Z) : Prop := 0 < u /\ (u * tpb) mod 24 = 0.
(** Tick [t] is on a line. *)
Definition on_line (tpb u t : Z) : Prop := exists j, 24 * t = j * (u * tpb).
(** Tick [t] is on a line or less than a step before one. *)
Definition by_line (tpb u t : Z) : Prop := exists j, 24 * t <= j * (u * tpb) < 24 * t + tpb.

(** Notes start and programs change on lines; notes end on lines, or less than a step before. (A note-on of velocity 0
    ends a note.) *)
Definition on_grid (tpb u : Z) (x : tmsg) : Prop :=
  match fst x with
  | MidiEvent _ (NoteOn _ _ v) => if 0 <? v then on_line tpb u (snd x) else by_line tpb u (snd x)
  | MidiEvent _ (NoteOff _ _ _) => by_line tpb u (snd x)
  | MidiEvent _ (ProgramChange _ _) => on_line tpb u (snd x)
  | _ => True
  end.
(** A file on the grid, of less than 349525 ticks (less a step). *)
Record gridded (tpb u : Z) (ts : list (list message)) : Prop := mk_gridded {
  gr_grid : grid tpb u;
  gr_events : Forall (on_grid tpb u) (flat_map (timed 0) ts);
  gr_ticks : forall x, In x (flat_map (timed 0) ts) -> 24 * (snd x + 1) + tpb < 2 ^ 23
}.
(** A voice on the grid. *)
Definition voice_on_grid (tpb u : Z) (x : tmsg) : Prop :=
  match fst x with
  | MidiEvent _ (NoteOn _ _ _) | MidiEvent _ (ProgramChange _ _) => on_line tpb u (snd x)
  | MidiEvent _ (NoteOff _ _ _) => by_line tpb u (snd x)
  | _ => True
  end.

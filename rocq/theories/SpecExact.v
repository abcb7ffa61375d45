(** SpecExact.v: when a voice has one note at a time (C10). *)
From Verif Require Import Base Messages Track.

(** Is a note on after this event, if one was on ([on]) before? *)
Definition now_on (on : bool) (e : tmsg) : bool :=
  match fst e with
  | MidiEvent _ (NoteOn _ _ _) => true
  | MidiEvent _ (NoteOff _ _ _) => false
  | _ => on
  end.
(** No note-on while a note is on. *)
Definition one_note_on (on : bool) (e : tmsg) : bool :=
  match fst e with MidiEvent _ (NoteOn _ _ _) => negb on | _ => true end.
Fixpoint single_notes (on : bool) (events : list tmsg) : bool :=
  match events with
  | [] => true
  | e :: r => one_note_on on e && single_notes (now_on on e) r
  end.

(** ** When a checked build gives up on a voice (C10). *)
(** The clock of a converted track, in ticks. A rest from [c] to [t] lasts the whole steps in it, a note from [s] to [t] the
    steps it touches; a step is 1/24 beat, and [tpb] ticks are a beat. *)
Definition after_rest (tpb c t : Z) : Z := if c <? t then c + (24 * (t - c) / tpb) * tpb / 24 else c.
Definition after_note (tpb s t : Z) : Z := s + ((24 * (t - s) + tpb - 1) / tpb) * tpb / 24.
(** A note is started at the clock's time, which is behind its own time by part of a step, or ahead of it if the note before
    was lengthened. If it is switched off before the clock's time, the conversion crashes. *)
Inductive voice_fate := Converts | TwoNotes | Crashes.
Fixpoint fate (tpb clock : Z) (start : option Z) (events : list tmsg) : voice_fate :=
  match events with
  | [] => Converts
  | (m, t) :: r =>
      match m, start with
      | MidiEvent _ (NoteOn _ _ _), None => fate tpb (after_rest tpb clock t) (Some (after_rest tpb clock t)) r
      | MidiEvent _ (NoteOn _ _ _), Some _ => TwoNotes
      | MidiEvent _ (NoteOff _ _ _), Some s => if t <? s then Crashes else fate tpb (after_note tpb s t) None r
      | MidiEvent _ (ProgramChange _ _), _ => fate tpb (after_rest tpb clock t) start r
      | _, _ => fate tpb clock start r
      end
  end.

(** SpecSame.v: when two MIDI files are the same music to the converter (C66). *)
From Coq Require Import ZArith List Bool.
From Verif Require Import Base Messages Midi SpecMidi SpecVoices SpecFile SpecHeard.

(** The events the converter acts on: tempo changes, notes, program changes and four controllers (portamento time,
    its low byte, channel volume, portamento switch). All others are ignored: texts, key and time signatures, system
    exclusive messages, pressures, pitch bends, other controllers. *)
Definition matters (x : tmsg) : bool :=
  match fst x with
  | MetaEvent _ SetTempo _ => true
  | MidiEvent _ (NoteOff _ _ _) => true
  | MidiEvent _ (NoteOn _ _ _) => true
  | MidiEvent _ (ProgramChange _ _) => true
  | MidiEvent _ (ControlChange _ n _) => (n =? 5) || (n =? 7) || (n =? 37) || (n =? 65)
  | _ => false
  end.
(** An event without the time since the event before it; its own time is kept beside it. *)
Definition bare (m : message) : message :=
  match m with
  | MetaEvent _ e data => MetaEvent 0 e data
  | MidiEvent _ e => MidiEvent 0 e
  | SysExEvent _ e data => SysExEvent 0 e data
  | TrackChange => TrackChange
  end.
Definition undated (x : tmsg) : tmsg := (bare (fst x), snd x).
(** What matters of a list of events. *)
Definition music (l : list tmsg) : list tmsg := map undated (filter matters l).

(** Same time base, same end (time of the last channel event), and on every channel the same music. *)
Definition same_music (cbs1 cbs2 : list callback) : Prop :=
  beat_ticks cbs1 = beat_ticks cbs2 /\
  (forall t, file_end (tracks_of cbs1) t <-> file_end (tracks_of cbs2) t) /\
  forall c l1 l2, (c < 16)%nat -> stable_sort_of (file_order (tracks_of cbs1) c) l1 ->
    stable_sort_of (file_order (tracks_of cbs2) c) l2 -> music l1 = music l2.
(** No event of one track that matters falls together with one of another track on the same channel (same tick and
    both note-offs, both note-ons or both neither). *)
Definition tracks_apart (t1 t2 : list message) : Prop :=
  forall x y, In x (timed 0 t1) -> In y (timed 0 t2) -> matters x = true -> matters y = true ->
  addressee (fst x) = addressee (fst y) -> same_place x y = false.
(** A file the reader accepts: format 1, with bytes where the types have them and times below 2^32. *)
Definition accepted (cbs : list callback) : Prop :=
  format1 false cbs = true /\ Forall callback_typed cbs /\ file_ok (tracks_of cbs).

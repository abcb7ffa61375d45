(** Messages.v: the message types of the external crate ghakuf 0.5.1 (Cargo.lock:119-120)
    that src/midi/mod.rs and src/nspc/track.rs pattern-match on. [ch], [note], ... are bytes. *)
From Verif Require Import Base.

Inductive midi_event :=
| NoteOff (ch note velocity : Z)
| NoteOn (ch note velocity : Z)
| PolyphonicKeyPressure (ch note velocity : Z)
| ControlChange (ch control data : Z)
| ProgramChange (ch program : Z)
| ChannelPressure (ch pressure : Z)
| PitchBendChange (ch data : Z)
| UnknownEvent (ch : Z).

(** Only [SetTempo] is distinguished by the code; every other meta event is [OtherMeta]. *)
Inductive meta_event := SetTempo | OtherMeta (kind : Z).

Inductive message :=
| MetaEvent (delta_time : Z) (event : meta_event) (data : list Z)
| MidiEvent (delta_time : Z) (event : midi_event)
| SysExEvent (delta_time : Z) (event : Z) (data : list Z)
| TrackChange.

(** A message with its absolute time in ticks: Rust's [(Message, u32)]. *)
Definition tmsg := (message * Z)%type.

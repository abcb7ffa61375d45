(** SpecShift.v: a MIDI file with its times multiplied (C68) and a MIDI file transposed (C69). *)
From Coq Require Import ZArith List Bool.
From Verif Require Import Base Messages Command Track Song Midi SpecMidi SpecVoices SpecFile SpecHeard SpecSame.

(** A message with its key, if it is a note, [d] semitones higher. *)
Definition transpose (d : Z) (m : message) : message :=
  match m with
  | MidiEvent t (NoteOff c n v) => MidiEvent t (NoteOff c (n + d) v)
  | MidiEvent t (NoteOn c n v) => MidiEvent t (NoteOn c (n + d) v)
  | _ => m
  end.
(** A timed message, [d] semitones higher and at [k] times its time. *)
Definition moved (d k : Z) (x : tmsg) : tmsg := (transpose d (fst x), k * snd x).
(** The second file has, track by track, the music of the first (in the sense of [music], C66) with all keys [d]
    semitones higher and all times and the ticks per beat multiplied by [k]. It ends at [k] times the time. *)
Definition rescored (d k : Z) (cbs1 cbs2 : list callback) : Prop :=
  beat_ticks cbs2 = k * beat_ticks cbs1 /\
  (forall t, file_end (tracks_of cbs1) t -> file_end (tracks_of cbs2) (k * t)) /\
  Forall2 (fun t1 t2 => music (timed 0 t2) = map (moved d k) (music (timed 0 t1))) (tracks_of cbs1) (tracks_of cbs2).

(** No event switches portamento on (controller 65, 64 or above). *)
Definition switches_on (m : message) : bool :=
  match m with MidiEvent _ (ControlChange _ 65 v) => 64 <=? v | _ => false end.
Definition no_portamento (cbs : list callback) : Prop := Forall (Forall (fun m => switches_on m = false)) (tracks_of cbs).
(** No notes on the percussion channel (10, numbered 9). *)
Definition drum_note (m : message) : bool :=
  match m with MidiEvent _ (NoteOff 9 _ _) => true | MidiEvent _ (NoteOn 9 _ _) => true | _ => false end.
Definition no_drums (cbs : list callback) : Prop := Forall (Forall (fun m => drum_note m = false)) (tracks_of cbs).
(** All keys are data bytes. *)
Definition key_of (m : message) : option Z :=
  match m with MidiEvent _ (NoteOff _ n _) => Some n | MidiEvent _ (NoteOn _ n _) => Some n | _ => None end.
Definition keys_valid (cbs : list callback) : Prop :=
  Forall (Forall (fun m => forall n, key_of m = Some n -> 0 <= n < 128)) (tracks_of cbs).

(** A command [d] semitones higher: the note bytes and the targets of the pitch slides. *)
Definition higher (d : Z) (c : pcmd) : pcmd :=
  mk_pcmd (duration c) (velocity c) (sustain c)
    (match cmd c with
     | Note p => Note (p + d)
     | PitchSlide a b p => PitchSlide a b (p + d)
     | x => x
     end).

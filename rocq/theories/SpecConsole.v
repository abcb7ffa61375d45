(** SpecConsole.v: what the console plays from a rebuilt ROM (C55) and rebuilding (C56). Used only to state theorems. *)
From Coq Require Import ZArith List Permutation.
From Verif Require Import Base F32 Messages Track Song Paths Manifest Midi Cli SpecMidi SpecNotes SpecVoices SpecVoice SpecLoop SpecRom SpecBank SpecAram SpecPlayback SpecFile.
Open Scope Z_scope.

(** The song at ARAM address [a] is the MIDI file [cbs] in sound: what the driver plays starts one note
    for each note of the file that is switched off, in tune and in time, and no other. *)
Definition sounds_like (mem : Z -> option Z) (a : Z) (cbs : list callback) : Prop :=
  exists notes ns ess, file_notes (tracks_of cbs) notes /\ Permutation ns (filter ended (map drum notes)) /\ song_plays mem a ess /\
    Forall2 (fun x n => heard_at (beat_ticks cbs) (tolerance (beat_ticks cbs) (6 * file_size (tracks_of cbs))) x (nt_on n) (nt_key n))
      (flat_map attacks ess) ns.
(** After its part the song starts again, or stops. *)
Definition starts_again (mem : Z -> option Z) (a : Z) : Prop := holds mem (a + 2) 0xff /\ holds mem (a + 4) a.
Definition stops (mem : Z -> option Z) (a : Z) : Prop := holds mem (a + 2) 0.

(** A MIDI file the converter can render with these options (see C52): [cbs] is its content. *)
Definition good_midi (b : build) (w : world) (order : nat -> notes -> notes) (opt : bool) (p : path) (tf : f32) (cbs : list callback) : Prop :=
  midi_file w p = (cbs, true) /\ Forall callback_typed cbs /\ renderable (beat_ticks cbs) (tracks_of cbs) /\
  exists s0, song_from_midi_file b w order false p tf = Ok s0 /\ Forall seven_bit (tracks s0) /\
    (opt = true -> forall s, song_from_midi_file b w order true p tf = Ok s -> keeps_music (tracks s0) (tracks s)).
(** No block of the bank is loaded at ARAM address 0 (track address 0 means: no track). *)
Definition zero_free (L : layout) : Prop := Forall (fun x => tb_len x = 0 \/ 0 < tb_aram x) (lo_blocks L).

(** [q] is a file on the way from [old] to [new]: each byte is the old one or the new one. *)
Definition half_written (old new q : list Z) : Prop :=
  length q = length old /\ forall n, nth_error q n = nth_error old n \/ nth_error q n = nth_error new n.

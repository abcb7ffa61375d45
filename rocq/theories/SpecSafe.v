(** SpecSafe.v: what is needed for the ROM writer not to crash (C76). Used only to state theorems. *)
From Coq Require Import ZArith List.
From Verif Require Import SpecPath Base F32 Messages Command Track Song Paths Manifest Midi Cli SpecSong SpecMidi SpecVoices SpecVoice SpecJson SpecRom SpecBank Run SpecCommand.
Import ListNotations.
Open Scope Z_scope.

(** The outcome is a value or an error that is reported. *)
Definition reported {A} (o : outcome A) : Prop := (exists a, o = Ok a) \/ (exists e, o = Err e).

(** The slot is empty, or its file has a name and converting it gives an error or a song with valid indices, a first part
    of at most eight tracks, and tracks of at most [room] bytes. *)
Definition slot_safe (conv : path -> f32 -> outcome song) (room : Z) (sd : song_def) : Prop :=
  forall p, Manifest.input sd = Some p -> has_name p /\ reported (conv p (Manifest.tempo_factor sd)) /\
    forall s, conv p (Manifest.tempo_factor sd) = Ok s -> exists l, song_ready s l /\ song_closed s l /\ Forall (fun d => data_len d <= room) l.

(** From the bank's song table to the end of its overflow block, the header of the overflow block included. *)
Definition lo_span (L : layout) (x : Z) : Prop := payload (lo_base L) <= x < payload_end (lo_ovf L).
(** The bank [L1] does not lie over the pointer and the headers of [L2]. *)
Definition clear_of (L1 L2 : layout) : Prop := forall x, lo_span L1 x -> ~ lo_frame L2 x.

(** The file of a MIDI slot, if it is there: a format-1 file with bytes in their ranges. It may be cut short, and its times
    are arbitrary. *)
Definition midi_input (t : tools) (f : files) (p : path) : Prop :=
  forall content cbs complete, f p = Some content -> parse_midi t content = (cbs, complete) ->
    Forall callback_typed cbs /\ Forall (Forall channel_ok) (tracks_of cbs) /\ Forall (Forall midi_valid) (tracks_of cbs) /\ format1 false cbs = true.
(** The file of a JSON slot: a song with valid indices and a first part of at most eight tracks. *)
Definition json_input (t : tools) (f : files) (p : path) : Prop :=
  exists s l, holds_song t f p s /\ song_ready s l /\ song_closed s l.
Definition good_input (t : tools) (f : files) (sd : song_def) : Prop :=
  forall p, Manifest.input sd = Some p -> (mid_file p -> midi_input t f p) /\ (~ mid_file p -> has_name p /\ json_input t f p).
(** No track of a song is longer than the overflow block of its bank. *)
Definition short_songs (conv : path -> f32 -> outcome song) (m : manifest) (Ls : list layout) : Prop :=
  forall k bk L sd p s l, nth_error m k = Some bk -> nth_error Ls k = Some L -> In sd (songs bk) -> Manifest.input sd = Some p ->
    conv p (Manifest.tempo_factor sd) = Ok s -> encodes s l -> Forall (fun d => data_len d <= tb_len (lo_ovf L)) l.

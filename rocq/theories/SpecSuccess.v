(** SpecSuccess.v: when a successful build is known to be a playable ROM (C72). Used only to state theorems. *)
From Coq Require Import ZArith List.
From Verif Require Import Base F32 Command Track Song Paths Manifest Cli SpecSong SpecRom SpecBank Run SpecRun SpecCommand.
Import ListNotations.
Open Scope Z_scope.

(** The file of a slot: a MIDI file whose messages are MIDI messages, or a JSON song whose first part has at most eight
    tracks (or anything that is no song: such a build does not succeed). *)
Definition readable_slot (t : tools) (f : files) (sd : song_def) : Prop :=
  forall p, Manifest.input sd = Some p ->
    (mid_file p -> readable_midi t f p) /\
    (~ mid_file p -> forall s part, holds_song t f p s -> nth_error (parts s) 0 = Some part -> (length part <= 8)%nat).
(** The base block can hold the song table. *)
Definition table_in_base (L : layout) : Prop := 0x46 <= tb_len (lo_base L).
(** In every bank, a track that has to be moved to the overflow block calls no loops and is not longer than that block. *)
Definition moved_tracks_ok (b : build) (conv : path -> f32 -> outcome song) (m : manifest) (Ls : list layout) : Prop :=
  forall k bk L fa ss ls, nth_error m k = Some bk -> nth_error Ls k = Some L -> nth_error first_songs k = Some fa ->
    loaded b conv (songs bk) ss ls -> songs_stay (lo_base L) (lo_ovf L) (payload (lo_base L) + (fa - 0xd000)) ls.
(** No track of the bank's songs is longer than the overflow block. *)
Definition short_tracks (b : build) (conv : path -> f32 -> outcome song) (m : manifest) (Ls : list layout) : Prop :=
  forall k bk L ss ls, nth_error m k = Some bk -> nth_error Ls k = Some L -> loaded b conv (songs bk) ss ls ->
    Forall (fun x => Forall (fun d => data_len d <= tb_len (lo_ovf L)) (snd x)) ls.

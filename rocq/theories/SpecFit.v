(** SpecFit.v: when the songs of a ROM fit (C78). Used only to state theorems. *)
From Coq Require Import ZArith List.
From Verif Require Import Base F32 Command Track Song Paths Manifest SpecSong SpecRom SpecBank.
Import ListNotations.
Open Scope Z_scope.

(** Every slot's file can be converted. *)
Definition all_convert (conv : path -> f32 -> outcome song) (m : manifest) : Prop :=
  forall bk sd p, In bk m -> In sd (songs bk) -> Manifest.input sd = Some p -> exists s, conv p (Manifest.tempo_factor sd) = Ok s.
(** In every bank, the last song ends before the overflow block does: headers and tracks are placed one after the other from
    the end of the song table, and from the first that the base block has no room for, in the overflow block. *)
Definition songs_fit (b : build) (conv : path -> f32 -> outcome song) (m : manifest) (Ls : list layout) : Prop :=
  forall k bk L fa ss ls, nth_error m k = Some bk -> nth_error Ls k = Some L -> nth_error first_songs k = Some fa ->
    loaded b conv (songs bk) ss ls -> songs_end (lo_base L) (lo_ovf L) (payload (lo_base L) + (fa - 0xd000)) ls <= payload_end (lo_ovf L).

(** The sizes of the pieces of a bank's songs, in bytes: the header of each song with its eight track pointers, and each track. *)
Definition song_pieces (x : bool * list (list Z * list call_loop_ref)) : list Z := (header_size (fst x) + 16) :: map data_len (snd x).
Definition pieces (ls : list (bool * list (list Z * list call_loop_ref))) : list Z := flat_map song_pieces ls.
Definition total (l : list Z) : Z := fold_right Z.add 0 l.
(** The bytes for songs in the base block: what the song table leaves. *)
Definition base_room (L : layout) (fa : Z) : Z := tb_len (lo_base L) - (fa - 0xd000).
(** In every bank, the songs are small: together they are not larger than the room in the base block, or together with one more
    piece of the size of the largest they are not larger than the room in the two blocks. *)
Definition small_songs (b : build) (conv : path -> f32 -> outcome song) (m : manifest) (Ls : list layout) : Prop :=
  forall k bk L fa ss ls, nth_error m k = Some bk -> nth_error Ls k = Some L -> nth_error first_songs k = Some fa -> loaded b conv (songs bk) ss ls ->
    total (pieces ls) <= base_room L fa \/
    exists w, Forall (fun n => n <= w) (pieces ls) /\ total (pieces ls) + w <= base_room L fa + tb_len (lo_ovf L).
(** In some bank, the songs are together larger than the room in the two blocks. *)
Definition large_songs (b : build) (conv : path -> f32 -> outcome song) (m : manifest) (Ls : list layout) : Prop :=
  exists k bk L fa ss ls, nth_error m k = Some bk /\ nth_error Ls k = Some L /\ nth_error first_songs k = Some fa /\ loaded b conv (songs bk) ss ls /\
    base_room L fa + tb_len (lo_ovf L) < total (pieces ls).

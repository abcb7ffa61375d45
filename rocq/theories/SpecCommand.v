(** SpecCommand.v: what each command is asked to do (C70). Used only to state theorems. *)
From Coq Require Import ZArith List String.
From Verif Require Import Base F32 Command Track Song Paths SpecPath Manifest Cli SpecSong SpecLoop SpecJson Run.
Import ListNotations.
Open Scope string_scope.
Open Scope Z_scope.

(** ** The directory of a file. *)
(** The name of a file or directory. *)
Definition plain_name (x : string) : Prop := no_slash x /\ x <> "" /\ x <> ".".
(** A file name alone is in the current directory; [/name] is in the root directory; [d/name] is in [d], a directory
    path that ends in a name. *)
Definition directory (p d : path) : Prop :=
  exists name, plain_name name /\
  ((p = name /\ d = "") \/ (p = "/" ++ name /\ d = "/") \/
   (p = d ++ "/" ++ name /\ exists x, plain_name x /\ (d = x \/ exists e, d = e ++ "/" ++ x))).

(** ** The commands that put songs into a ROM. *)
(** What slot [name] of bank [bank] should be. *)
Definition wanted (t : tools) (f : files) (c : cmdline) (bank name : string) (sd : song_def) : Prop :=
  match c with
  | CBuildRom man _ _ => exists content v dir, f man = Some content /\ parse_json t content = Some v /\ directory man dir /\ slot_spec v dir bank name sd
  | CAllOverworld file _ _ => sd = mk_song_def (Some file) DEFAULT_TEMPO_ADJUST true
  | CFileSelect file _ _ => sd = if String.eqb name "File Select" then mk_song_def (Some file) DEFAULT_TEMPO_ADJUST true
                                 else mk_song_def None DEFAULT_TEMPO_ADJUST false
  | _ => False
  end.
(** The list of the game's slots, filled as the command asks. *)
Definition asked (t : tools) (f : files) (c : cmdline) (m : manifest) : Prop :=
  all_slots m /\ forall bank name sd, slot_is m bank name sd -> wanted t f c bank name sd.
(** Where the pointers to the three banks are: the addresses given (in hexadecimal), or those of the game. *)
Definition address_option (c : cmdline) : option (list string) :=
  match c with CBuildRom _ _ x | CAllOverworld _ _ x | CFileSelect _ _ x => x | _ => None end.
Definition addresses (c : cmdline) (al : list Z) : Prop :=
  match address_option c with
  | None => al = [0x914; 0x926; 0x932]
  | Some l => length l = 3%nat /\ Forall2 (fun s n => hex_number s n /\ n < 2 ^ 32) l al
  end.

(** ** The export as JSON. *)
(** The file holds the song as JSON. *)
Definition holds_song (t : tools) (f : files) (p : path) (s : song) : Prop :=
  exists content v, f p = Some content /\ parse_json t content = Some v /\ is_song v s.
(** A song with one voice per track and no calls. *)
Definition flat_song (s : song) : Prop :=
  (length (tracks s) <= 8)%nat /\ parts s = [seq 0 (length (tracks s))] /\ Forall loop_free (tracks s).
(** The same song with some passages called: the voices' tracks come first and play the same commands. *)
Definition compressed (flat s : song) : Prop :=
  parts s = parts flat /\ well_formed_loops (length (tracks flat)) (tracks s) /\
  (fresh_repeats (tracks flat) ->
   forall i o, nth_error (tracks flat) i = Some o -> exists tr, nth_error (tracks s) i = Some tr /\ plays_as (tracks s) tr o).

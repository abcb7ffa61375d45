(** SpecRun.v: specification for C57, C58 and C59 (whole commands over the file system). *)
From Coq Require Import ZArith List String.
From Verif Require Import Base F32 Messages Command Track Song Paths Manifest Midi Json Cli SpecMidi SpecNotes SpecFile SpecVoices SpecVoice SpecRom SpecBank.
From Verif Require Rom.
From Verif Require Import Run.
Import ListNotations.
Open Scope Z_scope.

(** The file a command line names for writing. *)
Definition target (c : cmdline) : option path :=
  match c with
  | CBuildRom _ rom _ | CAllOverworld _ rom _ | CFileSelect _ rom _ => Some rom
  | CDumpMidi _ => None
  | CMidi2Json _ output | CGenFakeRom _ output => Some output
  end.
(** The commands that put songs into a ROM file. *)
Definition builds_rom (c : cmdline) (rom : path) : Prop :=
  match c with
  | CBuildRom _ r _ | CAllOverworld _ r _ | CFileSelect _ r _ => r = rom
  | _ => False
  end.
(** The two of them that take one song. *)
Definition one_song (file_select : bool) (input rom : path) (addrs : option (list string)) : cmdline :=
  if file_select then CFileSelect input rom addrs else CAllOverworld input rom addrs.
Definition same_files (f f' : files) : Prop := forall q, f' q = f q.
Definition same_but (p : path) (f f' : files) : Prop := forall q, q <> p -> f' q = f q.

(** A MIDI file as the parser reports it: with bytes in their ranges and times that fit. *)
Definition readable_midi (t : tools) (f : files) (p : path) : Prop :=
  exists content cbs complete, f p = Some content /\ parse_midi t content = (cbs, complete) /\
    Forall callback_typed cbs /\ file_ok (tracks_of cbs) /\ Forall (Forall midi_valid) (tracks_of cbs).
(** The song's track numbers are machine words, and what the JSON printer writes for it the parser reads. *)
Definition text_kept (t : tools) (s : song) : Prop :=
  Z.of_nat (length (tracks s)) < 2 ^ 64 /\ parse_json t (print_json t (song_to_json s)) = Some (song_to_json s).

(** Two pairs of images, before and after: at each place both received the same byte, or both kept theirs. *)
Definition same_changes (r r' d d' : list Z) : Prop :=
  length r' = length r /\ length d' = length d /\
  forall n, nth_error r' n = nth_error d' n \/ (nth_error r' n = nth_error r n /\ nth_error d' n = nth_error d n).

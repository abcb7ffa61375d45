(** SpecFinished.v: a build that reported success, whatever happened to the tracks that were moved to an overflow block (C73,
    C74, C59). Used only to state theorems. *)
From Coq Require Import ZArith List.
From Verif Require Import Base F32 Messages Command Track Song Paths Manifest Midi Cli SpecSong SpecMidi SpecVoices SpecVoice SpecRom SpecBank SpecSafe SpecEach
  Run SpecRun SpecCommand SpecSuccess.
From Verif Require Rom.
Open Scope Z_scope.

(** The file of a slot is a MIDI file whose bytes are in their ranges, of any length and with any times, or not a MIDI file;
    if that is a song, its first part has at most eight tracks. *)
Definition typed_slot (t : tools) (f : files) (sd : song_def) : Prop :=
  forall p, Manifest.input sd = Some p ->
    (mid_file p -> forall content cbs complete, f p = Some content -> parse_midi t content = (cbs, complete) ->
       Forall callback_typed cbs /\ Forall (Forall midi_valid) (tracks_of cbs)) /\
    (~ mid_file p -> forall s part, holds_song t f p s -> nth_error (parts s) 0 = Some part -> (length part <= 8)%nat).

(** Command [c] has put the songs of [m] into the ROM file [rom], whose content was [r]. Unlike [built], it is not assumed that
    the tracks that are moved call no loops, only that no track is longer than the overflow block of its bank. *)
Record finished (b : build) (t : tools) (order : nat -> notes -> notes) (o : os) (fl : flags) (c : cmdline) (rom : path) (f f' : files)
  (r : list Z) (m : manifest) (Ls : list layout) : Prop := mk_finished {
  fi_order : forall i, permutes (order i);
  fi_command : builds_rom c rom;
  fi_rom : f rom = Some r;
  fi_image : is_image r;
  fi_asked : asked t f c m;
  fi_addresses : addresses c (map lo_addr Ls);
  fi_layouts : Forall (layout_ok r) Ls;
  fi_separate : ForallOrdPairs separate Ls;
  fi_table : Forall table_in_base Ls;
  fi_slots : Forall (fun bk => Forall (typed_slot t f) (songs bk)) m;
  fi_short : short_tracks b (converter b (world_of t f) order (negb (skip_optimization fl))) m Ls;
  fi_write : exists n, os_rom o = Rom.Wrote n /\ (length r <= n)%nat;
  fi_run : run b t order o fl c f = (Ok tt, f')
}.

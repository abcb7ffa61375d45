(** SpecRendered.v: a MIDI file and all that the driver plays of it (C73); a successful build of a ROM (C73, C74). Used
    only to state theorems. *)
From Coq Require Import ZArith List Permutation.
From Verif Require Import Base F32 Messages Command Track Song Paths Manifest Midi Cli SpecMidi SpecNotes SpecVoices SpecVoice SpecNspc SpecLoop SpecRom SpecBank
  SpecAram SpecSong SpecPlayback SpecFile SpecControl SpecGate SpecHeard SpecVolume SpecConsole Run SpecRun SpecCommand SpecSuccess.
From Verif Require Rom.
Open Scope Z_scope.

(** ** One performance of a file. *)
(** [ess] is what the eight voices play and [ns] lists notes of the file. The [i]-th note the driver starts is the [i]-th of
    [ns]: in tune and in time ([re_notes]), with the instrument of its channel's program or drum ([re_instruments], see
    C62) and with the volume of its channel ([re_volumes], see C65). The driver is told the file's tempi in order ([re_tempos], see
    C61), and every voice that plays at all lasts as long as the file ([re_end], see C64). *)
Record rendering (tf : f32) (cbs : list callback) (ns : list note) (ess : list (list event)) : Prop := mk_rendering {
  re_notes : Forall2 (fun x n => heard_at (beat_ticks cbs) (tolerance (beat_ticks cbs) (6 * file_size (tracks_of cbs))) x (nt_on n) (nt_key n))
    (flat_map attacks ess) ns;
  re_instruments : Forall2 (fun x n =>
      heard_at (beat_ticks cbs) (tolerance (beat_ticks cbs) (6 * file_size (tracks_of cbs))) (so_on x, so_pitch x) (nt_on n) (nt_key n) /\
      (forall c l p, nt_ch n = Z.of_nat c -> keeps_program (tracks_of cbs) c -> stable_sort_of (file_order (tracks_of cbs) c) l ->
         program_at l (nt_on n) = Some (nt_ch n, p) -> so_set x = Some (instrument_of_program p)) /\
      (nt_ch n = 9 -> keeps_drums (tracks_of cbs) ->
         exists d k, In (MidiEvent d (NoteOn 9 k (nt_vel n)), nt_on n) (flat_map (timed 0) (tracks_of cbs)) /\
           drum_key 9 k = nt_key n /\ so_set x = Some (drum_instrument k)))
    (flat_map (sounds_with INSTRUMENT) ess) ns;
  re_volumes : Forall2 (fun x n =>
      heard_at (beat_ticks cbs) (tolerance (beat_ticks cbs) (6 * file_size (tracks_of cbs))) (so_on x, so_pitch x) (nt_on n) (nt_key n) /\
      forall c l, nt_ch n = Z.of_nat c -> keeps_volume (tracks_of cbs) c -> stable_sort_of (file_order (tracks_of cbs) c) l ->
        so_set x = Some (channel_volume (volume_at l (nt_on n))))
    (flat_map (sounds_with VOLUME) ess) ns;
  re_tempos : forall l, file_tempos (tracks_of cbs) l ->
    Forall2 (fun x m => control_of tf (fst m) = Some (Tempo (snd x)) /\
        fst x * beat_ticks cbs - 24 * snd m < tolerance (beat_ticks cbs) (6 * file_size (tracks_of cbs)))
      (flat_map (told TEMPO) ess) l;
  re_end : exists end_, file_end (tracks_of cbs) end_ /\
    forall es, In es ess -> es <> [] ->
      Z.abs (played_steps es * beat_ticks cbs - 24 * end_) < tolerance (beat_ticks cbs) (S (6 * file_size (tracks_of cbs)))
}.
(** The same notes with their lengths and velocities (see C60). *)
Definition full_notes (cbs : list callback) (ns : list note) (ess : list (list event)) : Prop :=
  Forall2 (fun x n => exists off, nt_off n = Some off /\
      heard_fully (beat_ticks cbs) (tolerance (beat_ticks cbs) (6 * file_size (tracks_of cbs))) x (nt_on n) off (nt_key n) (nt_vel n))
    (flat_map strikes ess) ns.
(** The driver plays the song at [a], and it is the file: there is one note for every note of the file that is switched off,
    and no other. If [loud], lengths and velocities are right as well. *)
Definition renders (mem : Z -> option Z) (a : Z) (tf : f32) (cbs : list callback) (loud : Prop) : Prop :=
  exists notes ns ess, file_notes (tracks_of cbs) notes /\ Permutation ns (filter ended (map drum notes)) /\ song_plays mem a ess /\
    rendering tf cbs ns ess /\ (loud -> full_notes cbs ns ess).
(** No note is softer than 8, and with loops no loop body ends on a velocity that the caller does not expect (see C28). *)
Definition loud_file (b : build) (w : world) (order : nat -> notes -> notes) (opt : bool) (p : path) (tf : f32) (cbs : list callback) : Prop :=
  (forall notes n, file_notes (tracks_of cbs) notes -> In n notes -> 8 <= nt_vel n) /\
  (opt = true -> forall s, song_from_midi_file b w order opt p tf = Ok s -> Forall (velocity_safe (tracks s)) (tracks s)).

(** ** A successful build. *)
(** Command [c] has put the songs of [m] into the ROM file [rom], whose content was [r] (the conditions of C72). *)
Record built (b : build) (t : tools) (order : nat -> notes -> notes) (o : os) (fl : flags) (c : cmdline) (rom : path) (f f' : files)
  (r : list Z) (m : manifest) (Ls : list layout) : Prop := mk_built {
  bu_order : forall i, permutes (order i);
  bu_command : builds_rom c rom;
  bu_rom : f rom = Some r;
  bu_image : is_image r;
  bu_asked : asked t f c m;
  bu_addresses : addresses c (map lo_addr Ls);
  bu_layouts : Forall (layout_ok r) Ls;
  bu_independent : ForallOrdPairs independent Ls;
  bu_table : Forall table_in_base Ls;
  bu_readable : Forall (fun bk => Forall (readable_slot t f) (songs bk)) m;
  bu_moved : moved_tracks_ok b (converter b (world_of t f) order (negb (skip_optimization fl))) m Ls;
  bu_write : exists n, os_rom o = Rom.Wrote n /\ (length r <= n)%nat;
  bu_run : run b t order o fl c f = (Ok tt, f')
}.
(** Slot [j] of bank [k]: its number among all slots is the index of its entry in the song table of its bank. *)
Definition in_slot (m : manifest) (Ls : list layout) (k j : nat) (L : layout) (sd : song_def) : Prop :=
  exists bk, nth_error m k = Some bk /\ nth_error Ls k = Some L /\ nth_error (songs bk) j = Some sd.
Definition slot_address (m : manifest) (k j : nat) : Z := 0xd000 + 2 * Z.of_nat (count_songs (firstn k m) + j).
(** The program reads neither its manifest nor a song from the ROM file. *)
Definition reads_elsewhere (c : cmdline) (rom : path) (m : manifest) : Prop :=
  (forall man x, c = CBuildRom man rom x -> man <> rom) /\
  forall bk sd p, In bk m -> In sd (songs bk) -> Manifest.input sd = Some p -> p <> rom.

(** PropRendered.v: properties C73 (a file and all that is played of it) and C74 (a successful build as an edit of the ROM
    file). Specification: SpecRendered.v (one performance, a successful build), SpecSuccess.v, SpecCommand.v, SpecConsole.v,
    SpecScore.v, SpecBank.v, and the specifications of C60 (SpecGate.v), C61, C62, C64 (SpecHeard.v) and C65 (SpecVolume.v). *)
From Coq Require Import ZArith List String.
From Verif Require Import Base F32 Messages Command Track Song Paths Manifest Midi Json Cli SpecMidi SpecNotes SpecVoices SpecVoice SpecNspc SpecLoop SpecRom SpecBank SpecAram
  SpecSong SpecPlayback SpecFile SpecHeard SpecConsole SpecScore SpecJson Run SpecRun SpecCommand SpecSuccess SpecRendered RomFinal MidiExamples FileExamples CommandExamples
  SuccessExamples RenderProofs RenderExamples.
From Verif Require Rom.
Import ListNotations.
Open Scope Z_scope.
Open Scope list_scope.

(** C73: a renderable file is converted, with or without loops, and the song is in ARAM. The driver then gives one
    performance that is right in every respect: notes, instruments, volumes, tempi and length, and if the file is loud
    enough also the notes' lengths and velocities. Missing: what C52, C60 to C62, C64 and C65 leave out. *)
Theorem C73_file_renders_partial :
  forall (b : build) (w : world) (order : nat -> notes -> notes) (opt : bool) (p : path) (tf : f32) (s s0 : song)
    (cbs : list callback) (mem : Z -> option Z) (a : Z) (lp : bool) (at_ : list Z),
  midi_file w p = (cbs, true) -> Forall callback_typed cbs -> (forall k, permutes (order k)) ->
  renderable (beat_ticks cbs) (tracks_of cbs) ->
  song_from_midi_file b w order opt p tf = Ok s -> song_from_midi_file b w order false p tf = Ok s0 ->
  Forall seven_bit (tracks s0) -> (opt = true -> keeps_music (tracks s0) (tracks s)) ->
  song_in mem a lp s at_ -> mem 0 = None -> renders mem a tf cbs (loud_file b w order opt p tf cbs).
Proof. exact file_renders. Qed.
Print Assumptions C73_file_renders_partial.
(** A figure played three times in a row, and once more with another instrument: the song calls the figure with repeat
    counts 3 and 1. *)
Example C73_case : forall b,
  midi_file riff_world "song.mid"%string = (riff_file, true) /\ Forall callback_typed riff_file /\ renderable (beat_ticks riff_file) (tracks_of riff_file) /\
  song_from_midi_file b riff_world id_order true "song.mid"%string f32_0_3 = Ok riff_song /\
  song_from_midi_file b riff_world id_order false "song.mid"%string f32_0_3 = Ok riff_flat /\
  Forall seven_bit (tracks riff_flat) /\ keeps_music (tracks riff_flat) (tracks riff_song) /\ song_in riff_mem 0xd000 false riff_song riff_at /\ riff_mem 0 = None /\
  loud_file b riff_world id_order true "song.mid"%string f32_0_3 riff_file /\
  call_loops_of (nth 0 (tracks riff_song) []) = [(1%nat, 3); (1%nat, 1)] /\
  song_plays riff_mem 0xd000 riff_plays /\
  map (fun x => (so_on x, so_pitch x - 0x80 + 24, so_set x)) (flat_map (sounds_with INSTRUMENT) riff_plays) =
    [(0, 60, Some 9); (24, 64, Some 9); (48, 67, Some 9); (72, 64, Some 9); (96, 60, Some 9); (120, 64, Some 9); (144, 67, Some 9); (168, 64, Some 9);
     (192, 60, Some 9); (216, 64, Some 9); (240, 67, Some 9); (264, 64, Some 9); (288, 50, Some 9);
     (312, 60, Some 17); (336, 64, Some 17); (360, 67, Some 17); (384, 64, Some 17); (408, 52, Some 17)].
Proof.
  intros b. split; [reflexivity|]. split; [exact riff_typed|]. split; [exact riff_renderable|]. split; [exact (riff_converts b true)|].
  split; [exact (riff_converts b false)|]. split; [exact riff_short|]. split; [exact riff_fresh|]. split; [exact riff_in|]. split; [reflexivity|].
  split; [exact (riff_loud b)|]. split; [reflexivity|]. split; [exact riff_heard|vm_compute; reflexivity].
Qed.

(** C72: after a command that reports success and a complete write, each slot's entry in the song table leads to the song
    that its file is converted to, and to nothing else. *)
Theorem C72_success_slots :
  forall (b : build) (t : tools) (order : nat -> notes -> notes) (o : os) (fl : flags) (c : cmdline) (rom : path) (f f' : files)
    (r : list Z) (m : manifest) (Ls : list layout),
  built b t order o fl c rom f f' r m Ls ->
  exists r', f' rom = Some r' /\ is_image r' /\ Forall (layout_ok r') Ls /\ same_outside (fun x => exists L, In L Ls /\ lo_data L x) r r' /\
  forall k j L sd, in_slot m Ls k j L sd -> exists s a at_,
    match Manifest.input sd with
    | Some p => converter b (world_of t f) order (negb (skip_optimization fl)) p (Manifest.tempo_factor sd) = Ok s
    | None => song_empty b = Ok s
    end /\
    holds (aram r' (lo_blocks L)) (slot_address m k j) a /\ song_in (aram r' (lo_blocks L)) a (loops sd) s at_.
Proof. exact built_slot. Qed.
Print Assumptions C72_success_slots.
(** C73: and the driver plays it: a MIDI file right in every respect, an empty slot silently, and a JSON file as its
    commands say, loop calls included. Missing: tracks that are moved to the overflow block and call loops or are longer
    than that block (C33, C35); what C67 leaves out; and what the first theorem leaves out ([good_midi], [loud_file]). *)
Theorem C73_rom_renders_partial :
  forall (b : build) (t : tools) (order : nat -> notes -> notes) (o : os) (fl : flags) (c : cmdline) (rom : path) (f f' : files)
    (r : list Z) (m : manifest) (Ls : list layout),
  built b t order o fl c rom f f' r m Ls ->
  exists r', f' rom = Some r' /\ forall k j L sd, in_slot m Ls k j L sd -> zero_free L ->
  exists a, holds (aram r' (lo_blocks L)) (slot_address m k j) a /\
    (if loops sd then starts_again (aram r' (lo_blocks L)) a else stops (aram r' (lo_blocks L)) a) /\
    (forall p cbs, Manifest.input sd = Some p -> mid_file p ->
       good_midi b (world_of t f) order (negb (skip_optimization fl)) p (Manifest.tempo_factor sd) cbs ->
       renders (aram r' (lo_blocks L)) a (Manifest.tempo_factor sd) cbs
         (loud_file b (world_of t f) order (negb (skip_optimization fl)) p (Manifest.tempo_factor sd) cbs)) /\
    (Manifest.input sd = None -> song_plays (aram r' (lo_blocks L)) a (repeat [] 8)) /\
    (forall p s part loud, Manifest.input sd = Some p -> ~ mid_file p -> holds_song t f p s -> song_parts s part ->
       song_calls s -> Forall (fun tr : track => Forall playable tr) (tracks s) ->
       (loud = true -> Forall (fun tr : track => Forall full tr) (tracks s) /\
          Forall (fun i => forall tr, nth_error (tracks s) i = Some tr -> velocity_safe (tracks s) tr) part) ->
       exists ess, song_plays (aram r' (lo_blocks L)) a ess /\ plays_part (plays_track loud s) part ess).
Proof. exact built_renders. Qed.
Print Assumptions C73_rom_renders_partial.
(** The build of C72: file select, slot 10 of the first bank. *)
Example C73_rom_case : forall b skip,
  (exists f', built b cmd_tools id_order cmd_os (mk_flags skip false) cmd_line "rom.sfc"%string cmd_files f' big_rom cmd_manifest big_layouts) /\
  (exists L, in_slot cmd_manifest big_layouts 0 10 L (song_def_default "a.mid"%string)) /\ Forall zero_free big_layouts /\
  good_midi b (world_of cmd_tools cmd_files) id_order (negb skip) "a.mid"%string DEFAULT_TEMPO_ADJUST good_file /\
  loud_file b (world_of cmd_tools cmd_files) id_order (negb skip) "a.mid"%string DEFAULT_TEMPO_ADJUST good_file.
Proof.
  intros b skip. split; [exact (cmd_built b skip)|]. split; [eexists; exact cmd_slot|]. split; [exact cmd_free|].
  split; [exact (cmd_good b (negb skip))|exact (cmd_loud b (negb skip))].
Qed.

(** C74: such a build changes no file but the ROM, and in it nothing but the payloads of the banks' two song blocks: the
    size, every block header and all pointers stay, and all three layouts are still there. Missing: the moved tracks of
    C72 (C33_header_refuted). *)
Theorem C74_safe_edit_partial :
  forall (b : build) (t : tools) (order : nat -> notes -> notes) (o : os) (fl : flags) (c : cmdline) (rom : path) (f f' : files)
    (r : list Z) (m : manifest) (Ls : list layout),
  built b t order o fl c rom f f' r m Ls ->
  (forall x, x <> rom -> f' x = f x) /\
  exists r', f' rom = Some r' /\ is_image r' /\ Forall (layout_ok r') Ls /\ same_outside (fun x => exists L, In L Ls /\ lo_data L x) r r'.
Proof. exact built_safe. Qed.
Print Assumptions C74_safe_edit_partial.
(** C74: running the command again (with any order of the hash map) succeeds and changes no file. *)
Theorem C74_again_partial :
  forall (b : build) (t : tools) (order order2 : nat -> notes -> notes) (o o2 : os) (fl : flags) (c : cmdline) (rom : path) (f f' : files)
    (r : list Z) (m : manifest) (Ls : list layout) (k : nat) (f2 : files) (res : outcome unit),
  built b t order o fl c rom f f' r m Ls -> (forall i, permutes (order2 i)) -> reads_elsewhere c rom m ->
  os_open o2 rom = true -> os_rom o2 = Rom.Wrote k -> run b t order2 o2 fl c f' = (res, f2) -> res = Ok tt /\ same_files f' f2.
Proof. exact built_again. Qed.
Print Assumptions C74_again_partial.
(** C74: a write that was cut short after [n1] bytes is repaired by running the command again: the files are those of an
    uninterrupted build. *)
Theorem C74_resume_partial :
  forall (b : build) (t : tools) (order order1 order2 : nat -> notes -> notes) (o o1 o2 : os) (fl : flags) (c : cmdline) (rom : path) (f f' f1 f2 : files)
    (res : outcome unit) (r : list Z) (m : manifest) (Ls : list layout) (n1 n2 : nat),
  built b t order o fl c rom f f' r m Ls ->
  (forall i, permutes (order1 i)) -> (forall i, permutes (order2 i)) -> reads_elsewhere c rom m ->
  os_rom o1 = Rom.Wrote n1 -> run b t order1 o1 fl c f = (Ok tt, f1) ->
  os_open o2 rom = true -> os_rom o2 = Rom.Wrote n2 -> (length r <= n2)%nat -> run b t order2 o2 fl c f1 = (res, f2) ->
  res = Ok tt /\ same_files f' f2.
Proof. exact built_resume. Qed.
Print Assumptions C74_resume_partial.
Example C74_case : forall b skip,
  (exists f', built b cmd_tools id_order cmd_os (mk_flags skip false) cmd_line "rom.sfc"%string cmd_files f' big_rom cmd_manifest big_layouts) /\
  (forall i, permutes (id_order i)) /\ reads_elsewhere cmd_line "rom.sfc"%string cmd_manifest /\ os_open cmd_os "rom.sfc"%string = true.
Proof. exact (fun b skip => conj (cmd_built b skip) (conj (fun i l => Permutation.Permutation_refl l) (conj cmd_elsewhere eq_refl))). Qed.

(** PropGame.v: property C77 (the default addresses suit the game's ROM, and the sample dummy is the game's ROM without content).
    Specification: SpecGame.v. *)
From Coq Require Import ZArith List String.
From Verif Require Import Base F32 Messages Command Track Song Paths Manifest Midi Json Cli SpecSong SpecMidi SpecVoices SpecRom SpecBank Run SpecRun SpecCommand SpecSuccess SpecSafe SpecEach SpecConsole SpecRendered SpecFinished SpecFit
  RomExamples MidiExamples CommandExamples FinishedExamples SpecGame GameProofs GameBuild GameExamples.
From Verif Require Rom.
Import ListNotations.
Open Scope Z_scope.
Open Scope list_scope.

(** C77: the game's ROM meets what C31 to C78 assume of an image: its three banks, found with the default addresses, have a base
    block with room for the song table and an overflow block, and are apart from each other. *)
Theorem C77_layouts :
  forall (c : cmdline) (r : list Z), address_option c = None -> game_rom r ->
  addresses c (map lo_addr game_layouts) /\ Forall (layout_ok r) game_layouts /\ ForallOrdPairs separate game_layouts /\
  ForallOrdPairs independent game_layouts /\ ForallOrdPairs clear_of game_layouts /\ Forall table_in_base game_layouts /\ Forall zero_free game_layouts.
Proof. exact (fun c r Hc Hr => conj (game_addresses c Hc) (conj (game_all r Hr) (conj game_separate (conj game_independent (conj game_clear game_table))))). Qed.
Print Assumptions C77_layouts.
(** The sample dummy is such an image. *)
Theorem C77_sample : game_rom sample_dummy.
Proof. exact sample_game. Qed.
Print Assumptions C77_sample.

(** C77: the dummy made from the game's ROM with the default addresses is the sample dummy, whatever else is in the ROM: the
    command succeeds and leaves exactly that file, if the file that was there before was not larger and the system takes all
    bytes. *)
Theorem C77_dummy :
  forall (b : build) (t : tools) (order : nat -> notes -> notes) (o : os) (fl : flags) (input output : path) (f : files) (r : list Z) (n : nat),
  f input = Some r -> game_rom r -> (forall old, f output = Some old -> (length old <= length r)%nat) ->
  os_create o output = true -> os_rom o = Rom.Wrote n -> (length r <= n)%nat ->
  run b t order o fl (CGenFakeRom input output) f = (Ok tt, store f output sample_dummy).
Proof. exact game_gen. Qed.
Print Assumptions C77_dummy.
Example C77_dummy_case : game_files "rom.sfc"%string = Some sample_dummy /\ game_rom sample_dummy /\ (forall old, game_files "out.sfc"%string = Some old -> (length old <= length sample_dummy)%nat) /\ os_create game_os "out.sfc"%string = true /\
  exists n, os_rom game_os = Rom.Wrote n /\ (length sample_dummy <= n)%nat.
Proof. exact (conj (RunProofs.store_same _ _ _) (conj sample_game (conj game_new (conj eq_refl game_write)))). Qed.

(** C77: after a successful build the file is still the game's ROM, it differs from the one before in the six song blocks only,
    and every slot leads to its song, under the condition of C72: no moved track calls loops or is longer than the overflow block. *)
Theorem C77_build :
  forall (b : build) (t : tools) (order : nat -> notes -> notes) (o : os) (fl : flags) (c : cmdline) (rom : path) (f f' : files) (r : list Z) (m : manifest),
  (forall i, permutes (order i)) -> builds_rom c rom -> address_option c = None -> f rom = Some r -> game_rom r -> asked t f c m ->
  Forall (fun bk => Forall (readable_slot t f) (songs bk)) m -> moved_tracks_ok b (converter b (world_of t f) order (negb (skip_optimization fl))) m game_layouts ->
  (exists n, os_rom o = Rom.Wrote n /\ (length r <= n)%nat) -> run b t order o fl c f = (Ok tt, f') ->
  exists r', f' rom = Some r' /\ game_rom r' /\ same_outside game_song_data r r' /\
  forall k j L sd, in_slot m game_layouts k j L sd -> exists s a at_,
    match Manifest.input sd with
    | Some p => converter b (world_of t f) order (negb (skip_optimization fl)) p (Manifest.tempo_factor sd) = Ok s
    | None => song_empty b = Ok s
    end /\
    holds (aram r' (lo_blocks L)) (slot_address m k j) a /\ song_in (aram r' (lo_blocks L)) a (loops sd) s at_.
Proof. exact game_built_slot. Qed.
Print Assumptions C77_build.

(** C77: with the default addresses, a release build run on the game's ROM never crashes, under the condition of C76. *)
Theorem C77_release :
  forall (t : tools) (order : nat -> notes -> notes) (o : os) (fl : flags) (c : cmdline) (rom : path) (f : files) (r : list Z) (m : manifest),
  (forall i, permutes (order i)) -> builds_rom c rom -> address_option c = None -> f rom = Some r -> game_rom r -> asked t f c m ->
  Forall (fun bk => Forall (good_input t f) (songs bk)) m -> short_songs (converter Release (world_of t f) order (negb (skip_optimization fl))) m game_layouts ->
  fst (run Release t order o fl c f) = Ok tt \/ exists e, fst (run Release t order o fl c f) = Err e /\ In e [EDoesNotFit; ECouldntFit; EMidiRead; EIo].
Proof. exact game_reports. Qed.
Print Assumptions C77_release.

(** C77: it succeeds exactly if the songs fit into the game's blocks, under the condition of C78. *)
Theorem C77_fits :
  forall (b : build) (t : tools) (order : nat -> notes -> notes) (o : os) (fl : flags) (c : cmdline) (rom : path) (f : files) (r : list Z) (m : manifest),
  (forall i, permutes (order i)) -> builds_rom c rom -> address_option c = None -> f rom = Some r -> game_rom r -> asked t f c m ->
  Forall (fun bk => Forall (good_input t f) (songs bk)) m -> all_convert (converter b (world_of t f) order (negb (skip_optimization fl))) m ->
  short_songs (converter b (world_of t f) order (negb (skip_optimization fl))) m game_layouts -> os_open o rom = true -> (exists n, os_rom o = Rom.Wrote n) ->
  (fst (run b t order o fl c f) = Ok tt /\ songs_fit b (converter b (world_of t f) order (negb (skip_optimization fl))) m game_layouts) \/
  (fst (run b t order o fl c f) = Err EDoesNotFit /\ ~ songs_fit b (converter b (world_of t f) order (negb (skip_optimization fl))) m game_layouts).
Proof. exact game_fits. Qed.
Print Assumptions C77_fits.

(** C77: the sample dummy stands in for the game. If the command succeeds on one of them (more generally, on any image with the
    game's pointers and headers), then it succeeds on every other, with the same bytes written, if no track is longer
    than the overflow block. *)
Theorem C77_stands_in :
  forall (b : build) (t : tools) (order : nat -> notes -> notes) (o : os) (fl : flags) (c : cmdline) (rom : path) (f f' : files) (r : list Z) (m : manifest),
  (forall i, permutes (order i)) -> builds_rom c rom -> address_option c = None -> f rom = Some r -> game_rom r -> asked t f c m ->
  Forall (fun bk => Forall (typed_slot t f) (songs bk)) m -> short_tracks b (converter b (world_of t f) order (negb (skip_optimization fl))) m game_layouts -> reads_elsewhere c rom m ->
  (exists n, os_rom o = Rom.Wrote n /\ (length r <= n)%nat) -> run b t order o fl c f = (Ok tt, f') ->
  forall q, game_rom q -> exists g' r' q', run b t order o fl c (store f rom q) = (Ok tt, g') /\ f' rom = Some r' /\ g' rom = Some q' /\ same_changes r r' q q'.
Proof. exact game_stands_in. Qed.
Print Assumptions C77_stands_in.
(** A song put on the file-select screen of the sample dummy. *)
Example C77_case : forall b skip, let conv := converter b (world_of tight_tools game_files) id_order (negb skip) in
  builds_rom game_line "rom.sfc"%string /\ address_option game_line = None /\ game_files "rom.sfc"%string = Some sample_dummy /\ asked tight_tools game_files game_line tight_manifest /\
  Forall (fun bk => Forall (readable_slot tight_tools game_files) (songs bk)) tight_manifest /\ moved_tracks_ok b conv tight_manifest game_layouts /\
  Forall (fun bk => Forall (good_input tight_tools game_files) (songs bk)) tight_manifest /\ all_convert conv tight_manifest /\ short_songs conv tight_manifest game_layouts /\
  Forall (fun bk => Forall (typed_slot tight_tools game_files) (songs bk)) tight_manifest /\ short_tracks b conv tight_manifest game_layouts /\ reads_elsewhere game_line "rom.sfc"%string tight_manifest /\
  (exists n, os_rom game_os = Rom.Wrote n /\ (length sample_dummy <= n)%nat) /\
  exists f', run b tight_tools id_order game_os (mk_flags skip false) game_line game_files = (Ok tt, f').
Proof.
  exact (fun b skip => conj eq_refl (conj eq_refl (conj (RunProofs.store_same _ _ _) (conj game_asked (conj game_readable (conj (game_unmoved b (negb skip)) (conj game_inputs (conj (game_converts b (negb skip))
    (conj (game_short b (negb skip)) (conj game_typed (conj (game_short_tracks b (negb skip)) (conj game_elsewhere (conj game_write (game_run b skip)))))))))))))).
Qed.

(** PropSuccess.v: property C72 (a build that reports success is a ROM that plays the songs). Specification: SpecSuccess.v,
    SpecCommand.v, SpecConsole.v, SpecScore.v, SpecJson.v, SpecBank.v. *)
From Coq Require Import ZArith List String.
From Verif Require Import Base F32 Messages Command Track Song Paths Manifest Midi Json Cli SpecSong SpecMidi SpecVoices SpecLoop SpecNspc SpecRom SpecBank SpecAram SpecPlayback
  SpecConsole SpecScore SpecJson Run SpecRun SpecCommand SpecSuccess RomFinal MidiExamples FileExamples CommandExamples RomSuccess SuccessExamples.
From Verif Require Rom.
Import ListNotations.
Open Scope Z_scope.
Open Scope list_scope.

(** C72: success of the command and a complete write are enough. Unlike in C70 nothing is assumed about the songs'
    sizes, apart from the tracks that are moved to a bank's overflow block: such a track must call no loops and must not be
    longer than that block (otherwise the program reports success for a broken ROM: C33, C35). Missing: those tracks, and
    what C70 leaves out. *)
Theorem C72_success_heard_partial :
  forall (b : build) (t : tools) (order : nat -> notes -> notes) (o : os) (fl : flags) (c : cmdline) (rom : path) (f f' : files)
    (r : list Z) (m : manifest) (Ls : list layout) (n : nat),
  (forall i, permutes (order i)) -> builds_rom c rom -> f rom = Some r -> is_image r -> asked t f c m ->
  addresses c (map lo_addr Ls) -> Forall (layout_ok r) Ls -> ForallOrdPairs independent Ls -> Forall table_in_base Ls ->
  Forall (fun bk => Forall (readable_slot t f) (songs bk)) m ->
  moved_tracks_ok b (converter b (world_of t f) order (negb (skip_optimization fl))) m Ls ->
  os_rom o = Rom.Wrote n -> (length r <= n)%nat -> run b t order o fl c f = (Ok tt, f') ->
  exists r', f' rom = Some r' /\ length r' = length r /\
  forall k bk L j sd, nth_error m k = Some bk -> nth_error Ls k = Some L -> zero_free L -> nth_error (songs bk) j = Some sd ->
  lo_in r' L /\ exists a, holds (aram r' (lo_blocks L)) (0xd000 + 2 * Z.of_nat (count_songs (firstn k m) + j)) a /\
    (if loops sd then starts_again (aram r' (lo_blocks L)) a else stops (aram r' (lo_blocks L)) a) /\
    (forall p cbs, Manifest.input sd = Some p -> mid_file p ->
       good_midi b (world_of t f) order (negb (skip_optimization fl)) p (Manifest.tempo_factor sd) cbs ->
       sounds_like (aram r' (lo_blocks L)) a cbs) /\
    (Manifest.input sd = None -> song_plays (aram r' (lo_blocks L)) a (repeat [] 8)) /\
    (forall p s part, Manifest.input sd = Some p -> ~ mid_file p -> holds_song t f p s -> song_parts s part ->
       Forall (fun i => forall tr, nth_error (tracks s) i = Some tr -> loop_free tr /\ well_formed tr) part ->
       exists ess, song_plays (aram r' (lo_blocks L)) a ess /\ plays_part (plays_exactly s) part ess).
Proof. exact success_heard. Qed.
Print Assumptions C72_success_heard_partial.
(** File select with addresses on the command line, with and without optimisation. *)
Example C72_case : forall b skip,
  builds_rom cmd_line "rom.sfc"%string /\ cmd_files "rom.sfc"%string = Some big_rom /\ is_image big_rom /\ asked cmd_tools cmd_files cmd_line cmd_manifest /\
  addresses cmd_line (map lo_addr big_layouts) /\ Forall (layout_ok big_rom) big_layouts /\ ForallOrdPairs independent big_layouts /\
  Forall table_in_base big_layouts /\ Forall (fun bk => Forall (readable_slot cmd_tools cmd_files) (songs bk)) cmd_manifest /\
  moved_tracks_ok b (converter b (world_of cmd_tools cmd_files) id_order (negb skip)) cmd_manifest big_layouts /\
  exists f', run b cmd_tools id_order cmd_os (mk_flags skip false) cmd_line cmd_files = (Ok tt, f').
Proof.
  exact (fun b skip => conj eq_refl (conj eq_refl (conj big_image (conj cmd_asked (conj cmd_addresses (conj big_layouts_ok (conj big_independent
    (conj cmd_table (conj cmd_readable (conj (cmd_moved b (negb skip)) (cmd_run b skip))))))))))).
Qed.

(** C72: without the optimisation, when all slots are MIDI files (or empty), the condition on moved tracks is that no track
    is longer than the bank's overflow block. *)
Theorem C72_without_optimisation :
  forall (b : build) (t : tools) (f : files) (order : nat -> notes -> notes) (m : manifest) (Ls : list layout),
  (forall i, permutes (order i)) -> Forall (fun bk => Forall (readable_slot t f) (songs bk)) m ->
  (forall bk sd p, In bk m -> In sd (songs bk) -> Manifest.input sd = Some p -> mid_file p) ->
  short_tracks b (converter b (world_of t f) order false) m Ls ->
  moved_tracks_ok b (converter b (world_of t f) order false) m Ls.
Proof. exact flat_stays. Qed.
Print Assumptions C72_without_optimisation.
Example C72_flat_case : forall b, Forall (fun bk => Forall (readable_slot cmd_tools cmd_files) (songs bk)) cmd_manifest /\
  (forall bk sd p, In bk cmd_manifest -> In sd (songs bk) -> Manifest.input sd = Some p -> mid_file p) /\
  short_tracks b (converter b (world_of cmd_tools cmd_files) id_order false) cmd_manifest big_layouts.
Proof. exact (fun b => conj cmd_readable (conj cmd_all_mid (cmd_short b false))). Qed.
(** C72: the conditions here are weaker than those of C70. *)
Theorem C72_weaker :
  forall (b : build) (conv : path -> f32 -> outcome song) (m : manifest) (Ls : list layout) (sss : list (list song)),
  banks_fit b conv 0 0 m Ls sss -> moved_tracks_ok b conv m Ls.
Proof. exact fits_moved. Qed.
Print Assumptions C72_weaker.

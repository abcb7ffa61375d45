(** PropCommand.v: property C70 (each command does what its arguments ask). Specification: SpecCommand.v, SpecConsole.v,
    SpecScore.v, SpecJson.v, SpecBank.v. *)
From Coq Require Import ZArith List String.
From Verif Require Import Base F32 Messages Command Track Song Paths Manifest Midi Json Cli SpecSong SpecMidi SpecVoices SpecLoop SpecNspc SpecRom SpecBank SpecAram SpecPlayback
  SpecConsole SpecScore SpecJson Run SpecRun SpecCommand RomFinal MidiExamples FileExamples ShiftExamples CommandPaths CommandProofs CommandExamples.
From Verif Require Rom.
Import ListNotations.
Open Scope Z_scope.
Open Scope list_scope.

(** C70, the commands that put songs into a ROM: after a successful run with a complete write the ROM file has its old
    size, and each slot's entry in the song table of its bank leads to the song the command line (or the manifest) asks
    for: a MIDI file in sound, a JSON file as written, or silence; and it starts again or stops as asked. Missing: files
    that are not renderable (C52), songs that do not fit the bank's blocks (C33 to C35), JSON songs with calls (C67). *)
Theorem C70_rom_heard_partial :
  forall (b : build) (t : tools) (order : nat -> notes -> notes) (o : os) (fl : flags) (c : cmdline) (rom : path) (f f' : files)
    (r : list Z) (m : manifest) (Ls : list layout) (sss : list (list song)) (n : nat),
  (forall i, permutes (order i)) -> builds_rom c rom -> f rom = Some r -> is_image r -> asked t f c m ->
  addresses c (map lo_addr Ls) -> Forall (layout_ok r) Ls -> ForallOrdPairs independent Ls ->
  banks_fit b (converter b (world_of t f) order (negb (skip_optimization fl))) 0 0 m Ls sss ->
  os_rom o = Rom.Wrote n -> (length r <= n)%nat -> run b t order o fl c f = (Ok tt, f') ->
  exists r', f' rom = Some r' /\ length r' = length r /\
  forall k bk L j sd, nth_error m k = Some bk -> nth_error Ls k = Some L -> zero_free L -> nth_error (songs bk) j = Some sd ->
  lo_in r' L /\ exists a, holds (aram r' (lo_blocks L)) (0xd000 + 2 * Z.of_nat (count_songs (firstn k m) + j)) a /\
    (if loops sd then starts_again (aram r' (lo_blocks L)) a else stops (aram r' (lo_blocks L)) a) /\
    (forall p cbs, Manifest.input sd = Some p -> mid_file p ->
       good_midi b (world_of t f) order (negb (skip_optimization fl)) p (Manifest.tempo_factor sd) cbs ->
       sounds_like (aram r' (lo_blocks L)) a cbs) /\
    (Manifest.input sd = None -> song_plays (aram r' (lo_blocks L)) a (repeat [] 8)) /\
    (forall p s part, Manifest.input sd = Some p -> ~ mid_file p -> holds_song t f p s -> song_parts s part ->
       Forall (fun i => forall tr, nth_error (tracks s) i = Some tr -> loop_free tr /\ well_formed tr) part ->
       exists ess, song_plays (aram r' (lo_blocks L)) a ess /\ plays_part (plays_exactly s) part ess).
Proof. exact command_heard. Qed.
Print Assumptions C70_rom_heard_partial.
(** File select with addresses on the command line, with and without optimisation. *)
Example C70_rom_case : forall b skip,
  builds_rom cmd_line "rom.sfc"%string /\ cmd_files "rom.sfc"%string = Some big_rom /\ is_image big_rom /\ asked cmd_tools cmd_files cmd_line cmd_manifest /\
  addresses cmd_line (map lo_addr big_layouts) /\ Forall (layout_ok big_rom) big_layouts /\ ForallOrdPairs independent big_layouts /\
  banks_fit b (converter b (world_of cmd_tools cmd_files) id_order (negb skip)) 0 0 cmd_manifest big_layouts cmd_songs /\
  Forall zero_free big_layouts /\ good_midi b (world_of cmd_tools cmd_files) id_order (negb skip) "a.mid"%string DEFAULT_TEMPO_ADJUST good_file /\
  exists f', run b cmd_tools id_order cmd_os (mk_flags skip false) cmd_line cmd_files = (Ok tt, f').
Proof.
  exact (fun b skip => conj eq_refl (conj eq_refl (conj big_image (conj cmd_asked (conj cmd_addresses (conj big_layouts_ok (conj big_independent
    (conj (cmd_fit b (negb skip)) (conj cmd_free (conj (cmd_good b (negb skip)) (cmd_run b skip))))))))))).
Qed.
(** What a manifest file in a directory asks for. *)
Example C70_manifest_case : exists m sd, asked man_tools man_files (CBuildRom "/music/songs.json" "rom.sfc" None) m /\
  slot_is m "indoor" "Boss" sd /\ Manifest.input sd = Some "/music/b.mid"%string.
Proof. exact man_asked. Qed.
(** C70: what the command line asks for is unique, so the slots of the theorem above are those of the program. *)
Theorem C70_asked_unique :
  forall (t : tools) (f : files) (c : cmdline) (m m' : manifest), asked t f c m -> asked t f c m' -> map songs m = map songs m'.
Proof. exact asked_unique. Qed.
Print Assumptions C70_asked_unique.

(** C70, the JSON export: with the flag that skips the optimisation the file holds a song with at most eight tracks, one
    per voice, without calls; without the flag it holds a song with the same parts in which the voices' tracks call only
    tracks after them, one to four times; and if no passage directly repeats itself, every voice's track plays the commands
    it has in the other file. *)
Theorem C70_export :
  forall (b : build) (t : tools) (order order' : nat -> notes -> notes) (o o' : os) (verbose verbose' : bool) (p out out' : path) (f f0 f1 : files),
  (forall k, permutes (order k)) -> (forall k, permutes (order' k)) -> readable_midi t f p ->
  (forall opt s, song_from_midi_file b (world_of t f) order opt p DEFAULT_TEMPO_ADJUST = Ok s -> text_kept t s) ->
  run b t order o (mk_flags true verbose) (CMidi2Json p out) f = (Ok tt, f0) ->
  run b t order' o' (mk_flags false verbose') (CMidi2Json p out') f = (Ok tt, f1) ->
  exists s0 s, holds_song t f0 out s0 /\ holds_song t f1 out' s /\ flat_song s0 /\ compressed s0 s.
Proof. exact export. Qed.
Print Assumptions C70_export.
(** A file with a figure that is played three times: the second export has calls. *)
Example C70_export_case : forall b,
  readable_midi tune_tools tune_files "a.mid"%string /\
  (forall opt s, song_from_midi_file b (world_of tune_tools tune_files) id_order opt "a.mid"%string DEFAULT_TEMPO_ADJUST = Ok s -> text_kept tune_tools s) /\
  (forall skip, exists f', run b tune_tools id_order cmd_os (mk_flags skip false) (CMidi2Json "a.mid" "b.json") tune_files = (Ok tt, f')) /\
  (forall opt, song_from_midi_file b (world_of tune_tools tune_files) id_order opt "a.mid"%string DEFAULT_TEMPO_ADJUST = Ok (if opt then tune_calls else tune_flat)) /\
  fresh_repeats (tracks tune_flat) /\ (0 < calls tune_calls)%nat.
Proof. exact (fun b => conj tune_readable (conj (tune_kept b) (conj (tune_runs b) (conj (tune_both b) (conj tune_varied tune_called))))). Qed.

(** C70, the dummy ROM: the output file has the size of the input, the same block chains at the game's bank addresses,
    the input's bytes where the chains and the pointers to them are, and zero everywhere else. *)
Theorem C70_dummy_partial :
  forall (b : build) (t : tools) (order : nat -> notes -> notes) (o : os) (fl : flags) (input output : path) (f f' : files) (r : list Z) (n : nat),
  f input = Some r -> is_image r -> (forall old, f output = Some old -> (length old <= length r)%nat) ->
  os_rom o = Rom.Wrote n -> (length r <= n)%nat -> run b t order o fl (CGenFakeRom input output) f = (Ok tt, f') ->
  exists d, f' output = Some d /\ length d = length r /\
    (forall a, In a [0x914; 0x926; 0x932] -> bank_chain d a = bank_chain r a /\
       exists bs t, chain r (bank_chain r a) bs t /\ chain d (bank_chain d a) bs t) /\
    (forall x, 0 <= x -> ~ (exists a, In a [0x914; 0x926; 0x932] /\ bank_kept r a x) -> byte d x = 0) /\
    (forall x, 0 <= x -> (exists a, In a [0x914; 0x926; 0x932] /\ bank_kept r a x) -> byte d x = byte r x).
Proof. exact command_dummy. Qed.
Print Assumptions C70_dummy_partial.
Example C70_dummy_case : is_image mini_rom /\
  exists d f', run Debug cmd_tools id_order cmd_os (mk_flags false false) (CGenFakeRom "rom.sfc" "out.sfc") mini_files = (Ok tt, f') /\ f' "out.sfc"%string = Some d /\
  byte mini_rom 2380 <> 0 /\ byte d 2380 = 0 /\ byte d 2366 = byte mini_rom 2366 /\ byte mini_rom 2366 <> 0.
Proof. exact (conj mini_image mini_dummy). Qed.

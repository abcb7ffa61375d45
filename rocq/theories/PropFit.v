(** PropFit.v: property C78 (a build succeeds exactly when the songs fit). Specification: SpecFit.v, SpecBank.v, SpecRom.v,
    SpecSafe.v, SpecCommand.v. *)
From Coq Require Import ZArith List String.
From Verif Require Import Base F32 Messages Command Track Song Paths Manifest Midi Json Cli SpecSong SpecMidi SpecVoices SpecRom SpecBank Run SpecRun SpecCommand SpecSuccess SpecSafe SpecEach SpecFit SpecGame
  RomSafe MidiExamples CommandExamples FinishedExamples FitProofs GameProofs GameBuild GameExamples.
From Verif Require Rom.
Import ListNotations.
Open Scope Z_scope.
Open Scope list_scope.

(** C78: every command that builds a ROM from songs that can be converted succeeds if in every bank the songs end before the
    overflow block does, and reports that they do not fit otherwise. Both builds; nothing is assumed about moved tracks, but no
    track may be longer than the overflow block of its bank (needed: C76_long_refuted). *)
Theorem C78_success :
  forall (b : build) (t : tools) (order : nat -> notes -> notes) (o : os) (fl : flags) (c : cmdline) (rom : path) (f : files)
    (r : list Z) (m : manifest) (Ls : list layout),
  (forall i, permutes (order i)) -> builds_rom c rom -> f rom = Some r -> is_image r -> asked t f c m ->
  addresses c (map lo_addr Ls) -> Forall (layout_ok r) Ls -> ForallOrdPairs clear_of Ls -> Forall table_in_base Ls ->
  Forall (fun bk => Forall (good_input t f) (songs bk)) m ->
  all_convert (converter b (world_of t f) order (negb (skip_optimization fl))) m ->
  short_songs (converter b (world_of t f) order (negb (skip_optimization fl))) m Ls ->
  os_open o rom = true -> (exists n, os_rom o = Rom.Wrote n) ->
  (fst (run b t order o fl c f) = Ok tt /\ songs_fit b (converter b (world_of t f) order (negb (skip_optimization fl))) m Ls) \/
  (fst (run b t order o fl c f) = Err EDoesNotFit /\ ~ songs_fit b (converter b (world_of t f) order (negb (skip_optimization fl))) m Ls).
Proof. exact command_fits. Qed.
Print Assumptions C78_success.

(** C78 in bytes: small songs are written, and songs that are larger than the two blocks are refused. *)
Theorem C78_sizes :
  forall (b : build) (t : tools) (order : nat -> notes -> notes) (o : os) (fl : flags) (c : cmdline) (rom : path) (f : files)
    (r : list Z) (m : manifest) (Ls : list layout),
  (forall i, permutes (order i)) -> builds_rom c rom -> f rom = Some r -> is_image r -> asked t f c m ->
  addresses c (map lo_addr Ls) -> Forall (layout_ok r) Ls -> ForallOrdPairs clear_of Ls -> Forall table_in_base Ls ->
  Forall (fun bk => Forall (good_input t f) (songs bk)) m ->
  all_convert (converter b (world_of t f) order (negb (skip_optimization fl))) m ->
  short_songs (converter b (world_of t f) order (negb (skip_optimization fl))) m Ls ->
  os_open o rom = true -> (exists n, os_rom o = Rom.Wrote n) ->
  (small_songs b (converter b (world_of t f) order (negb (skip_optimization fl))) m Ls -> fst (run b t order o fl c f) = Ok tt) /\
  (large_songs b (converter b (world_of t f) order (negb (skip_optimization fl))) m Ls -> fst (run b t order o fl c f) = Err EDoesNotFit).
Proof. exact command_small. Qed.
Print Assumptions C78_sizes.
(** A song in one slot of the sample dummy is small ... *)
Example C78_small_case : forall b skip, let conv := converter b (world_of tight_tools game_files) id_order (negb skip) in
  builds_rom game_line "rom.sfc"%string /\ game_files "rom.sfc"%string = Some sample_dummy /\ is_image sample_dummy /\
  asked tight_tools game_files game_line tight_manifest /\ addresses game_line (map lo_addr game_layouts) /\ Forall (layout_ok sample_dummy) game_layouts /\
  ForallOrdPairs clear_of game_layouts /\ Forall table_in_base game_layouts /\ Forall (fun bk => Forall (good_input tight_tools game_files) (songs bk)) tight_manifest /\
  all_convert conv tight_manifest /\ short_songs conv tight_manifest game_layouts /\ small_songs b conv tight_manifest game_layouts.
Proof.
  exact (fun b skip => conj eq_refl (conj (RunProofs.store_same _ _ _) (conj (gr_image _ sample_game) (conj game_asked (conj (game_addresses game_line eq_refl) (conj (game_all _ sample_game)
    (conj game_clear (conj (proj1 game_table) (conj game_inputs (conj (game_converts b (negb skip)) (conj (game_short b (negb skip)) (game_small b (negb skip))))))))))))).
Qed.
(** ... and in every slot of a small ROM it is too large. *)
Example C78_large_case : forall b skip, let conv := converter b (world_of tight_tools tight_files) id_order (negb skip) in
  builds_rom full_line "rom.sfc"%string /\ tight_files "rom.sfc"%string = Some tight_rom /\ is_image tight_rom /\
  asked tight_tools tight_files full_line full_manifest /\ addresses full_line (map lo_addr tight_layouts) /\ Forall (layout_ok tight_rom) tight_layouts /\
  ForallOrdPairs clear_of tight_layouts /\ Forall table_in_base tight_layouts /\ Forall (fun bk => Forall (good_input tight_tools tight_files) (songs bk)) full_manifest /\
  all_convert conv full_manifest /\ short_songs conv full_manifest tight_layouts /\ large_songs b conv full_manifest tight_layouts.
Proof.
  exact (fun b skip => conj eq_refl (conj eq_refl (conj tight_image (conj full_asked (conj cmd_addresses (conj (proj1 tight_layouts_ok)
    (conj tight_clear (conj tight_table (conj full_inputs (conj (full_converts b (negb skip)) (conj (full_short b (negb skip)) (full_large b (negb skip))))))))))))).
Qed.

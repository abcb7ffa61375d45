(** PropSafe.v: property C76 (building a ROM never crashes in a release build). Specification: SpecSafe.v, SpecCommand.v,
    SpecBank.v. *)
From Coq Require Import ZArith List String.
From Verif Require Import SpecPath PathProofs Base F32 Messages Command Track Song Paths Manifest Midi Json Cli SpecSong SpecMidi SpecVoices SpecRom SpecBank Run SpecRun SpecCommand SpecSuccess SpecSafe
  RomExamples RomFinal MidiExamples CommandExamples SuccessExamples RomSafe SafeProofs SafeExamples.
From Verif Require Rom.
Import ListNotations.
Open Scope Z_scope.
Open Scope list_scope.

(** C76: a release build run with any ROM-building command succeeds or reports one of four errors, whatever the
    sizes, times and events of the songs, as long as no track is longer than the overflow block of its bank (needed:
    C76_long_refuted) and JSON songs have valid indices. *)
Theorem C76_commands_report :
  forall (t : tools) (order : nat -> notes -> notes) (o : os) (fl : flags) (c : cmdline) (rom : path) (f : files)
    (r : list Z) (m : manifest) (Ls : list layout),
  (forall i, permutes (order i)) -> builds_rom c rom -> f rom = Some r -> is_image r -> asked t f c m ->
  addresses c (map lo_addr Ls) -> Forall (layout_ok r) Ls -> ForallOrdPairs clear_of Ls -> Forall table_in_base Ls ->
  Forall (fun bk => Forall (good_input t f) (songs bk)) m ->
  short_songs (converter Release (world_of t f) order (negb (skip_optimization fl))) m Ls ->
  fst (run Release t order o fl c f) = Ok tt \/
  exists e, fst (run Release t order o fl c f) = Err e /\ In e [EDoesNotFit; ECouldntFit; EMidiRead; EIo].
Proof. exact command_reports. Qed.
Print Assumptions C76_commands_report.
Example C76_case : forall skip, builds_rom cmd_line "rom.sfc"%string /\ cmd_files "rom.sfc"%string = Some big_rom /\ is_image big_rom /\
  asked cmd_tools cmd_files cmd_line cmd_manifest /\ addresses cmd_line (map lo_addr big_layouts) /\ Forall (layout_ok big_rom) big_layouts /\
  ForallOrdPairs clear_of big_layouts /\ Forall table_in_base big_layouts /\ Forall (fun bk => Forall (good_input cmd_tools cmd_files) (songs bk)) cmd_manifest /\
  short_songs (converter Release (world_of cmd_tools cmd_files) id_order (negb skip)) cmd_manifest big_layouts.
Proof.
  exact (fun skip => conj eq_refl (conj eq_refl (conj big_image (conj cmd_asked (conj cmd_addresses (conj big_layouts_ok (conj big_clear
    (conj cmd_table (conj safe_inputs (safe_short (negb skip))))))))))).
Qed.

(** C76: one bank, both builds, verbose or not, any source of songs: the bank is written, with nothing changed outside its
    two blocks and the header between them, or the error is that the songs do not fit or that of a song's conversion. *)
Theorem C76_bank_reports :
  forall (b : build) (verbose : bool) (bk : bank) (r : list Z) (L : layout) (fa : Z) (first : nat) (conv : path -> f32 -> outcome song),
  is_image r -> layout_ok r L -> 0xd000 <= fa -> fa - 0xd000 <= tb_len (lo_base L) ->
  2 * Z.of_nat (first + length (songs bk)) <= fa - 0xd000 -> Forall (slot_safe conv (tb_len (lo_ovf L))) (songs bk) ->
  (exists r', Rom.write_bank b verbose bk r (lo_addr L) fa first conv = Ok r' /\ same_outside (lo_span L) r r' /\ is_image r') \/
  exists e, (e = EDoesNotFit \/ exists sd p, In sd (songs bk) /\ Manifest.input sd = Some p /\ conv p (Manifest.tempo_factor sd) = Err e) /\
    Rom.write_bank b verbose bk r (lo_addr L) fa first conv = Err e.
Proof. exact bank_ends. Qed.
Print Assumptions C76_bank_reports.
(** The bank whose patch lands in a header (C33_header_refuted) is one of these. *)
Example C76_bank_case : is_image header_rom /\ layout_ok header_rom (one_bank_layout 145 184) /\ 0xd036 - 0xd000 <= tb_len (lo_base (one_bank_layout 145 184)) /\
  2 * Z.of_nat (0 + length (songs header_bank)) <= 0xd036 - 0xd000 /\ Forall (slot_safe ex_conv (tb_len (lo_ovf (one_bank_layout 145 184)))) (songs header_bank).
Proof. exact header_case. Qed.

(** C76: the names asked for are needed: no bank is written that has a slot whose path has no file name ([/], [..]). *)
Theorem C76_names_needed :
  forall (b : build) (verbose : bool) (bk : bank) (r : list Z) (addr fa : Z) (first : nat) (conv : path -> f32 -> outcome song) (r' : list Z),
  Rom.write_bank b verbose bk r addr fa first conv = Ok r' ->
  forall sd p, In sd (songs bk) -> Manifest.input sd = Some p -> has_name p.
Proof. exact bank_names. Qed.
Print Assumptions C76_names_needed.
Example C76_names_case : has_name "/songs/a.json"%string /\ has_name "songs/a.json/./"%string /\ ~ has_name "songs/.."%string /\ ~ has_name "/"%string.
Proof. rewrite !has_name_iff. repeat split; vm_compute; congruence. Qed.

(** C76: the bound on the length of tracks is needed, and nothing else about the song is wrong. *)
Theorem C76_long_refuted :
  exists (r : list Z) (L : layout) (bk : bank) (s : song) (l : list (list Z * list call_loop_ref)) (p : panic),
  is_image r /\ layout_ok r L /\ 0xd036 - 0xd000 <= tb_len (lo_base L) /\ 2 * Z.of_nat (length (songs bk)) <= 0xd036 - 0xd000 /\
  song_ready s l /\ song_closed s l /\ Rom.write_bank Release false bk r (lo_addr L) 0xd036 0 (fun _ _ => Ok s) = Panic p.
Proof. exact refute_long. Qed.
Print Assumptions C76_long_refuted.

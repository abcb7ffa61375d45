(** PropRun.v: properties C57, C58 and C59, and C46 for whole commands (the command line over the file
    system). Specification: SpecRun.v. *)
From Coq Require Import ZArith List String.
From Verif Require Import SpecPath PathProofs.
From Verif Require Import Base F32 Messages Command Track Song Paths Manifest Midi Json Cli SpecSong SpecMidi SpecVoices SpecRom SpecBank MidiExamples RomExamples.
From Verif Require Rom.
From Verif Require Import Run SpecRun RunProofs.
Import ListNotations.
Open Scope string_scope.
Open Scope Z_scope.

(** C57: whatever the outcome, no file other than the one named for writing changes, appears or disappears. *)
Theorem C57_only_target :
  forall (b : build) (t : tools) (order : nat -> notes -> notes) (o : os) (fl : flags) (c : cmdline) (f : files) (r : outcome unit) (f' : files),
  run b t order o fl c f = (r, f') -> forall q, target c <> Some q -> f' q = f q.
Proof. exact run_frame. Qed.
Print Assumptions C57_only_target.
(** C57: a command that puts songs into a ROM changes no file at all unless it succeeds, never creates the
    ROM file, and never changes its size. *)
Theorem C57_rom_or_nothing :
  forall (b : build) (t : tools) (order : nat -> notes -> notes) (o : os) (fl : flags) (c : cmdline) (f : files) (r : outcome unit) (f' : files) (rom : path),
  builds_rom c rom -> run b t order o fl c f = (r, f') ->
  (r <> Ok tt -> same_files f f') /\ (f rom = None -> r <> Ok tt) /\
  (forall c, f rom = Some c -> exists c', f' rom = Some c' /\ length c' = length c).
Proof. exact run_rom. Qed.
Print Assumptions C57_rom_or_nothing.
(** C57: dumping a MIDI file writes nothing and reports no error. *)
Theorem C57_dump_reads_only :
  forall (b : build) (t : tools) (order : nat -> notes -> notes) (o : os) (fl : flags) (input : path) (f : files) (r : outcome unit) (f' : files),
  run b t order o fl (CDumpMidi input) f = (r, f') -> f' = f /\ forall e, r <> Err e.
Proof. exact run_dump. Qed.
Print Assumptions C57_dump_reads_only.
(** C57: a reported error of the JSON export leaves all files as they were. *)
Theorem C57_json_error :
  forall (b : build) (t : tools) (order : nat -> notes -> notes) (o : os) (fl : flags) (input output : path) (f : files) (e : error) (f' : files),
  run b t order o fl (CMidi2Json input output) f = (Err e, f') -> f' = f.
Proof. exact run_json_err. Qed.
Print Assumptions C57_json_error.
(** C57: in the release build the verbose flag changes neither the outcome nor any file. *)
Theorem C57_verbose :
  forall (t : tools) (order : nat -> notes -> notes) (o : os) (skip verbose : bool) (c : cmdline) (f : files),
  run Release t order o (mk_flags skip verbose) c f = run Release t order o (mk_flags skip false) c f.
Proof. exact run_verbose. Qed.
Print Assumptions C57_verbose.
(** C57: a failed dummy ROM generation can leave a new, empty file, and an aborted JSON export a prefix. *)
Theorem C57_dummy_leftover_refuted :
  exists b t order o fl input output f f', run b t order o fl (CGenFakeRom input output) f = (Err EIo, f') /\ f output = None /\ f' output = Some [].
Proof. exists Debug, ex_tools, id_order, failing_os, ex_flags, "rom.sfc", "out.sfc", ex_files. exact ex_leftover. Qed.
Print Assumptions C57_dummy_leftover_refuted.
Theorem C57_json_leftover_refuted :
  exists b t order o fl input output f f', run b t order o fl (CMidi2Json input output) f = (Panic PUnwrap, f') /\ f output = None /\ f' output = Some [123].
Proof. eexists Debug, ex_tools, id_order, _, ex_flags, "a.mid", "b.json", ex_files. exact ex_partial_json. Qed.
Print Assumptions C57_json_leftover_refuted.
Example C57_case : builds_rom (CAllOverworld "a.mid" "rom.sfc" None) "rom.sfc" /\ target (CMidi2Json "a.mid" "b.json") = Some "b.json" /\
  run Debug ex_tools id_order ex_os ex_flags (CMidi2Json "a.mid" "b.json") ex_files = (Ok tt, store ex_files "b.json" [123; 125]).
Proof. exact (conj eq_refl (conj eq_refl (proj2 (proj2 ex_json)))). Qed.

(** C46 for whole commands: the overflow-checked build stops on an overflow with all files unchanged, or both
    builds do the same. *)
Theorem C46_run :
  forall (t : tools) (order : nat -> notes -> notes) (o : os) (fl : flags) (c : cmdline) (f : files),
  (fst (run Debug t order o fl c f) = Panic POverflow /\ same_files f (snd (run Debug t order o fl c f))) \/
  run Debug t order o fl c f = run Release t order o fl c f.
Proof. exact run_builds. Qed.
Print Assumptions C46_run.

(** C58: exporting a MIDI file as JSON and putting that into a ROM has the outcome of putting the MIDI file
    in directly, and every file but the JSON file ends up the same. *)
Theorem C58_through_json :
  forall (b : build) (t : tools) (order order' : nat -> notes -> notes) (oj o : os) (fl fl' : flags) (file_select : bool)
    (input js rom : path) (addrs : option (list string)) (f f1 : files) (r : outcome unit) (f2 : files) (r' : outcome unit) (f2' : files),
  (forall k, permutes (order k)) -> (forall k, permutes (order' k)) ->
  mid_file input -> ~ mid_file js -> has_name js -> rom <> js -> readable_midi t f input ->
  verbose_flag fl' = verbose_flag fl ->
  (forall s, song_from_midi_file b (world_of t f) order (negb (skip_optimization fl)) input DEFAULT_TEMPO_ADJUST = Ok s -> text_kept t s) ->
  run b t order oj fl (CMidi2Json input js) f = (Ok tt, f1) ->
  run b t order' o fl (one_song file_select input rom addrs) f = (r, f2) ->
  run b t order' o fl' (one_song file_select js rom addrs) f1 = (r', f2') ->
  r' = r /\ same_but js f2 f2'.
Proof. exact through_json. Qed.
Print Assumptions C58_through_json.
Example C58_case : readable_midi ex_tools ex_files "a.mid" /\
  (forall s, song_from_midi_file Debug (world_of ex_tools ex_files) id_order true "a.mid" DEFAULT_TEMPO_ADJUST = Ok s -> text_kept ex_tools s) /\
  run Debug ex_tools id_order ex_os ex_flags (CMidi2Json "a.mid" "b.json") ex_files = (Ok tt, store ex_files "b.json" [123; 125]).
Proof. exact ex_json. Qed.

(** C59: songs that fit can be put into the dummy exactly when they can be put into the ROM it was made from,
    and then the same bytes are written at the same places. Missing: songs that do not fit the room the
    blocks have, where a header may be overwritten. *)
Theorem C59_dummy_stands_in_partial :
  forall (b : build) (verbose : bool) (conv : path -> f32 -> outcome song) (m : list bank) (Ls : list layout) (sss : list (list song)) (r d : list Z) (n : nat),
  banks_fit b conv 0 0 m Ls sss -> is_image r -> Forall (layout_ok r) Ls -> ForallOrdPairs independent Ls ->
  Rom.fake_image b r (map lo_addr Ls) = Ok d -> (length r <= n)%nat ->
  (forall r', Rom.rom_write b verbose m r true (map lo_addr Ls) conv (Rom.Wrote n) = (Ok tt, r') ->
    exists d', Rom.rom_write b verbose m d true (map lo_addr Ls) conv (Rom.Wrote n) = (Ok tt, d') /\ same_changes r r' d d') /\
  (forall d', Rom.rom_write b verbose m d true (map lo_addr Ls) conv (Rom.Wrote n) = (Ok tt, d') ->
    exists r', Rom.rom_write b verbose m r true (map lo_addr Ls) conv (Rom.Wrote n) = (Ok tt, r') /\ same_changes r r' d d').
Proof. exact dummy_both. Qed.
Print Assumptions C59_dummy_stands_in_partial.
Example C59_case : exists d r', Rom.fake_image Debug ex_rom (map lo_addr ex_layouts) = Ok d /\ d <> ex_rom /\
  Rom.rom_write Debug true ex_banks ex_rom true (map lo_addr ex_layouts) ex_conv (Rom.Wrote (length ex_rom)) = (Ok tt, r') /\ r' <> ex_rom.
Proof. exact ex_dummy. Qed.

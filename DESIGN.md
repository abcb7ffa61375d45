# Formal model of kprevas/midi2spc in Rocq (Coq 8.16.1)

The Rust sources in /repo are read as text; nothing is built or run. The model is executable
Gallina over `Z` (machine integers), `nat` (list positions), `list`, `option` and records.
Each definition cites the file and lines it models.

## Conventions

* **Outcome.** A Rust function that can fail returns `outcome A := Ok a | Err e | Panic p | Diverge`.
  `Err` is `Result::Err`, `Panic` is a Rust panic (index out of range, `unwrap` on `None`,
  arithmetic overflow in an overflow-checked build, division by zero), `Diverge` is fuel exhaustion of
  a modelled `while`/recursion. Theorems exclude `Diverge` by proof, never by assumption.
* **Build mode.** Overflow behaviour depends on the build (`cargo build` / `cargo test` check,
  `cargo build --release` wraps). Arithmetic on `u8/u16/u32/usize` that can overflow takes a
  `build` argument (`Debug | Release`), and theorems are stated for both.
* **Floats.** `f32` is the standard library's executable IEEE model `SpecFloat` at precision 24 /
  emax 128. Facts about it are proved through Flocq (which adds no axioms of its own but uses
  the Coq standard library's real numbers). Float-to-int `as` casts saturate, NaN casts to 0.
* **`usize`** is 64 bits. Sums of addresses and lengths are unbounded in the model (they cannot
  reach 2^64 from 32-bit inputs and in-memory lengths); subtractions are checked/wrapped.
* **External code.** `clap`, `ghakuf` (MIDI file parser), `serde_json` (text parser), `pbr`,
  the OS: not modelled. Their results enter the model as arguments (callback list, JSON value, path
  predicates, number of bytes `write` accepted, iteration order of `HashMap`), and theorems quantify over them.

## Plan per property

(theorem names are in the last table; refuted = the faithful model violates the statement and a
concrete witness is proved)

| id | model | proof plan |
|----|-------|-----------|
| C01 | `Command.v` encoder, `SpecNspc.v` independent decoder | case analysis; range side conditions |
| C02 | `Command.v` and `Track.v` writer; player in `SpecNspc.v` | induction with a simulation relation between writer state and player state |
| C03 | same | induction over commands |
| C04 | `set_sustain` | arithmetic; playable-duration half refuted (96+96) |
| C05,C06 | `get_duration` on SpecFloat | Flocq: Kahan's (m/24)*24 = m plus monotonicity of rounding |
| C07 | `get_duration`, `insert_rest` | arithmetic; refuted beyond 256*127 |
| C08,C09,C10,C12 | `Track::new` as a fold over events | invariant relating the clock, the emitted durations and MIDI time; `SpecPlaced.v` computes the step of every note for any events; refuted for ticks-per-beat not divisible by 24, for notes shorter than a step and for program changes during a note |
| C11,C18,C19,C20,C21 | `channels_to_voices` as a state machine | invariant over the merge loop; oracle for hash order |
| C13 | tempo arithmetic on SpecFloat | Flocq monotonicity |
| C14 | `Track::new` + writer + decoder | exact condition for every event list: durations in 1..127 and note bytes in range; refuted without each of them |
| C15 | `tracks_to_channels` | stable sort specification (sorted + per-key order + permutation) |
| C16,C17 | `find_base_voices` | soundness by induction; completeness by swapping empty voices |
| C22,C23 | `channels_to_voices` | refuted with witnesses; proved for channels with exclusive voices |
| C24-C27 | `SeqTree.v`, `Song.v` | tree invariant (every location is an occurrence); termination by length; with fresh repeats a position counted twice in a tree node never directly follows another, so every run is genuine, and extraction keeps repeats fresh; expansion correct then; refuted in general |
| C28 | player with calls | pitch/timing preserved; velocities refuted |
| C29 | `from_midi` | direct |
| C30,C31 | `Rom.v` | bit arithmetic lemmas |
| C32-C36,C39 | `write_bank`, `write` over a byte-list image | frame invariants; ARAM reader spec; refuted for oversize tracks and for loops in the track that triggers the block switch |
| C36 (any songs) | `write_bank` | the writer's position never moves back and nothing is written before it except the song's table entry (`TableProofs.v`) |
| C37,C38 | `write` over a file + OS write oracle | case analysis; short-write refutation |
| C40 | `gen_fake_rom` | invariant "touched bytes equal the original, others zero" |
| C41,C42 | `Manifest.v` | computation and case analysis over JSON values |
| C43 | `Cli.v` | hex parser vs positional notation |
| C44 | `Json.v` serde data model | round trip by induction; reader equivalent to the relation `is_song` of `SpecJson.v` |
| C45,C46 | verbose/build arguments | relational proofs |
| C47,C48 | `write_track`, `create_pitch_slide` | direct |
| C49 | `midi_read` | every step of the reader shown not to panic; the only error is the missing ninth voice |
| C50,C51 | `Track::new` as a fold | projection of the emitted commands to controls; clock invariant of C08 |
| C52 | `midi_read`, `track_new`, optimiser, encoder, driver in `SpecPlayback.v` | composition of C15, C19, C08, C12, C24, C28; conditions on the file in `SpecFile.v`; for optimised songs the hypothesis is that the loops keep the music (`SpecLoop.keeps_music`), which C24 establishes for fresh repeats |
| C53 | optimiser | each extraction saves its score; bytes refuted |
| C54 | `TreeIter.v` (explicit stack) and the recursive enumeration in `SeqTree.v` | refinement between the two; maximality of the fold |
| C55 | whole path from MIDI file to ARAM | composition of C39 and C52 |
| C56 | `write` run twice, or on any mixture of old and new image | both runs make the same moves (`RomTwice.v`); refuted when a header is overwritten |
| C57,C58,C59 | `Run.v`: every command over a file system | case analysis; converted songs hold bytes (`SongBytes.v`) so C44 applies; moves of C56 between ROM and dummy; a bank depends only on the blocks found (`DummyProofs.v`) |
| C60 | `Track::new`, encoder, driver | per-note invariant of the conversion with the pending rest (`GateProofs.v`), transported to the driver through C28's velocities |
| C61 | MIDI reader, `channels_to_voices`, `Track::new`, driver | tempo changes of a file all reach the first voice in order (induction over the merged events), then C50/C51 and C28 to the driver (`SettingProofs.v`, `FileSettings.v`) |
| C62 | the same | invariant of the voice assignment: the voice that gets a note was last given its channel's program (`FileSettings.v`), then outline of the converted track to the driver |
| C63 | manifest schema, `Manifest::new` | validity as an inductive predicate, inverted along the three levels of the schema (`SchemaProofs.v`) |
| C64 | MIDI reader, `Track::new`, driver | the reader's time span is the last channel event (`EndProofs.v`), then C09 carried to the driver |
| C65 | MIDI reader, `Track::new`, driver | invariant of the voices: the volume in force on the voice is the last of the note's channel (`VolumeProofs.v`), then carried to the driver as C62 |
| C66 | MIDI reader, `Track::new`, `Song::from_midi` | two runs of the whole conversion side by side: same sorted music per channel, same intervals, simulation of the voices (`SameProofs.v`), then equal tracks |
| C67 | JSON reader, song writer, ROM writer, driver | the ROM holds the song (C34), the driver reads stored bytes as `play` does, or with calls by the induction of C28 generalised to any called tracks (`ScoreProofs.v`) |
| C68 | the same, with `get_duration` | the side-by-side runs of C66 with all times multiplied (`ShiftProofs.v`); quantised durations scale exactly when 24 divides the ticks per beat (`ShiftTrack.v`) |
| C69 | the same, with the loop optimiser | the same runs with the keys moved; the optimiser commutes with injective renamings of commands (`OptShift.v`) |
| C70 | `Run.v`, every command from arguments to files | the slots asked for are unique, so C55, C67 and C40 apply to the program's own manifest; converted tracks make no calls (`CommandProofs.v`), then C24 and C26 |
| C71 | `Track.v` and `SpecPorta.v` (the slides a voice asks for) | second invariant of the C09 loop, relating the last command emitted to the end of the last note (`PortaProofs.v`) |
| C72 | `Run.v`, `Rom.v` and `SpecSuccess.v` (readable slots, moved tracks) | success of the write gives the encoded songs and their byte ranges, hence the conditions of C70 (`RomSuccess.v`) |
| C73 | `SpecRendered.v`: one performance with notes, lengths, velocities, instruments, volumes, tempi and end | the lemmas behind C52, C60 to C62, C64 and C65 share one reading of the file (`FileProofs.file_reading`); what is played is unique, so they speak of one performance (`RenderProofs.v`); the ROM part follows from C72's lemmas |
| C74 | `SpecRendered.built` (a successful command with a complete write) | success gives C56's conditions (`RomSuccess.v`); the files read do not include the ROM, so a second run reads the same songs (`RenderProofs.v`); `SpecFinished.v`: success without the condition on moved tracks: a bank changes one song at most besides what it writes (`RomEach.v`, `FinishedProofs.v`) |
| C75 | the reader, converter and optimiser in a release build | C49's release theorem; wrapping arithmetic always has a result and rests are never empty, so no step of the conversion fails (`ExactProofs.v`); messages of voices are those of the file (`NoCrash.v`); C25 for the optimiser |
| C76 | the ROM writer and the commands, without assuming that songs fit | every write of the writer falls between the song table and the end of the overflow block (`RomSafe.v`): invariant on the cursor for tracks, headers, parts and patches, and exact reason of each failure; converted songs have valid indices and bytes (C24 to C26); C75 for the conversion (`SafeProofs.v`) |
| C77 | the commands with the default addresses; the shipped dummy as a list of bytes | the game's layout meets the hypotheses of C31 to C78, whatever the other bytes; the dummy by extensionality on bytes (`GameProofs.v`); builds from C73, C74, C76, C78 (`GameBuild.v`); nothing is computed over the megabyte |
| C78 | the ROM writer and the commands, as in C76 | exact end of every song by induction over tracks, songs and banks: success or 'does not fit' according to the specification's layout (`FitProofs.v`); sizes by induction over the pieces |
| C79 | `SpecGrid.v`: lines of a grid, events on or just before them | the clock of the conversion is exact on a line and stays so: invariant of the fold of C08 (`GridProofs.v`); voices of a file on the grid are on the grid (induction over the distribution, as in C53); lifted to what is played as in C52 and C64 |
| C80 | `Report.v`: the functions of src/rom/mod.rs with their calls on progress bars and `println!`s as a log; `SpecReport.v`: the two threads as a transition system | the log's calls of `finish_print` are counted by induction over banks; a measure on the transition system shows that every schedule joins (`ReportProofs.v`); bar values by the invariant "the position is inside the blocks" |
| C81 | the log of `Report.v`; `SpecReport.report_true`, `track_told` | the log of one song is read off beside the proof of C33 and C34, and later songs and banks write elsewhere (`ReportTrue.v`); sizes by induction over tracks, songs and banks with the offset as state (`SpecSize.v`, `SizeProofs.v`) |
| C82 | the whole converter; `SpecSlide.never_on`, `no_slides` | no message of a channel, a voice or a stored setting switches portamento on, an invariant of each pass over the file (`SlideFile.v`); refuted for single channels |
| C83 | `MidiLog`: the reader with its printing; `SpecMidiLog.last_tried`, `told_moves`, `guests` | the printing reader's result is the reader's; what is printed last of a channel survives the backtracking (induction over the search), a voice other than the own one is chosen exactly where it is said (invariant of the merge loop); intervals carry the channel and end at its notes (`MidiLogProofs.v`); during the search each voice holds exactly the intervals of the channels that last tried it (`MidiPossible.v`) |
| C84 | `MidiDump`: the handler left by the reader, whether it fails or not; `SpecDump.shows_channels`, `shows_nothing` | the reader with its state on failure agrees with the reader (only a note-on without a voice can fail); the merge loop keeps the invariant that a voice ends in a note still on exactly if a key is assigned to it, also after the note-off written before the failure (`DumpProofs.v`); the failing loop runs over a prefix of the same merged list as the succeeding one (`DumpStuck.v`) |

## Trusted base

* Coq 8.16.1's kernel (and, for `vm_compute` witnesses, its bytecode machine; coqchk re-checks them by ordinary
  conversion). No `native_compute`, no plugin beyond those of the standard distribution, no kernel check switched off.
* The axioms listed per theorem in the last table. They are the standard library's and come in only with real
  numbers, through Flocq, in statements about rounding. No axiom is declared here; there is no `Admitted`, no `Variable`
  or `Hypothesis`, no functor and no module type.
* That the model says what the Rust code does. It was written by reading; the repository's unit tests are replayed
  on it in `Conformance.v`. Each definition cites the lines it models.
* That the specification files `Spec*.v` say what the English says. They do not use the model's helper
  functions; they use its data types (commands, tracks, songs, manifests, images) and, where a property is about a function, that function.
* For C28, C52 and C55, that `SpecNspc.v` and `SpecPlayback.v` describe the sound driver: bytes 01-7F set the length
  (and optionally release and velocity), 80-C7 start a note, C8 ties, C9 rests, E0-FA are commands with fixed parameter counts, EF
  calls a loop, 00 returns or ends. The driver is not in /repo. For C60, sustain n means n/8 of the length (7: all of it), as `set_sustain`
  reads it; the driver's own table of fractions is not in /repo.

## What is modelled

| /repo | model | remarks |
|-------|-------|---------|
| src/nspc/command.rs | `Command.v` | every `Command`, `write` for both types, `call_loop_eligible`, `set_sustain`, `create_pitch_slide`, `is_slide`, `can_be_first/last_in_call_loop` |
| src/nspc/instruments.rs | `Track.v` | the table; the unnamed constants are inlined |
| src/nspc/track.rs | `Track.v` | `get_duration`, `insert_rest`, `new`, `write` |
| src/nspc/seqtree.rs | `SeqTree.v`, `TreeIter.v` | the tree, `add_location`, `add_commands`, `best_sequence` with its iterator and stack, `consolidate_locations` |
| src/nspc/mod.rs | `Song.v`, `Json.v` | `from_midi`, `optimize_call_loops`, `extract_sequence`, `empty`, `write_track`, accessors; serde's derived data model for `from_json` and `write_to_json` |
| src/midi/mod.rs | `Midi.v`, `MidiLog.v`, `MidiDump.v` | `read` from the reader's callbacks on, `tracks_to_channels`, intervals, `find_base_voices`, `overlapping_interval`, `channels_to_voices`, the `Handler` callbacks |
| src/manifest/mod.rs | `Manifest.v`, `Paths.v` | all; `Path::join`, `is_absolute`, `file_name`, `extension`, `parent` on Unix paths |
| src/manifest.schema.json | `Schema.v` | all keys with a meaning for validity |
| src/rom/mod.rs | `Rom.v`, `Report.v` | all of `write`, `write_bank`, `gen_fake_rom`, `Chunk`, address arithmetic; in `Report.v` also the progress bars and what `-v` prints |
| src/lib.rs | `Cli.v`, `Run.v` | all functions; a file system and its failures in `Run.v` |
| src/main.rs | `Run.v` | the parsed command line as a type |

## What is not modelled

* The text of messages (the verbose output of the reader and of the ROM writer is modelled as data, in `MidiLog.v` and `Report.v`). Of the progress bars (`pbr`) the calls are modelled (`Report.v`) and the protocol with the display thread is
  assumed as stated in `SpecReport.v`; when and what they draw is left open. The arithmetic done only
  for messages is modelled where it can panic (C45).
* `clap`'s parsing of arguments, including its refusal of missing or wrongly many values: the model starts from its matches.
* `ghakuf`'s parsing of MIDI bytes: the model starts from its callbacks, in any order and number.
* `serde_json`'s text parser and printer: the model starts from, and ends at, JSON values.
* The operating system beyond: whether a file opens, how many bytes one `write` takes, whether writing JSON fails and where. Two
  spellings of one path, links, permissions and concurrent processes are not modelled. A crash during the final write is
  covered by C56 (any mixture of old and new bytes).
* Memory exhaustion, and `usize` sums above 2^64 (see Conventions).
* The sound chip itself: pitch tables, envelopes, timers. Sound means notes started, with pitch byte, length, velocity and step.

## Simplifications inside the model

* `HashMap` iteration order is an argument, chosen anew at every step; C21 proves it irrelevant.
* `Vec` is `list`; indices are `nat`; a failing index is `Panic PIndex`.
* Loops whose bound is not syntactic carry fuel computed from the input; running out is `Diverge`, and theorems exclude it.
* The error messages carried by errors are dropped; `error` only has their kinds.

## Findings

Statements a user would expect that the model violates, each with a proved witness, and remarks made while reading.

* **ROM.** A loop call in the track that moves a song to the overflow block is patched relative to the base block (C33_header_refuted);
  it can corrupt a block header, and then each rebuild gives another image (C56_refuted). The overflow block's length is not checked
  again after the move. A part of more than eight tracks overruns its table. A short `write` is reported as success (C38_short_write_refuted).
  `gen_fake_rom` does not truncate an existing longer file (C40_file_refuted) and can leave an empty file (C57_dummy_leftover_refuted). The
  verbose message can underflow and panic in a checked build (C45).
  Only the first part of a song is written (C67_parts_refuted). The error for a missing overflow block can never occur: the end mark after the base
  block is taken for one (C32_scan_terminates).
* **Optimiser.** A location added twice makes a repeat count too high (C24_refuted). The u8 sum of repeat counts overflows at
  256 copies (C25_checked_build_refuted). After a loop call the running velocity is wrong (C28_velocity_refuted). Bytes can grow (C53_bytes_refuted).
* **Converter.** A portamento time of more than 127 steps gives a slide of its remainder modulo 127 (C71_long_refuted). Portamento stays with a
  voice when another channel takes it over (C82_channel_refuted) and does not reach a chord's notes on other voices (C82_chord_refuted). Tempo and volume changes act at the previous note boundary (C51_early_refuted). Notes that are never switched off
  are dropped. Snares ended by a note-on of velocity 0 get the wrong pitch (C52_snare_refuted). Folding a rest into a note can give
  lengths above 127, which the driver reads as notes (C14_fold_refuted). A note shorter than a step that starts just after a note off the grid gets
  duration 0, which is not written, so it lasts as long as the note before it (C14_zero_refuted). Notes of velocity 1 to 7 sound as loud as the note before
  them (C60_soft_refuted). A program change reaches one voice of its channel only, so after a program change between two chords the other
  notes of the chord keep the old instrument (C62_chords_refuted). Voices of a channel without a program get no instrument in a release
  build, and one after program 0 in a checked build (C16_release_refuted). A volume change while a note sounds is written before the note, so a fade becomes a
  note that is quiet from its start (C65_during_note_refuted). An ignored event after the last note lengthens the
  song (C66_end_refuted). Portamento times are taken as numbers of the file's ticks, so the same piece in a finer time base slides faster
  (C68_portamento_refuted). If 24 does not divide the ticks per beat, note ends are rounded to ticks and rests shift (C68_divisor_refuted).
* **Manifest schema.** The pattern for input files is not anchored, so names like `a.mid.bak` are accepted and then taken for JSON
  (C63_file_names_refuted).
* **Progress and verbose output.** A track longer than the overflow block is written past its end, and the bar of the bank then shows more than its
  total (C80_bank_bar_refuted). The size printed for a song that starts in the base block and ends in the overflow block is the
  difference of positions in two blocks, so it is wrong (C81_size_refuted).
* **Command line.** The default tempo factor is 0.2, the schema says 0.3 (C42_documented_tempo_refuted). `gen_fake_rom` and
  `midi2json` have no address option. `midi2json` and `from_json` abort on input/output errors (C57_json_leftover_refuted).
* **The shipped samples** (computed once by running the model on the 34 MIDI files of `/repo/sample`, parsed outside Coq; not part
  of the proofs). All 34 convert without error, and no converted track has a duration above 127, so the conditions of C46 and C49
  on lengths hold of them. Three files use keys outside the driver's range. With optimisation, 17 of the 34 songs have a voice
  whose commands differ from the unoptimised ones once calls are expanded: the repeat-count fault of C24_refuted is met by
  ordinary music, not only by constructed cases. Most of the files have 256 ticks per beat, not a multiple of 24: ten of
  the 34 are on a grid and have no timing error (C79), in the others notes are off by up to 27 steps, more than a beat, by the end of the song
  (C08_drift_refuted is met as well).

## Testing the theorems

Model definitions were edited in a scratch copy the way a realistic bug would change the program, and the whole development was rebuilt.
`seeded/LOG.jsonl` has one line per edit: the definition, the edit, the claim it breaks, the theorems that failed, and the theorems
tightened because of it.

## Properties, theorems and their assumptions

The proofs behind each theorem are in the files the `Prop*.v` file imports; the specification vocabulary is in
the `Spec*.v` files named at its head. Assumptions, as `Print Assumptions` reports them: **-** closed under
the global context; **R** `Classical_Prop.classic`, `ClassicalDedekindReals.sig_forall_dec`,
`ClassicalDedekindReals.sig_not_dec`, `FunctionalExtensionality.functional_extensionality_dep` (the standard library's real numbers,
reached through Flocq); **r** `sig_forall_dec` and `functional_extensionality_dep` only. A name ending in `_partial` proves
part of the statement, one ending in `_refuted` proves that the faithful model violates it.

| id | property | status | theorems (file: name, assumptions) |
|----|----------|--------|------------------------------------|
| C01 | Single-command byte encoding is lossless | proved | PropCodec.v: `C01_command_encoding` (-), `C01_encoding_injective` (-) |
| C02 | Track byte stream is lossless under running duration/velocity compression | proved | PropCodec.v: `C02_track_stream` (-) |
| C03 | Loop-reference positions point at the operand bytes | proved | PropCodec.v: `C03_loop_references` (-) |
| C04 | Sustain folding conserves time and produces a playable duration | partial | PropCodec.v: `C04_sustain_fold_partial` (-), `C04_sustain_only_note_rest` (-), `C04_sustain_total` (-), PropExact.v: `C04_playable_exact` (-), PropCodec.v: `C04_playable_refuted` (-) |
| C05 | Grid-aligned note lengths convert exactly | proved | PropTime.v: `C05_grid_lengths_exact` (R) |
| C06 | Off-grid note lengths round by less than one step, in the right direction | partial | PropTime.v: `C06_rounding_exact` (R), `C06_rounding_partial` (R), `C06_monotone` (R), `C06_direction_refuted` (-) |
| C07 | Long durations are split without loss | partial | PropTime.v: `C07_rest_split_partial` (-), `C07_note_split_partial` (-), PropExact.v: `C07_rest_exact` (-), `C07_note_exact` (-), PropTime.v: `C07_long_refuted` (-) |
| C08 | A converted track keeps time with the MIDI clock | partial | PropPlaced.v: `C08_placed_exact` (R), `C08_any_length_partial` (R), `C08_any_length_release_partial` (R), PropTrack.v: `C08_keeps_time_partial` (R), `C08_drift_bound` (R), `C08_drift_refuted` (-), `C08_program_change_refuted` (-) |
| C09 | Converted tracks are padded to the common end time | partial | PropPlaced.v: `C08_placed_exact` (R), `C08_any_length_partial` (R), PropTrack.v: `C09_common_end_partial` (R), `C08_keeps_time_partial` (R), `C08_program_change_refuted` (-) |
| C10 | Converting a time-ordered voice never crashes | partial | PropTrack.v: `C10_no_crash_partial` (R), PropExact.v: `C10_release` (-), `C10_checked` (R), PropPlaced.v: `C08_placed_exact` (R), PropExact.v: `C10_file_checked` (R), PropTrack.v: `C10_short_notes_refuted` (-) |
| C11 | The 'more than one voice' conversion error is unreachable | proved | PropMidi.v: `C11_no_second_voice_error` (-) |
| C12 | Every note of a voice becomes exactly one sounding command | proved | PropTrack.v: `C12_one_command_per_note` (-), `C12_no_other_notes` (-) |
| C13 | Tempo events convert to the saturated scaled tempo | proved | PropTime.v: `C13_tempo_value` (R), `C13_tempo_zero` (r), `C13_tempo_monotone` (R), `C13_tempo_event` (-), `C13_tempo_event_short` (-) |
| C14 | Tracks converted from MIDI are decodable by the sound driver | partial | PropTrack.v: `C14_readable_partial` (-), `C14_keys_partial` (-), `C14_decodable_partial` (R), `C14_plays_partial` (-), `C14_zero_refuted` (-), `C14_fold_refuted` (-), `C14_low_note_refuted` (-) |
| C15 | Merging MIDI tracks into channels loses nothing and is stably time-ordered | proved | PropMidi.v: `C15_tracks_collected` (-), `C15_merge_exact` (-), `C15_merge_debug` (-) |
| C16 | Base-voice assignment is conflict-free | proved | PropMidi.v: `C16_base_voices_sound` (-), `C16_channels_sound` (-), `C16_release_refuted` (-) |
| C17 | Base-voice assignment is complete | proved | PropMidi.v: `C17_base_voices_complete` (-), `C17_channels_complete` (-) |
| C18 | No voice ever carries two notes at once | proved | PropMidi.v: `C18_voices_alternate` (-), `C18_distribution_alternates` (-) |
| C19 | Distribution to voices conserves notes | proved | PropMidi.v: `C19_notes_conserved` (-), `C19_failure_genuine` (-) |
| C20 | Voice message lists are time-ordered | partial | PropMidi.v: `C18_voices_alternate` (-), `C20_offs_before_ons_partial` (-), `C20_double_hit_refuted` (-) |
| C21 | Result does not depend on hash-map iteration order | proved | PropMidi.v: `C21_order_irrelevant` (-) |
| C22 | Each note plays with its own channel's instrument | partial | PropMidi.v: `C22_own_instrument_partial` (-), `C22_shared_voice_refuted` (-), `C22_stale_voice_refuted` (-) |
| C23 | Percussion channel mapping is uniform | partial | PropMidi.v: `C19_notes_conserved` (-), `C23_percussion_partial` (-), `C23_overlap_refuted` (-) |
| C24 | Call-loop optimisation does not change the music (command level) | partial | PropLoop.v: `C24_same_music_partial` (-), `C24_no_repetition` (-), `C24_runs_partial` (-), `C24_extraction_partial` (-), `C24_refuted` (-), `C24_plays_as_unique` (-) |
| C25 | Call-loop optimisation terminates | proved | PropLoop.v: `C25_terminates` (-), `C25_extraction_shortens` (-), `C25_checked_build_refuted` (-) |
| C26 | Call loops are never nested and always have valid targets | proved | PropLoop.v: `C26_loops_well_formed` (-) |
| C27 | Loop candidates are genuine occurrences | proved | PropLoop.v: `C27_candidates_sound` (-), `C27_chosen_sound` (-) |
| C28 | Call-loop optimisation does not change playback (byte level) | partial | PropAram.v: `C28_pitches_and_lengths_partial` (-), `C28_velocities_partial` (-), `C28_optimised_sounds_the_same_partial` (-), `C28_velocity_refuted` (-), `C28_playing_is_unique` (-) |
| C29 | A song converted from MIDI has one part listing exactly its top-level tracks | proved | PropSong.v: `C29_one_part` (-), `C29_at_most_eight` (-) |
| C30 | LoROM address mapping is a bijection | proved | PropRom.v: `C30_lorom_bijection` (-) |
| C31 | Transfer-block headers and address bytes round-trip | proved | PropRom.v: `C31_header_round_trip` (-), `C31_header_outside` (-), `C31_address_bytes` (-) |
| C32 | The block scan terminates and finds the right blocks | proved | PropRom.v: `C32_scan_terminates` (-), `C32_scan_finds` (-), `C32_scan_reports` (-) |
| C33 | ROM writes stay inside the bank's two data blocks | partial | PropRom.v: `C33_writes_inside_partial` (-), `C33_keeps_table_start_partial` (-), PropTable.v: `C33_keeps_before` (-), PropRom.v: `C33_header_refuted` (-), `C33_terminator_refuted` (-), PropSafe.v: `C76_bank_reports` (-) |
| C34 | Written songs are found by following the ROM's pointers | partial | PropRom.v: `C34_songs_found_partial` (-), `C34_succeeds_when_fits` (-), `C34_condition_without_loops` (-), `C34_condition_in_base` (-), PropEach.v: `C34_all_but_one_partial` (-), PropRom.v: `C34_refuted` (-) |
| C35 | Every CallLoop in the ROM is patched with its target's address | partial | PropRom.v: `C35_operands_patched_partial` (-), `C35_refuted` (-) |
| C36 | Song tables of the three banks are complete and disjoint from song data | proved | PropRom.v: `C36_table_before_songs` (-), PropTable.v: `C36_bank_table` (-), PropRom.v: `C36_tables_partial` (-), PropEach.v: `C39_all_but_one_partial` (-) |
| C37 | A failed build leaves the ROM file untouched | proved | PropRom.v: `C37_failure_keeps_file` (-) |
| C38 | A successful build writes the whole image and keeps the file size | partial | PropRom.v: `C38_success_writes_image_partial` (-), `C38_size_kept` (-), `C38_short_write_refuted` (-) |
| C39 | The three banks do not disturb each other | partial | PropRom.v: `C39_banks_independent_partial` (-), PropEach.v: `C39_all_but_one_partial` (-) |
| C40 | The generated dummy ROM keeps structure and drops content | partial | PropRom.v: `C40_dummy_image` (-), `C40_dummy_total` (-), `C40_dummy_terminates` (-), `C40_dummy_file_partial` (-), `C40_file_refuted` (-) |
| C41 | Built-in manifests have the game's song layout | proved | PropSong.v: `C41_single_song` (-), `C41_file_select` (-), PropFactor.v: `C41_default_factor` (R) |
| C42 | Manifest files are read slot by slot with documented defaults | partial | PropSong.v: `C42_slots_read` (-), `C42_missing_input` (-), PropFactor.v: `C42_tempo_factor` (R), `C42_signed_factor` (R), PropSong.v: `C42_documented_tempo_refuted` (-) |
| C43 | Command line bank addresses and converter selection | proved | PropSong.v: `C43_default_addresses` (-), `C43_given_addresses` (-), `C43_converter` (-) |
| C44 | Songs survive the JSON round trip | proved | PropSong.v: `C44_json_round_trip` (-), `C44_json_injective` (-), `C44_reads_format` (-) |
| C45 | Verbose mode does not change the result | partial | PropRom.v: `C45_verbose_release` (-), `C45_verbose_adds_panic_only` (-), `C45_verbose_bank_partial` (-), `C45_debug_refuted` (-) |
| C46 | Release builds agree with debug builds | proved | PropBuild.v: `C46_build_rom` (-), `C46_all_overworld` (-), `C46_file_select` (-), `C46_midi2json` (-), `C46_gen_fake_rom` (-), `C46_midi_read` (-), `C46_track_new` (-), `C46_optimize` (-), PropRun.v: `C46_run` (-) |
| C47 | Track framing: preamble and terminator | proved | PropCodec.v: `C47_track_framing` (-), `C47_empty_track` (-), `C47_framed_track_plays` (-), `C47_empty_part` (-) |
| C48 | Portamento slides fit inside the note they bend | proved | PropTrack.v: `C48_slides_fit` (-), `C48_slide_target` (-) |
| C49 | Reading a MIDI file never crashes | partial | PropMidi.v: `C49_read_total_partial` (-), `C49_read_total_release` (-), PropExact.v: `C49_crash_exact` (-), PropMidi.v: `C49_stray_note_off_refuted` (-) |
| C50 | Instrument, volume and tempo changes of a voice are all kept, in order | proved | PropControl.v: `C50_controls_kept` (-) |
| C51 | Instrument, volume and tempo changes act when the MIDI file says | partial | PropControl.v: `C51_when_controls_act` (R), `C51_never_late_partial` (R), `C51_early_refuted` (-) |
| C52 | From MIDI file to sound: every note is started once, in tune and in time | partial | PropPlayback.v: `C52_file_heard_partial` (R), `C52_voices_heard_partial` (R), `C52_sound_is_unique` (-), `C52_notes_are_unique` (-), `C52_snare_refuted` (-) |
| C53 | Optimising a song never makes it longer | partial | PropSaving.v: `C53_never_more_commands` (-), `C53_extraction_saves` (-), `C53_bytes_refuted` (-) |
| C54 | The search for repetitions is exhaustive and picks the best one | proved | PropSaving.v: `C54_search_exhaustive` (-), `C54_search_agrees` (-), `C54_best_choice` (-) |
| C55 | The console plays the songs of a rebuilt ROM | partial | PropConsole.v: `C55_rom_heard_partial` (R) |
| C56 | Building a ROM again is safe | partial | PropConsole.v: `C56_rebuild_partial` (-), `C56_resume_partial` (-), `C56_cut_short` (-), `C56_bank_rebuild` (-), `C56_refuted` (-) |
| C57 | A command changes at most the file it is told to write | proved | PropRun.v: `C57_only_target` (-), `C57_rom_or_nothing` (-), `C57_dump_reads_only` (-), `C57_json_error` (-), `C57_verbose` (-), `C57_dummy_leftover_refuted` (-), `C57_json_leftover_refuted` (-) |
| C58 | Going through JSON gives the same ROM | proved | PropRun.v: `C58_through_json` (-) |
| C59 | A dummy ROM stands in for the real one | partial | PropDummy.v: `C59_bank` (-), `C59_any_rom_partial` (-), `C59_on_dummy_partial` (-), `C59_from_dummy_partial` (-), PropRun.v: `C59_dummy_stands_in_partial` (-), PropFinished.v: `C59_any_moved_partial` (-), `C59_on_dummy_moved_partial` (-), `C59_from_dummy_moved_partial` (-) |
| C60 | Notes sound as long and as loud as in the MIDI file | partial | PropGate.v: `C60_note_lengths_partial` (R), `C60_voices_heard_partial` (R), `C60_file_heard_partial` (R), `C60_soft_refuted` (-) |
| C61 | The console plays at the tempi of the MIDI file | partial | PropHeard.v: `C61_file_tempo_partial` (R) |
| C62 | Every note the console starts has the instrument of its channel | partial | PropHeard.v: `C62_file_instruments_partial` (R), `C62_chords_refuted` (-) |
| C63 | A manifest that satisfies the published schema is read as written | proved | PropSchema.v: `C63_schema_read` (-), `C63_file_names_refuted` (-) |
| C64 | A song lasts as long as its MIDI file, on every voice | partial | PropHeard.v: `C64_song_length_partial` (R) |
| C65 | Every note the console starts has the volume of its channel | partial | PropVolume.v: `C65_file_volumes_partial` (R), `C65_during_note_refuted` (-) |
| C66 | Files with the same music give the same song | proved | PropSame.v: `C66_same_music` (-), `C66_ignored_events` (-), `C66_track_order` (-), `C66_end_refuted` (-), `C66_order_refuted` (-) |
| C67 | A JSON song is played as written | partial | PropScore.v: `C67_json_heard_partial` (-), `C67_json_loops_partial` (-), `C67_parts_refuted` (-) |
| C68 | The time base of a MIDI file makes no difference | partial | PropShift.v: `C68_time_base_partial` (R), `C68_divisor_refuted` (-), `C68_portamento_refuted` (-) |
| C69 | A transposed MIDI file gives the transposed song | proved | PropShift.v: `C69_transposed` (R), `C69_drums_refuted` (-) |
| C70 | Each command does what its arguments ask | partial | PropCommand.v: `C70_rom_heard_partial` (R), `C70_asked_unique` (-), `C70_export` (-), `C70_dummy_partial` (-) |
| C71 | Pitch slides are those the voice asks for | partial | PropPorta.v: `C71_slides_as_asked_partial` (R), `C71_slide_ends` (-), `C71_long_refuted` (-) |
| C72 | A build that reports success plays the songs | proved | PropRendered.v: `C72_success_slots` (-), PropSuccess.v: `C72_success_heard_partial` (R), `C72_without_optimisation` (-), `C72_weaker` (-), PropFinished.v: `C73_slots_but_one_partial` (-) |
| C73 | One performance has everything the MIDI file asks for | partial | PropRendered.v: `C73_file_renders_partial` (R), `C72_success_slots` (-), `C73_rom_renders_partial` (R), PropFinished.v: `C73_slots_but_one_partial` (-), `C73_renders_but_one_partial` (R) |
| C74 | A successful build is a safe, repeatable edit of the ROM file | partial | PropRendered.v: `C74_safe_edit_partial` (-), `C74_again_partial` (-), `C74_resume_partial` (-), PropFinished.v: `C74_again_moved_partial` (-), `C74_resume_moved_partial` (-) |
| C75 | A release build converts every MIDI file without crashing | proved | PropExact.v: `C75_conversion_total` (-) |
| C76 | A release build never crashes while building a ROM | proved | PropSafe.v: `C76_commands_report` (-), `C76_bank_reports` (-), `C76_names_needed` (-), `C76_long_refuted` (-) |
| C77 | The default addresses suit the game, and the sample dummy stands in for it | proved | PropGame.v: `C77_layouts` (-), `C77_sample` (-), `C77_dummy` (-), `C77_build` (-), `C77_release` (-), `C77_fits` (-), `C77_stands_in` (-) |
| C78 | A build succeeds exactly when the songs fit | proved | PropFit.v: `C78_success` (-), `C78_sizes` (-) |
| C79 | Music on a grid is played exactly | partial | PropGrid.v: `C79_file_exact_partial` (R), `C79_voice_exact` (R) |
| C80 | A ROM build never waits forever for its progress display | partial | PropReport.v: `C80_same_result` (-), `C80_display_ends` (-), `C80_all_bars_needed` (-), `C80_songs_bar` (-), `C80_bank_bar_partial` (-), `C80_bank_bar_refuted` (-) |
| C81 | The verbose output of a ROM build is true | partial | PropReport.v: `C81_verbose_true_partial` (-), `C81_quiet` (-), PropSize.v: `C81_sizes_partial` (-), PropReport.v: `C81_size_refuted` (-) |
| C82 | Only a channel that switches portamento on slides | partial | PropSlide.v: `C82_no_slides` (-), `C82_no_slides_heard` (R), `C82_channel_refuted` (-), `C82_chord_refuted` (-) |
| C83 | The verbose output of the MIDI reader is true | proved | PropMidiLog.v: `C83_same_result` (-), `C83_told` (-), `C83_couldnt_fit` (-), `C83_overlaps` (-), `C83_possible` (-) |
| C84 | A dumped MIDI file is shown as it is, also when it cannot be used | proved | PropDump.v: `C84_command` (-), `C84_result` (-), `C84_file` (-), `C84_voices` (-), `C84_stuck` (-), `C84_log` (-) |

What is missing from the partial ones is said in MANIFEST.json and in the comment above each theorem.

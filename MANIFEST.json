{
 "claims": [
  {
   "property": "C01",
   "status": "proved",
   "theorems": [
    "C01_command_encoding",
    "C01_encoding_injective"
   ],
   "note": "Decoder spec in SpecNspc.v; exact characterisation of the commands that decode."
  },
  {
   "property": "C02",
   "status": "proved",
   "theorems": [
    "C02_track_stream"
   ],
   "note": "Player spec in SpecNspc.v."
  },
  {
   "property": "C03",
   "status": "proved",
   "theorems": [
    "C03_loop_references"
   ],
   "note": ""
  },
  {
   "property": "C04",
   "status": "partial",
   "theorems": [
    "C04_sustain_fold_partial",
    "C04_sustain_only_note_rest",
    "C04_sustain_total",
    "C04_playable_exact",
    "C04_playable_refuted"
   ],
   "note": "Conservation proved for legal durations; the folded note is playable exactly when note and rest last at most 127 steps together (C04_playable_exact), so the legal-duration half is false of the code (96+96=192)."
  },
  {
   "property": "C05",
   "status": "proved",
   "theorems": [
    "C05_grid_lengths_exact"
   ],
   "note": "Single-precision arithmetic via Flocq; Kahan-style argument for (k/24)*24."
  },
  {
   "property": "C06",
   "status": "partial",
   "theorems": [
    "C06_rounding_exact",
    "C06_rounding_partial",
    "C06_monotone",
    "C06_direction_refuted"
   ],
   "note": "Direction exact below 2^23/24 ticks; up to 2^24 ticks within one step; direction fails for some long lengths (proved)."
  },
  {
   "property": "C07",
   "status": "partial",
   "theorems": [
    "C07_rest_split_partial",
    "C07_note_split_partial",
    "C07_rest_exact",
    "C07_note_exact",
    "C07_long_refuted"
   ],
   "note": "Lossless exactly up to 32512 steps (C07_rest_exact, C07_note_exact); false beyond (piece count truncated to 8 bits)."
  },
  {
   "property": "C08",
   "status": "partial",
   "theorems": [
    "C08_placed_exact",
    "C08_any_length_partial",
    "C08_any_length_release_partial",
    "C08_keeps_time_partial",
    "C08_drift_bound",
    "C08_drift_refuted",
    "C08_program_change_refuted"
   ],
   "note": "The exact position of every note is proved for any events (C08_placed_exact, gaps up to 349525 ticks less a step). Within one step, no accumulation, when a step is a whole number of ticks and no program change falls inside a note, notes of any length (C08_any_length_partial) or any gaps (C08_keeps_time_partial); bounded drift otherwise; the unconditional statement is false (drift at 100 ticks per beat; program change during a note)."
  },
  {
   "property": "C09",
   "status": "partial",
   "theorems": [
    "C08_placed_exact",
    "C08_any_length_partial",
    "C09_common_end_partial",
    "C08_keeps_time_partial",
    "C08_program_change_refuted"
   ],
   "note": "The exact length of every track (C08_placed_exact); the same end for all voices without a program change inside a note, for which it is false."
  },
  {
   "property": "C10",
   "status": "partial",
   "theorems": [
    "C10_no_crash_partial",
    "C10_release",
    "C10_checked",
    "C08_placed_exact",
    "C10_file_checked",
    "C10_short_notes_refuted"
   ],
   "note": "Release build: never crashes, for any times (C10_release). Checked build: false for two notes within one step; true for notes of a step or more and for shorter ones that end in a later step than the note before (C10_no_crash_partial); the exact condition is C10_checked (times up to 349525 ticks), and C10_file_checked for a file."
  },
  {
   "property": "C11",
   "status": "proved",
   "theorems": [
    "C11_no_second_voice_error"
   ],
   "note": "Composes the reader (C18) with the converter; any build, tick rate and tempo factor."
  },
  {
   "property": "C12",
   "status": "proved",
   "theorems": [
    "C12_one_command_per_note",
    "C12_no_other_notes"
   ],
   "note": "For every event list with valid data bytes, whatever the times, in either build."
  },
  {
   "property": "C13",
   "status": "proved",
   "theorems": [
    "C13_tempo_value",
    "C13_tempo_zero",
    "C13_tempo_monotone",
    "C13_tempo_event",
    "C13_tempo_event_short"
   ],
   "note": ""
  },
  {
   "property": "C14",
   "status": "partial",
   "theorems": [
    "C14_readable_partial",
    "C14_keys_partial",
    "C14_decodable_partial",
    "C14_plays_partial",
    "C14_zero_refuted",
    "C14_fold_refuted",
    "C14_low_note_refuted"
   ],
   "note": "Exact characterisation for every event list: decodable iff all durations are in 1..127 and all note bytes in 80..C7 (keys 24..95). False otherwise, and all three ways to break it occur."
  },
  {
   "property": "C15",
   "status": "proved",
   "theorems": [
    "C15_tracks_collected",
    "C15_merge_exact",
    "C15_merge_debug"
   ],
   "note": "For files whose absolute times fit 32 bits; a checked build that succeeds implies this."
  },
  {
   "property": "C16",
   "status": "proved",
   "theorems": [
    "C16_base_voices_sound",
    "C16_channels_sound",
    "C16_release_refuted"
   ],
   "note": "Proved for all intervals. In terms of the messages: for both builds, in release builds for channels without stray note-offs (C16_release_refuted shows the condition is needed)."
  },
  {
   "property": "C17",
   "status": "proved",
   "theorems": [
    "C17_base_voices_complete",
    "C17_channels_complete"
   ],
   "note": ""
  },
  {
   "property": "C18",
   "status": "proved",
   "theorems": [
    "C18_voices_alternate",
    "C18_distribution_alternates"
   ],
   "note": ""
  },
  {
   "property": "C19",
   "status": "proved",
   "theorems": [
    "C19_notes_conserved",
    "C19_failure_genuine"
   ],
   "note": ""
  },
  {
   "property": "C20",
   "status": "partial",
   "theorems": [
    "C18_voices_alternate",
    "C20_offs_before_ons_partial",
    "C20_double_hit_refuted"
   ],
   "note": "Time order always; offs before ons unless a key is struck twice at one tick in one channel, where it is false."
  },
  {
   "property": "C21",
   "status": "proved",
   "theorems": [
    "C21_order_irrelevant"
   ],
   "note": "The iteration order is an oracle applied at every step."
  },
  {
   "property": "C22",
   "status": "partial",
   "theorems": [
    "C22_own_instrument_partial",
    "C22_shared_voice_refuted",
    "C22_stale_voice_refuted"
   ],
   "note": "False in general: shared base voices and overflow voices can carry a foreign or stale program (both proved)."
  },
  {
   "property": "C23",
   "status": "partial",
   "theorems": [
    "C19_notes_conserved",
    "C23_percussion_partial",
    "C23_overlap_refuted"
   ],
   "note": "Pitch mapping always (in C19); the instrument is wrong after overlapping percussion notes and the note-off key depends on its encoding (proved)."
  },
  {
   "property": "C24",
   "status": "partial",
   "theorems": [
    "C24_same_music_partial",
    "C24_no_repetition",
    "C24_runs_partial",
    "C24_extraction_partial",
    "C24_refuted",
    "C24_plays_as_unique"
   ],
   "note": "Proved for every song in which a passage of four or more commands that is played twice in a row has not been played before, except as part of the same run (SpecLoop.fresh_repeats; songs without direct repetitions are a special case), and for every single extraction whose locations are genuine. The condition is sufficient, not necessary (C24_again_case): the theorems that build on this one ask only that the optimiser kept the music (SpecLoop.keeps_music), which this one establishes. False in general (C24_refuted): a block that occurs once and later twice in a row is given a repeat count that is too high, and the commands after it are dropped."
  },
  {
   "property": "C25",
   "status": "proved",
   "theorems": [
    "C25_terminates",
    "C25_extraction_shortens",
    "C25_checked_build_refuted"
   ],
   "note": "Every song, release build. A checked build either does the same or stops with an overflow of the u8 sum of repeat counts; C25_checked_build_refuted shows that happening at 256 copies, where the release build misses the loop."
  },
  {
   "property": "C26",
   "status": "proved",
   "theorems": [
    "C26_loops_well_formed"
   ],
   "note": "Every list of loop-free tracks, both builds."
  },
  {
   "property": "C27",
   "status": "proved",
   "theorems": [
    "C27_candidates_sound",
    "C27_chosen_sound"
   ],
   "note": "Every list of tracks, both builds. Soundness covers the position of a location, not its repeat count: see C24_refuted."
  },
  {
   "property": "C28",
   "status": "partial",
   "theorems": [
    "C28_pitches_and_lengths_partial",
    "C28_velocities_partial",
    "C28_optimised_sounds_the_same_partial",
    "C28_velocity_refuted",
    "C28_playing_is_unique"
   ],
   "note": "For every song laid out in ARAM the driver plays, from each voice, the commands its track plays as, with their lengths; with velocities when velocity_safe holds. False for velocities in general (C28_velocity_refuted): the writer does not know that a called loop changed the running velocity."
  },
  {
   "property": "C29",
   "status": "proved",
   "theorems": [
    "C29_one_part",
    "C29_at_most_eight"
   ],
   "note": ""
  },
  {
   "property": "C30",
   "status": "proved",
   "theorems": [
    "C30_lorom_bijection"
   ],
   "note": ""
  },
  {
   "property": "C31",
   "status": "proved",
   "theorems": [
    "C31_header_round_trip",
    "C31_header_outside",
    "C31_address_bytes"
   ],
   "note": ""
  },
  {
   "property": "C32",
   "status": "proved",
   "theorems": [
    "C32_scan_terminates",
    "C32_scan_finds",
    "C32_scan_reports"
   ],
   "note": ""
  },
  {
   "property": "C33",
   "status": "partial",
   "theorems": [
    "C33_writes_inside_partial",
    "C33_keeps_table_start_partial",
    "C33_keeps_before",
    "C33_header_refuted",
    "C33_terminator_refuted",
    "C76_bank_reports"
   ],
   "note": "For songs that fit the layout (SpecBank.bank_fits); for any songs whose tracks are not longer than the overflow block, nothing changes outside the two blocks and the header between them (C76_bank_reports); for any songs, nothing changes before the bank's own table entries (C33_keeps_before). False in general: a loop call in the moved track is patched in the wrong place, and the overflow block is not re-checked (both proved)."
  },
  {
   "property": "C34",
   "status": "partial",
   "theorems": [
    "C34_songs_found_partial",
    "C34_succeeds_when_fits",
    "C34_condition_without_loops",
    "C34_condition_in_base",
    "C34_all_but_one_partial",
    "C34_refuted"
   ],
   "note": "For songs that fit the layout; otherwise for every song of a bank but at most one (C34_all_but_one_partial). False for parts of more than eight tracks (proved) and see C35."
  },
  {
   "property": "C35",
   "status": "partial",
   "theorems": [
    "C35_operands_patched_partial",
    "C35_refuted"
   ],
   "note": "Unless the calling track is the first one moved to the overflow block, where it is false (proved)."
  },
  {
   "property": "C36",
   "status": "proved",
   "theorems": [
    "C36_table_before_songs",
    "C36_bank_table",
    "C36_tables_partial",
    "C39_all_but_one_partial"
   ],
   "note": "The room for the table: every manifest. The table after writing a bank: every song, also those that C33 to C35 are false for. In addition, after all banks have been written and as seen from ARAM: for songs that fit the layout (C36_tables_partial), or in which tracks are moved (C39_all_but_one_partial)."
  },
  {
   "property": "C37",
   "status": "proved",
   "theorems": [
    "C37_failure_keeps_file"
   ],
   "note": ""
  },
  {
   "property": "C38",
   "status": "partial",
   "theorems": [
    "C38_success_writes_image_partial",
    "C38_size_kept",
    "C38_short_write_refuted"
   ],
   "note": "False for short writes, which the program does not check (proved)."
  },
  {
   "property": "C39",
   "status": "partial",
   "theorems": [
    "C39_banks_independent_partial",
    "C39_all_but_one_partial"
   ],
   "note": "For songs that fit their layouts; otherwise a misplaced patch stays inside its own bank (C39_all_but_one_partial)."
  },
  {
   "property": "C40",
   "status": "partial",
   "theorems": [
    "C40_dummy_image",
    "C40_dummy_total",
    "C40_dummy_terminates",
    "C40_dummy_file_partial",
    "C40_file_refuted"
   ],
   "note": "The image: all of it. The file: false when the old output file is longer (proved)."
  },
  {
   "property": "C41",
   "status": "proved",
   "theorems": [
    "C41_single_song",
    "C41_file_select",
    "C41_default_factor"
   ],
   "note": "C41_default_factor says which real number the default is: 0.2 rounded to single precision."
  },
  {
   "property": "C42",
   "status": "partial",
   "theorems": [
    "C42_slots_read",
    "C42_missing_input",
    "C42_tempo_factor",
    "C42_signed_factor",
    "C42_documented_tempo_refuted"
   ],
   "note": "C42_tempo_factor and C42_signed_factor give the factor as a real number. Everything but the documented default tempo factor: the schema says 0.3, the program uses 0.2 (proved)."
  },
  {
   "property": "C43",
   "status": "proved",
   "theorems": [
    "C43_default_addresses",
    "C43_given_addresses",
    "C43_converter"
   ],
   "note": "A leading plus sign is accepted by the number parser; file extensions are case-sensitive."
  },
  {
   "property": "C44",
   "status": "proved",
   "theorems": [
    "C44_json_round_trip",
    "C44_json_injective",
    "C44_reads_format"
   ],
   "note": "At the level of JSON values; the text printer and parser of serde_json are not modelled."
  },
  {
   "property": "C45",
   "status": "partial",
   "theorems": [
    "C45_verbose_release",
    "C45_verbose_adds_panic_only",
    "C45_verbose_bank_partial",
    "C45_debug_refuted"
   ],
   "note": "Release: always. Checked build: can add a panic (proved), changes nothing else."
  },
  {
   "property": "C46",
   "status": "proved",
   "theorems": [
    "C46_build_rom",
    "C46_all_overworld",
    "C46_file_select",
    "C46_midi2json",
    "C46_gen_fake_rom",
    "C46_midi_read",
    "C46_track_new",
    "C46_optimize",
    "C46_run"
   ],
   "note": "Every operation taking a build mode. The exception is exactly an overflow panic."
  },
  {
   "property": "C47",
   "status": "proved",
   "theorems": [
    "C47_track_framing",
    "C47_empty_track",
    "C47_framed_track_plays",
    "C47_empty_part"
   ],
   "note": "The exact condition under which writing a track panics is proved (C47_empty_part: an empty part that comes before any part opened by the track)."
  },
  {
   "property": "C48",
   "status": "proved",
   "theorems": [
    "C48_slides_fit",
    "C48_slide_target"
   ],
   "note": "Fit: every converted track. Target: every event list whose note-offs name the note they end."
  },
  {
   "property": "C49",
   "status": "partial",
   "theorems": [
    "C49_read_total_partial",
    "C49_read_total_release",
    "C49_crash_exact",
    "C49_stray_note_off_refuted"
   ],
   "note": "Release: always. Checked build: exactly unless a channel switches off more notes than are on (C49_crash_exact)."
  },
  {
   "property": "C50",
   "status": "proved",
   "theorems": [
    "C50_controls_kept"
   ],
   "note": "Any event list, any order and timing. The tempo byte itself is C13."
  },
  {
   "property": "C51",
   "status": "partial",
   "theorems": [
    "C51_when_controls_act",
    "C51_never_late_partial",
    "C51_early_refuted"
   ],
   "note": "Program changes are on time and nothing is late. Volume and tempo changes act at the latest note-on, note-off or program change before them, so they can be early (C51_early_refuted)."
  },
  {
   "property": "C52",
   "status": "partial",
   "theorems": [
    "C52_file_heard_partial",
    "C52_voices_heard_partial",
    "C52_sound_is_unique",
    "C52_notes_are_unique",
    "C52_snare_refuted"
   ],
   "note": "Composes C15, C19, C08, C12, C24, C28. Conditions on the file are in SpecFile.renderable (notes of a step or more, or shorter ones whose ends are a step apart or on both sides of a step of the grid); lengths must be at most 127 steps, and in optimised songs the loops must keep the music (SpecLoop.keeps_music: C24_same_music_partial says when they do, C24_refuted that they need not). False for snares ended by a note-on of velocity 0 (C52_snare_refuted)."
  },
  {
   "property": "C53",
   "status": "partial",
   "theorems": [
    "C53_never_more_commands",
    "C53_extraction_saves",
    "C53_bytes_refuted"
   ],
   "note": "Commands: every song, both builds. Bytes: false (C53_bytes_refuted), because a called block loses the running length and velocity its copies shared with their surroundings."
  },
  {
   "property": "C54",
   "status": "proved",
   "theorems": [
    "C54_search_exhaustive",
    "C54_search_agrees",
    "C54_best_choice"
   ],
   "note": "The iterator is modelled with its explicit stack (TreeIter.v). The 256-copy limit is the u8 sum of repeat counts, see C25_checked_build_refuted."
  },
  {
   "property": "C55",
   "status": "partial",
   "theorems": [
    "C55_rom_heard_partial"
   ],
   "note": "From MIDI files through the ROM image, the song table and the memory the console loads, to what the driver starts. For songs that fit the layout (SpecBank.banks_fit) and renderable files (C52)."
  },
  {
   "property": "C56",
   "status": "partial",
   "theorems": [
    "C56_rebuild_partial",
    "C56_resume_partial",
    "C56_cut_short",
    "C56_bank_rebuild",
    "C56_refuted"
   ],
   "note": "For songs that fit the layout. False in general (C56_refuted): the misplaced patch of C33_header_refuted changes the overflow block header, so each build gives another image."
  },
  {
   "property": "C57",
   "status": "proved",
   "theorems": [
    "C57_only_target",
    "C57_rom_or_nothing",
    "C57_dump_reads_only",
    "C57_json_error",
    "C57_verbose",
    "C57_dummy_leftover_refuted",
    "C57_json_leftover_refuted"
   ],
   "note": "All commands of src/lib.rs run over a file system (Run.v). The property as stated is proved. Not claimed because false: that every failure leaves no trace (a failed gen_fake_rom can leave an empty file, an aborted midi2json a prefix). Two spellings of one path and links are not identified in the model."
  },
  {
   "property": "C58",
   "status": "proved",
   "theorems": [
    "C58_through_json"
   ],
   "note": "Both builds, optimised or not, any two iteration orders. The JSON text printer and parser are arguments; the hypothesis is that the parser reads what the printer wrote for this song."
  },
  {
   "property": "C59",
   "status": "partial",
   "theorems": [
    "C59_bank",
    "C59_any_rom_partial",
    "C59_on_dummy_partial",
    "C59_from_dummy_partial",
    "C59_dummy_stands_in_partial",
    "C59_any_moved_partial",
    "C59_on_dummy_moved_partial",
    "C59_from_dummy_moved_partial"
   ],
   "note": "One bank: full, for any songs, in both directions (C59_bank). Whole builds: for commands that report success, in both directions, whether or not tracks with loop calls are moved (C59_*_moved_partial: SpecFinished.finished), for banks whose blocks do not lie over each other. Missing: tracks longer than an overflow block, and banks that share bytes."
  },
  {
   "property": "C60",
   "status": "partial",
   "theorems": [
    "C60_note_lengths_partial",
    "C60_voices_heard_partial",
    "C60_file_heard_partial",
    "C60_soft_refuted"
   ],
   "note": "Sustain is read in eighths of the length, as the code reads it. Composes C52 with lengths and velocities. False for velocities below 8 (C60_soft_refuted): the note keeps the velocity of the note before it. With loops, velocity_safe (C28) is needed."
  },
  {
   "property": "C61",
   "status": "partial",
   "theorems": [
    "C61_file_tempo_partial"
   ],
   "note": "Composes C16, C50, C51, C24 and C28. Tempo changes can act early (C51_early_refuted). Same conditions as C52."
  },
  {
   "property": "C62",
   "status": "partial",
   "theorems": [
    "C62_file_instruments_partial",
    "C62_chords_refuted"
   ],
   "note": "For channels whose programs stay their own (SpecHeard.keeps_program, keeps_drums). False for a channel that changes its program between chords (C62_chords_refuted): the change goes to one voice only. Same conditions as C52."
  },
  {
   "property": "C63",
   "status": "proved",
   "theorems": [
    "C63_schema_read",
    "C63_file_names_refuted"
   ],
   "note": "The schema is transcribed in Schema.v, JSON Schema validity for the keywords it uses is in SpecSchema.v. Not claimed because false: that such a build does not abort on a file name (C63_file_names_refuted), as the pattern is not anchored."
  },
  {
   "property": "C64",
   "status": "partial",
   "theorems": [
    "C64_song_length_partial"
   ],
   "note": "Composes C09, C24 and C28 with the end of the file as the reader finds it. Same conditions as C52."
  },
  {
   "property": "C65",
   "status": "partial",
   "theorems": [
    "C65_file_volumes_partial",
    "C65_during_note_refuted"
   ],
   "note": "Composes the voice reader, C09, C24 and C28. For channels that set their volume before their first note, or between notes played one at a time (keeps_volume); a change during a note is shown to act from the start of the note. Other conditions as C52."
  },
  {
   "property": "C66",
   "status": "proved",
   "theorems": [
    "C66_same_music",
    "C66_ignored_events",
    "C66_track_order",
    "C66_end_refuted",
    "C66_order_refuted"
   ],
   "note": "Full. The songs (or failures) of two accepted files with the same music are equal, whatever the orders in which simultaneous note ends are visited. C66_end_refuted and C66_order_refuted show that the provisos on the end of the file and on simultaneous events of two tracks are needed."
  },
  {
   "property": "C67",
   "status": "partial",
   "theorems": [
    "C67_json_heard_partial",
    "C67_json_loops_partial",
    "C67_parts_refuted"
   ],
   "note": "For songs that fit the layout. Without loop calls: exact, any well-formed commands. With loop calls: every note sets its own length; velocities under velocity_safe (C28_velocity_refuted). Only the first part of a song is played (C67_parts_refuted)."
  },
  {
   "property": "C68",
   "status": "partial",
   "theorems": [
    "C68_time_base_partial",
    "C68_divisor_refuted",
    "C68_portamento_refuted"
   ],
   "note": "For ticks per beat divisible by 24, no portamento and times below 2^23 ticks; a debug build gives equal results, and a release build the same song whenever a debug build gives one. The first two conditions are needed (C68_divisor_refuted, C68_portamento_refuted)."
  },
  {
   "property": "C69",
   "status": "proved",
   "theorems": [
    "C69_transposed",
    "C69_drums_refuted"
   ],
   "note": "Full, for files without notes on the percussion channel, whose keys choose instruments (C69_drums_refuted)."
  },
  {
   "property": "C70",
   "status": "partial",
   "theorems": [
    "C70_rom_heard_partial",
    "C70_asked_unique",
    "C70_export",
    "C70_dummy_partial"
   ],
   "note": "ROM commands: for renderable MIDI files and JSON songs without calls that fit the blocks, manifest paths ending in plain names. Optimised songs whose loops keep the music (C24). Export: full (play equality under the C24 condition). Dummy: old output not longer than the ROM (C40_file_refuted)."
  },
  {
   "property": "C71",
   "status": "partial",
   "theorems": [
    "C71_slides_as_asked_partial",
    "C71_slide_ends",
    "C71_long_refuted"
   ],
   "note": "For times of up to 127 steps, which is needed (C71_long_refuted: 144 steps give a slide of 17), and notes of up to 2^18 ticks. The target pitch of the slide is in C48; where it starts and ends is proved for every track (C71_slide_ends)."
  },
  {
   "property": "C72",
   "status": "proved",
   "theorems": [
    "C72_success_slots",
    "C72_success_heard_partial",
    "C72_without_optimisation",
    "C72_weaker",
    "C73_slots_but_one_partial"
   ],
   "note": "Full with the exceptions that the statement names (without them it is false: C33_terminator_refuted, C35_refuted). In addition, what the slots play (C72_success_heard_partial, C73) and what remains if the exceptions occur (C73_slots_but_one_partial)."
  },
  {
   "property": "C73",
   "status": "partial",
   "theorems": [
    "C73_file_renders_partial",
    "C72_success_slots",
    "C73_rom_renders_partial",
    "C73_slots_but_one_partial",
    "C73_renders_but_one_partial"
   ],
   "note": "One performance and one list of notes for C52, C60, C61, C62, C64 and C65 together, and for the whole build. Conditions: those of these properties (good_midi, loud_file); the moved-track condition of C72 for all slots, or (C73_*_but_one_partial) no such condition for all slots of a bank but at most one, if the chain of blocks is still in place."
  },
  {
   "property": "C74",
   "status": "partial",
   "theorems": [
    "C74_safe_edit_partial",
    "C74_again_partial",
    "C74_resume_partial",
    "C74_again_moved_partial",
    "C74_resume_moved_partial"
   ],
   "note": "Unlike C56, from the command line and without assuming that the songs fit: success is enough, apart from tracks moved to the overflow block that destroy a header (C33_header_refuted, C56_refuted); with headers in place moved tracks do no harm (C74_*_moved_partial). The manifest and its files must not be the ROM itself."
  },
  {
   "property": "C75",
   "status": "proved",
   "theorems": [
    "C75_conversion_total"
   ],
   "note": "Every MIDI message list, with any times, lengths and unmatched note-offs, any hash order and tempo factor, with or without optimisation. A checked build does the same or stops with an overflow (C46). That a file of another format aborts is the behaviour of the code (a panic, not an error)."
  },
  {
   "property": "C76",
   "status": "proved",
   "theorems": [
    "C76_commands_report",
    "C76_bank_reports",
    "C76_names_needed",
    "C76_long_refuted"
   ],
   "note": "The bound on the length of tracks that the statement names is needed (C76_long_refuted). JSON songs are valid if their indices are in range (SpecSafe.good_input)."
  },
  {
   "property": "C77",
   "status": "proved",
   "theorems": [
    "C77_layouts",
    "C77_sample",
    "C77_dummy",
    "C77_build",
    "C77_release",
    "C77_fits",
    "C77_stands_in"
   ],
   "note": "The sample file is in the specification as its 29 non-zero bytes (SpecGame.sample_bytes). The conditions on tracks that the statement names are needed (C33_terminator_refuted, C35_refuted, C76_long_refuted)."
  },
  {
   "property": "C78",
   "status": "proved",
   "theorems": [
    "C78_success",
    "C78_sizes"
   ],
   "note": "Both builds, and no condition on moved tracks. The bound on the length of tracks that the statement names is needed (C76_long_refuted)."
  },
  {
   "property": "C79",
   "status": "partial",
   "theorems": [
    "C79_file_exact_partial",
    "C79_voice_exact"
   ],
   "note": "The voice theorem covers every well-behaved voice (SpecVoice.voice_ok) on the grid. The file theorem is partial in what C52 leaves out: files that are not renderable (SpecFile.renderable), commands longer than 127 steps, and optimised songs whose loops change the music (C24)."
  },
  {
   "property": "C80",
   "status": "partial",
   "theorems": [
    "C80_same_result",
    "C80_display_ends",
    "C80_all_bars_needed",
    "C80_songs_bar",
    "C80_bank_bar_partial",
    "C80_bank_bar_refuted"
   ],
   "note": "Full except for the bar of a bank, which exceeds its total if a track is longer than the overflow block (C80_bank_bar_refuted). What crate pbr does is stated in SpecReport.v (sends, thread_step)."
  },
  {
   "property": "C81",
   "status": "partial",
   "theorems": [
    "C81_verbose_true_partial",
    "C81_quiet",
    "C81_sizes_partial",
    "C81_size_refuted"
   ],
   "note": "The addresses: for songs that fit the blocks and banks that do not interfere (as C36). The sizes: for every successful build (C81_sizes_partial), except for songs that start in one block and end in the other, for which the size printed is wrong (C81_size_refuted). The number printed when the block changes, which the program calls the data size before the switch, is the room left in the block."
  },
  {
   "property": "C82",
   "status": "partial",
   "theorems": [
    "C82_no_slides",
    "C82_no_slides_heard",
    "C82_channel_refuted",
    "C82_chord_refuted"
   ],
   "note": "The first sentence is proved for every file (what is heard: under the conditions of C52, good_midi). The second is false: portamento is kept per voice, so it leaks to another channel that gets the voice (C82_channel_refuted) and does not reach the notes of a chord that are on other voices (C82_chord_refuted). What one voice makes of its messages is C71."
  },
  {
   "property": "C83",
   "status": "proved",
   "theorems": [
    "C83_same_result",
    "C83_told",
    "C83_couldnt_fit",
    "C83_overlaps",
    "C83_possible"
   ],
   "note": "The wording of the lines, and the list of sounding notes printed with an occupied voice, are not modelled."
  },
  {
   "property": "C84",
   "status": "proved",
   "theorems": [
    "C84_command",
    "C84_result",
    "C84_file",
    "C84_voices",
    "C84_stuck",
    "C84_log"
   ],
   "note": "The layout of the printed text (Rust's derived Debug) is not modelled: the printed handler is data."
  }
 ]
}
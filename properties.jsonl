{"id": "C01", "title": "Single-command byte encoding is lossless", "statement": "The bytes written for a sequence command, read back by an independent N-SPC command decoder, give the same opcode and the same parameters and consume exactly the bytes written; the only commands for which this fails are identified exactly (note bytes outside 0x80..0xC7 and the one-parameter channel-volume fade).", "quantifier": "every command of the enum and every 8-bit value of every parameter", "why_tests_cant": "30 opcodes with up to three byte parameters each and 256 note values; tests sample a few literals.", "anchors": ["src/nspc/command.rs::Command", "src/nspc/command.rs::Command::write"]}
{"id": "C02", "title": "Track byte stream is lossless under running duration/velocity compression", "statement": "For every well-formed command list, an N-SPC player that decodes the written bytes (which omit repeated duration and velocity bytes) recovers, command by command, the same command with the same effective duration and the same effective velocity/sustain byte as the command list prescribes.", "quantifier": "every command list of any length whose durations are 1..127, velocities 0..15, sustains 0..7", "why_tests_cant": "correctness depends on the running state left by an unbounded prefix of commands.", "anchors": ["src/nspc/command.rs::ParameterizedCommand::write", "src/nspc/track.rs::Track::write"]}
{"id": "C03", "title": "Loop-reference positions point at the operand bytes", "statement": "Writing a track reports, in order, exactly one relocation per CallLoop command, carrying its target, and the reported position is the offset of that CallLoop's two-byte address operand in the written bytes.", "quantifier": "every command list and every initial output buffer", "why_tests_cant": "needs the byte offset of every loop after an arbitrary prefix with elided bytes.", "anchors": ["src/nspc/command.rs::Command::write", "src/nspc/command.rs::CallLoopRef", "src/nspc/track.rs::Track::write"]}
{"id": "C04", "title": "Sustain folding conserves time and produces a playable duration", "statement": "When a note followed by a rest is folded into a single note, the folded note lasts exactly note+rest, its gate fraction is the note's exact share (or the longest gate when the rest is under 1/16), nothing else about the note changes, and the folded duration is a legal duration byte (1..127).", "quantifier": "every note/rest pair of durations", "why_tests_cant": "two-dimensional arithmetic condition; the tests check nine literal pairs and none where the sum exceeds 127.", "anchors": ["src/nspc/command.rs::ParameterizedCommand::set_sustain"]}
{"id": "C05", "title": "Grid-aligned note lengths convert exactly", "statement": "A length in MIDI ticks that is an exact multiple of 1/24 beat is converted (through single-precision arithmetic) to exactly that number of 1/24-beat steps, whether rounding up or down, and the tick count charged to the clock is exactly the input length.", "quantifier": "every ticks-per-beat 1..65535 and every grid-aligned length below 2^23 steps and 2^24 ticks", "why_tests_cant": "floating-point rounding must be right for billions of (ticks, ticks-per-beat) pairs.", "anchors": ["src/nspc/track.rs::Track::get_duration"]}
{"id": "C06", "title": "Off-grid note lengths round by less than one step, in the right direction", "statement": "A note length is rounded up and a rest length rounded down to 1/24-beat steps: the result is within one step of the exact length, on the documented side, and is monotone in the length.", "quantifier": "every ticks-per-beat 1..65535 and every length below 2^24 ticks", "why_tests_cant": "needs a floating-point error bound over the whole input range.", "anchors": ["src/nspc/track.rs::Track::get_duration"]}
{"id": "C07", "title": "Long durations are split without loss", "statement": "A note or rest longer than 127 steps is emitted as a chain of pieces (ties or rests), each a legal duration 1..127, whose durations sum to the quantised length.", "quantifier": "every quantised length", "why_tests_cant": "the piece count passes through an 8-bit conversion; the boundary lies beyond anything a test song reaches.", "anchors": ["src/nspc/track.rs::Track::get_duration", "src/nspc/track.rs::Track::insert_rest", "src/nspc/track.rs::Track::new"]}
{"id": "C08", "title": "A converted track keeps time with the MIDI clock", "statement": "The start of every note in the converted track, measured by adding up all emitted durations before it, lies within one 1/24-beat step of its MIDI time; the error does not accumulate over the length of the song.", "quantifier": "every monophonic time-ordered event list and every ticks-per-beat", "why_tests_cant": "drift is a property of unbounded event histories.", "anchors": ["src/nspc/track.rs::Track::new", "src/nspc/track.rs::Track::insert_rest"]}
{"id": "C09", "title": "Converted tracks are padded to the common end time", "statement": "Every non-empty converted track's total duration agrees with the song's end time up to one step, so all voices end together.", "quantifier": "every event list and end time", "why_tests_cant": "needs the sum over an arbitrary event history.", "anchors": ["src/nspc/track.rs::Track::new"]}
{"id": "C10", "title": "Converting a time-ordered voice never crashes", "statement": "Converting the events of a voice never aborts on arithmetic, for any time-ordered sequence of note-on/note-off pairs.", "quantifier": "every time-ordered monophonic event list", "why_tests_cant": "the subtraction that can underflow depends on rounding left over from earlier notes.", "anchors": ["src/nspc/track.rs::Track::new"]}
{"id": "C11", "title": "The 'more than one voice' conversion error is unreachable", "statement": "After a MIDI file has been read successfully, converting any of the eight voices never fails with the 'more than one voice needed' error.", "quantifier": "every sequence of MIDI reader callbacks", "why_tests_cant": "needs a global invariant of the voice allocator over arbitrary files.", "anchors": ["src/midi/mod.rs::MidiHandler::channels_to_voices", "src/nspc/track.rs::Track::new"]}
{"id": "C12", "title": "Every note of a voice becomes exactly one sounding command", "statement": "In the converted track there is exactly one Note (or, directly after a pitch slide, one Tie carrying a velocity) per completed note of the voice, in the same order, with pitch = MIDI note + 0x68 and velocity = MIDI velocity / 8.", "quantifier": "every monophonic event list", "why_tests_cant": "counts and orders over unbounded histories.", "anchors": ["src/nspc/track.rs::Track::new"]}
{"id": "C13", "title": "Tempo events convert to the saturated scaled tempo", "statement": "A set-tempo event produces exactly one tempo command whose byte is the single-precision product of ceil(60,000,000 / microseconds-per-beat) and the tempo factor, truncated and saturated to 0..255; it is monotone (a slower MIDI tempo never gives a faster byte), and malformed tempo data is the only way to crash.", "quantifier": "every 24-bit tempo and every finite non-negative tempo factor", "why_tests_cant": "16 million tempos times 2^32 factors.", "anchors": ["src/nspc/track.rs::Track::new"]}
{"id": "C14", "title": "Tracks converted from MIDI are decodable by the sound driver", "statement": "The bytes written for a converted MIDI voice decode as N-SPC commands without any parameter or length byte being mistaken for something else.", "quantifier": "every monophonic time-ordered event list", "why_tests_cant": "one bad byte anywhere desynchronises the rest of the stream; depends on all notes and rests.", "anchors": ["src/nspc/track.rs::Track::new", "src/nspc/track.rs::Track::write", "src/nspc/command.rs::ParameterizedCommand::write", "src/nspc/command.rs::ParameterizedCommand::set_sustain"]}
{"id": "C15", "title": "Merging MIDI tracks into channels loses nothing and is stably time-ordered", "statement": "After the merge, each channel holds exactly the messages addressed to it (meta and sysex on channel 0), each once, with absolute time equal to the sum of deltas in its track, ordered by time, then note-offs before other messages before note-ons, with ties in file order.", "quantifier": "every list of MIDI tracks and messages whose absolute times fit 32 bits", "why_tests_cant": "quantifies over all interleavings of tracks and all event counts.", "anchors": ["src/midi/mod.rs::MidiHandler::tracks_to_channels", "src/midi/mod.rs::priority", "src/midi/mod.rs::channel"]}
{"id": "C16", "title": "Base-voice assignment is conflict-free", "statement": "When base voices are assigned, every channel gets a voice below 8 and two channels that share a voice never have sounding intervals that overlap in time.", "quantifier": "every list of sounding intervals per channel", "why_tests_cant": "backtracking search over 8^16 assignments and arbitrary intervals.", "anchors": ["src/midi/mod.rs::MidiHandler::find_base_voices", "src/midi/mod.rs::MidiHandler::overlapping_interval"]}
{"id": "C17", "title": "Base-voice assignment is complete", "statement": "The search reports 'couldn't fit' only if no conflict-free assignment of channels to eight voices exists, despite only ever trying the first empty voice.", "quantifier": "every list of sounding intervals per channel", "why_tests_cant": "needs a symmetry argument over all assignments.", "anchors": ["src/midi/mod.rs::MidiHandler::find_base_voices"]}
{"id": "C18", "title": "No voice ever carries two notes at once", "statement": "At every point while channels are distributed to voices, distinct sounding notes occupy distinct voices below 8; in every voice's message list note-ons and note-offs strictly alternate.", "quantifier": "every set of channel message lists and every base-voice assignment", "why_tests_cant": "invariant over unbounded event histories.", "anchors": ["src/midi/mod.rs::MidiHandler::channels_to_voices"]}
{"id": "C19", "title": "Distribution to voices conserves notes", "statement": "If distribution succeeds, every note-on with non-zero velocity appears exactly once, on exactly one voice, at its own time with its own velocity; every note that is switched off (or retriggered) is switched off on the voice where it was switched on, and if distribution fails then some note-on really had no free voice.", "quantifier": "every set of time-ordered channel message lists whose absolute times fit 32 bits", "why_tests_cant": "conservation over unbounded histories.", "anchors": ["src/midi/mod.rs::MidiHandler::channels_to_voices"]}
{"id": "C20", "title": "Voice message lists are time-ordered", "statement": "Every voice's message list is in non-decreasing time order, and events at equal time keep note-offs before note-ons.", "quantifier": "every set of channel message lists", "why_tests_cant": "ordering of a 16-way merge for all inputs.", "anchors": ["src/midi/mod.rs::MidiHandler::channels_to_voices", "src/midi/mod.rs::MidiHandler::tracks_to_channels"]}
{"id": "C21", "title": "Result does not depend on hash-map iteration order", "statement": "The voices produced are the same whatever order the active-note maps are iterated in, so the same MIDI file always gives the same song.", "quantifier": "every iteration order at every step and every input", "why_tests_cant": "the runtime picks the order randomly; a test sees one order.", "anchors": ["src/midi/mod.rs::MidiHandler::channels_to_voices"]}
{"id": "C22", "title": "Each note plays with its own channel's instrument", "statement": "When a note starts on a voice, the last program change sent to that voice is the last program change of the note's own channel.", "quantifier": "every set of channel message lists and base-voice assignment", "why_tests_cant": "depends on the history of voice sharing.", "anchors": ["src/midi/mod.rs::MidiHandler::channels_to_voices"]}
{"id": "C23", "title": "Percussion channel mapping is uniform", "statement": "On MIDI channel 10, snare notes (38, 40) sound at the snare pitch with the snare instrument and all other notes with the cymbal instrument, however the note-off is encoded and whatever else is sounding.", "quantifier": "every set of channel message lists", "why_tests_cant": "depends on note-off encoding and on which voice earlier percussion notes used.", "anchors": ["src/midi/mod.rs::MidiHandler::channels_to_voices", "src/midi/mod.rs::SNARE_NOTE"]}
{"id": "C24", "title": "Call-loop optimisation does not change the music (command level)", "statement": "Expanding every CallLoop of the optimised song (repeating the target track the stated number of times) gives back exactly the command lists of the unoptimised song.", "quantifier": "every list of tracks", "why_tests_cant": "quantifies over all repetition structures of unbounded command lists; the unit tests pass on inputs where two errors cancel.", "anchors": ["src/nspc/mod.rs::Song::optimize_call_loops", "src/nspc/mod.rs::Song::extract_sequence", "src/nspc/seqtree.rs::SeqTree::add_commands", "src/nspc/seqtree.rs::SeqTree::best_sequence", "src/nspc/seqtree.rs::SeqTree::consolidate_locations", "src/nspc/seqtree.rs::add_location"]}
{"id": "C25", "title": "Call-loop optimisation terminates", "statement": "The optimiser stops after finitely many extractions for every song: each extraction strictly shortens the top-level tracks.", "quantifier": "every list of tracks", "why_tests_cant": "termination for all inputs.", "anchors": ["src/nspc/mod.rs::Song::optimize_call_loops"]}
{"id": "C26", "title": "Call loops are never nested and always have valid targets", "statement": "In an optimised song every CallLoop names an existing extracted track, extracted tracks contain no CallLoop and no pitch slide, have more than three commands and do not start with a tie, and repeat counts are positive.", "quantifier": "every list of loop-free tracks", "why_tests_cant": "invariant over an unbounded number of extractions of arbitrary sequences.", "anchors": ["src/nspc/mod.rs::Song::optimize_call_loops", "src/nspc/mod.rs::Song::extract_sequence", "src/nspc/seqtree.rs::SeqTree::add_commands", "src/nspc/seqtree.rs::SeqTree::best_sequence"]}
{"id": "C27", "title": "Loop candidates are genuine occurrences", "statement": "Every location reported for a candidate loop is a position in its track at which the candidate's commands really occur, locations of one track are in increasing order, and their claimed extents never overlap.", "quantifier": "every list of tracks", "why_tests_cant": "soundness of a suffix-tree construction over all inputs.", "anchors": ["src/nspc/seqtree.rs::SeqTree::add_track", "src/nspc/seqtree.rs::SeqTree::add_commands", "src/nspc/seqtree.rs::SeqTree::best_sequence", "src/nspc/seqtree.rs::SeqTree::consolidate_locations"]}
{"id": "C28", "title": "Call-loop optimisation does not change playback (byte level)", "statement": "Playing the written bytes of an optimised track (with loops called) gives the same notes, durations and velocities as playing the unoptimised track.", "quantifier": "every list of tracks with a correct extraction", "why_tests_cant": "the running duration/velocity state at every call boundary is history dependent.", "anchors": ["src/nspc/mod.rs::Song::extract_sequence", "src/nspc/track.rs::Track::write", "src/nspc/command.rs::ParameterizedCommand::write"]}
{"id": "C29", "title": "A song converted from MIDI has one part listing exactly its top-level tracks", "statement": "The song has one part whose entries are 0..n-1 for its n non-empty voices (n at most 8, in voice order), with extracted loops after them, with or without optimisation.", "quantifier": "every MIDI handler state", "why_tests_cant": "for all inputs.", "anchors": ["src/nspc/mod.rs::Song::from_midi"]}
{"id": "C30", "title": "LoROM address mapping is a bijection", "statement": "SNES addresses in the upper half of banks 0x00..0xFF map one-to-one onto file offsets 0..0x7FFFFF: bank*0x8000 + (address mod 0x8000), and addresses with bit 15 clear mirror them.", "quantifier": "every 24-bit address", "why_tests_cant": "16 million addresses.", "anchors": ["src/rom/mod.rs::snes_to_pc_addr", "src/rom/mod.rs::snes_bytes_to_pc_addr"]}
{"id": "C31", "title": "Transfer-block headers and address bytes round-trip", "statement": "Writing a block header and loading it back gives the same length and ARAM address for all 16-bit values and changes only four bytes; splitting an address into bytes and rejoining is the identity below 0x10000.", "quantifier": "every ROM image, offset, length and address", "why_tests_cant": "for all images and values.", "anchors": ["src/rom/mod.rs::Chunk::load", "src/rom/mod.rs::Chunk::write_header", "src/rom/mod.rs::addr_to_bytes"]}
{"id": "C32", "title": "The block scan terminates and finds the right blocks", "statement": "Scanning a bank's transfer-block chain always terminates; if the chain is well formed it finds the last block loaded at ARAM 0xD000 and the block following it; otherwise it reports an error or panics, never loops.", "quantifier": "every ROM image and base address, including corrupt ones", "why_tests_cant": "adversarial images; termination.", "anchors": ["src/rom/mod.rs::write_bank"]}
{"id": "C33", "title": "ROM writes stay inside the bank's two data blocks", "statement": "Writing a bank changes no byte of the image outside the payloads of its base block and overflow block.", "quantifier": "every ROM image, bank and song data for which the write succeeds", "why_tests_cant": "frame property over all images and data sizes.", "anchors": ["src/rom/mod.rs::write_bank"]}
{"id": "C34", "title": "Written songs are found by following the ROM's pointers", "statement": "After a bank is written, an independent reader that loads the blocks into ARAM and follows song table, song header, part pointer and track pointers finds for every song exactly its tracks' bytes and its loop-to-start header when looping.", "quantifier": "every ROM image, every list of songs that fits", "why_tests_cant": "pointer structure over arbitrary sizes, with a possible block switch in the middle of any song.", "anchors": ["src/rom/mod.rs::write_bank"]}
{"id": "C35", "title": "Every CallLoop in the ROM is patched with its target's address", "statement": "In the written image each CallLoop operand holds the ARAM address of the first byte of its target track.", "quantifier": "every ROM image, every list of songs that fits", "why_tests_cant": "depends on where the block switch falls.", "anchors": ["src/rom/mod.rs::write_bank", "src/rom/mod.rs::RomCallLoopRef"]}
{"id": "C36", "title": "Song tables of the three banks are complete and disjoint from song data", "statement": "When a bank has been written, its table entries for its songs are consecutive, lead to song headers in the bank's song data, start at entry (number of songs in earlier banks), never reach the first song's data, and the remaining table entries are zero.", "quantifier": "every manifest the program can construct, every song (also too long ones and parts of more than eight tracks) and every ROM image whose block chain can hold the bank", "why_tests_cant": "for all images and contents.", "anchors": ["src/rom/mod.rs::write", "src/rom/mod.rs::write_bank", "src/rom/mod.rs::BANK_FIRST_SONG_ADDRS", "src/manifest/mod.rs::Manifest"]}
{"id": "C37", "title": "A failed build leaves the ROM file untouched", "statement": "If building the ROM returns an error or panics at any point, the ROM file on disk is byte-for-byte unchanged.", "quantifier": "every manifest, ROM image, conversion outcome and failure point", "why_tests_cant": "every failure point and history.", "anchors": ["src/rom/mod.rs::write"]}
{"id": "C38", "title": "A successful build writes the whole image and keeps the file size", "statement": "If building succeeds the ROM file contains exactly the new image, of the same length as before.", "quantifier": "every manifest, ROM image and behaviour of the operating system's write call", "why_tests_cant": "short writes are decided by the OS.", "anchors": ["src/rom/mod.rs::write"]}
{"id": "C39", "title": "The three banks do not disturb each other", "statement": "When the banks' blocks are disjoint, writing one bank leaves the songs of the others intact: after a full build all three banks satisfy the pointer-following property.", "quantifier": "every ROM image with disjoint banks and every manifest", "why_tests_cant": "for all images.", "anchors": ["src/rom/mod.rs::write"]}
{"id": "C40", "title": "The generated dummy ROM keeps structure and drops content", "statement": "The dummy ROM has the same length, the same bank pointers and the same transfer-block chains as the original, is zero everywhere else, and generating a dummy from a dummy gives it back; the output file contains exactly it.", "quantifier": "every ROM image and base addresses on which generation succeeds, and every previous content of the output file", "why_tests_cant": "for all images.", "anchors": ["src/rom/mod.rs::gen_fake_rom"]}
{"id": "C41", "title": "Built-in manifests have the game's song layout", "statement": "The single-song manifest assigns the given file to all 15+16+3 slots; the file-select manifest assigns it to exactly the slot named 'File Select' and leaves every other slot empty.", "quantifier": "every path", "why_tests_cant": "for all paths; relates two independently written lists.", "anchors": ["src/manifest/mod.rs::Manifest::single_song", "src/manifest/mod.rs::Manifest::file_select", "src/manifest/mod.rs::OVERWORLD_SONGS"]}
{"id": "C42", "title": "Manifest files are read slot by slot with documented defaults", "statement": "Reading a manifest yields for each bank the songs in the game's order, with absolute inputs kept and relative inputs resolved against the manifest's directory, looping on by default and the default tempo factor when absent; a missing input is the only structural failure.", "quantifier": "every JSON value", "why_tests_cant": "for all JSON documents.", "anchors": ["src/manifest/mod.rs::Manifest::new", "src/manifest/mod.rs::Bank::new", "src/manifest/mod.rs::Song::new"]}
{"id": "C43", "title": "Command line bank addresses and converter selection", "statement": "Bank addresses default when absent, are read as three hexadecimal 32-bit numbers otherwise (any non-hex or too-large value is an error), and the MIDI converter is used exactly for inputs with extension 'mid'.", "quantifier": "every argument string and path", "why_tests_cant": "for all strings.", "anchors": ["src/lib.rs::read_bank_addrs", "src/lib.rs::converter"]}
{"id": "C44", "title": "Songs survive the JSON round trip", "statement": "A song written to JSON and read back is the same song, and the JSON values that are read as a song (hand-written ones included) are exactly those of the documented shape, each as the song it spells; any other value stops the program.", "quantifier": "every song", "why_tests_cant": "for all songs.", "anchors": ["src/nspc/mod.rs::Song::write_to_json", "src/nspc/mod.rs::Song::from_json", "src/nspc/command.rs::Command", "src/nspc/command.rs::ParameterizedCommand"]}
{"id": "C45", "title": "Verbose mode does not change the result", "statement": "Running with the verbose flag produces the same ROM image and the same outcome as running without it.", "quantifier": "every input", "why_tests_cant": "for all inputs.", "anchors": ["src/rom/mod.rs::write_bank"]}
{"id": "C46", "title": "Release builds agree with debug builds", "statement": "Whenever a debug build (overflow-checked) completes without panicking, the release build computes the same result.", "quantifier": "every input of every modelled stage", "why_tests_cant": "for all inputs.", "anchors": ["src/nspc/track.rs::Track::new", "src/nspc/seqtree.rs::SeqTree::add_commands", "src/midi/mod.rs::MidiHandler::read", "src/rom/mod.rs::write"]}
{"id": "C47", "title": "Track framing: preamble and terminator", "statement": "A written non-empty track is: the song preamble (percussion base, global and channel volume) if it opens a part, the channel-volume preamble if it is another track of a part, nothing if it is a loop body; then its commands; then a zero byte. An empty track writes nothing.", "quantifier": "every song and track index", "why_tests_cant": "for all songs.", "anchors": ["src/nspc/mod.rs::Song::write_track"]}
{"id": "C48", "title": "Portamento slides fit inside the note they bend", "statement": "A pitch slide inserted for portamento has delay + min(time, duration) equal to the duration of the command it bends, never underflows, and targets the next note's pitch; nothing is inserted after a rest.", "quantifier": "every event list", "why_tests_cant": "for all inputs.", "anchors": ["src/nspc/command.rs::ParameterizedCommand::create_pitch_slide", "src/nspc/track.rs::Track::new"]}
{"id": "C49", "title": "Reading a MIDI file never crashes", "statement": "Reading any format-1 MIDI file gives eight voices or the 'couldn't fit' error; it never aborts.", "quantifier": "every sequence of reader callbacks for a format-1 file", "why_tests_cant": "for all files, including ones with unmatched note-offs.", "anchors": ["src/midi/mod.rs::MidiHandler::read", "src/midi/mod.rs::tracks_to_channels", "src/midi/mod.rs::channels_to_voices"]}
{"id": "C50", "title": "Instrument, volume and tempo changes of a voice are all kept, in order", "statement": "The set-instrument, channel-volume and tempo commands of a converted track are exactly those its voice's program changes, controller-7 changes and tempo changes ask for (program through the General MIDI table, or as it is on the percussion channel; twice the controller value), in the same order, and lie between the same notes.", "quantifier": "every event list with valid data bytes, both builds", "why_tests_cant": "for all event lists.", "anchors": ["src/nspc/track.rs::Track::new", "src/nspc/instruments.rs::INSTRUMENT_MAP"]}
{"id": "C51", "title": "Instrument, volume and tempo changes act when the MIDI file says", "statement": "In a converted track each set-instrument, channel-volume and tempo command is preceded by as many steps as its MIDI time prescribes, up to the tolerance of note onsets.", "quantifier": "every well-behaved voice, every change in it", "why_tests_cant": "for all event lists and times.", "anchors": ["src/nspc/track.rs::Track::new"]}
{"id": "C52", "title": "From MIDI file to sound: every note is started once, in tune and in time", "statement": "When a MIDI file is converted (with or without loop optimisation) and the song sits in the sound chip's memory, the driver playing its eight voices starts exactly one note for each note of the file that is switched off, at the key's pitch (snares at the snare's) and within the timing tolerance of its tick; nothing else is started, and what is played is determined by the memory.", "quantifier": "every renderable MIDI file, every address and layout of the song, both builds, with and without loops", "why_tests_cant": "an end-to-end statement over all files, channel distributions, loop extractions and memory layouts.", "anchors": ["src/midi/mod.rs::MidiHandler::read", "src/midi/mod.rs::channels_to_voices", "src/nspc/track.rs::Track::new", "src/nspc/seqtree.rs::SeqTree::add_commands", "src/nspc/mod.rs::Song::new", "src/nspc/mod.rs::Song::write_track"]}
{"id": "C53", "title": "Optimising a song never makes it longer", "statement": "Loop optimisation either leaves a song unchanged or makes it take strictly less room: counting all its tracks, loop bodies included, it has at least two commands fewer, one extraction saving exactly the amount the search computed; and the bytes written for it do not grow.", "quantifier": "every list of tracks, every number of top-level tracks, both builds", "why_tests_cant": "for all songs and every sequence of extractions.", "anchors": ["src/nspc/seqtree.rs::SeqTree::best_sequence", "src/nspc/seqtree.rs::SeqTree::extract_sequence", "src/nspc/mod.rs::Song::new"]}
{"id": "C54", "title": "The search for repetitions is exhaustive and picks the best one", "statement": "Iterating over the candidate tree stops, yields every repeated block the tree holds exactly with its consolidated locations, and the extracted candidate is worthwhile and saves at least as much as any other one with fewer than 256 copies; when none is extracted there is no such candidate.", "quantifier": "every list of tracks (under 2^31 commands), every tree built from it, both builds", "why_tests_cant": "for all trees and every order of edges.", "anchors": ["src/nspc/seqtree.rs::SeqTree::best_sequence", "src/nspc/seqtree.rs::SeqTreeIterator::next"]}
{"id": "C55", "title": "The console plays the songs of a rebuilt ROM", "statement": "After build_rom has succeeded, take any slot of the manifest: the entry for it in the song table of its bank, in the memory the console loads from the ROM, is the address of a song which sounds like the slot's MIDI file (every note once, in tune, in time, nothing else), is silent if the slot is empty, and starts again at its end exactly if the slot loops.", "quantifier": "every manifest, ROM image, slot and MIDI file, both builds, with and without loop optimisation", "why_tests_cant": "an end-to-end statement over all files, ROM layouts and slots.", "anchors": ["src/lib.rs::build_rom", "src/lib.rs::converter", "src/rom/mod.rs::write", "src/rom/mod.rs::write_bank", "src/nspc/mod.rs::Song::new", "src/nspc/mod.rs::Song::write_track", "src/midi/mod.rs::MidiHandler::read"]}
{"id": "C56", "title": "Building a ROM again is safe", "statement": "Running the same build a second time leaves the file as the first run left it; and a build that was interrupted while writing, leaving any mixture of old and new bytes, can be run again with the result an uninterrupted build gives.", "quantifier": "every manifest, ROM image, crash point of the final write, both builds", "why_tests_cant": "for all images and all crash points.", "anchors": ["src/rom/mod.rs::write", "src/rom/mod.rs::write_bank", "src/rom/mod.rs::Chunk::load"]}
{"id": "C57", "title": "A command changes at most the file it is told to write", "statement": "Whatever the outcome, a command changes, creates or removes no file but the one named for writing on its command line; the commands that put songs into a ROM change no file at all unless they succeed, never create the ROM and never change its size; dump_midi writes nothing and reports no error; a reported error of midi2json leaves all files as they were; in a release build the verbose flag makes no difference.", "quantifier": "every command line, file system content, parser behaviour and operating-system failure, both builds", "why_tests_cant": "for all commands, file contents and failure points.", "anchors": ["src/lib.rs::run", "src/lib.rs::build_rom", "src/rom/mod.rs::write", "src/rom/mod.rs::gen_fake_rom"]}
{"id": "C58", "title": "Going through JSON gives the same ROM", "statement": "Exporting a MIDI file with midi2json and then putting the JSON file into a ROM (all_overworld or file_select) has the outcome of putting the MIDI file in directly, and every file but the JSON file ends up the same, whatever order the hash maps are iterated in.", "quantifier": "every readable MIDI file, ROM, address option and operating-system behaviour, both builds, with and without loop optimisation", "why_tests_cant": "an equality of two command sequences over all files and iteration orders.", "anchors": ["src/lib.rs::run", "src/lib.rs::converter", "src/lib.rs::song_from_midi", "src/nspc/mod.rs::Song::write_to_json", "src/nspc/mod.rs::Song::from_json"]}
{"id": "C59", "title": "A dummy ROM stands in for the real one", "statement": "A manifest can be built into the dummy ROM made by gen_fake_rom exactly when it can be built into the ROM the dummy was made from, and the same bytes are written at the same places.", "quantifier": "every ROM image, manifest and layout, both builds", "why_tests_cant": "a relation between two builds over all images.", "anchors": ["src/rom/mod.rs::gen_fake_rom", "src/rom/mod.rs::write", "src/rom/mod.rs::write_bank"]}
{"id": "C60", "title": "Notes sound as long and as loud as in the MIDI file", "statement": "A note played by the console stops sounding when the MIDI note is switched off (less than the timing tolerance away) and has its velocity, the upper four of the MIDI velocity's seven bits; legato notes and long notes split into ties included, with or without loop optimisation.", "quantifier": "every MIDI file, voice, note length, velocity and time base, both builds, with and without loop optimisation", "why_tests_cant": "lengths interact with rests, ties, slides, sustain and rounding; the running velocity depends on the whole history of the track.", "anchors": ["src/nspc/track.rs::Track::new", "src/nspc/track.rs::ParameterizedCommand::set_sustain", "src/nspc/command.rs::ParameterizedCommand::write", "src/lib.rs::converter"]}
{"id": "C61", "title": "The console plays at the tempi of the MIDI file", "statement": "Playing a converted file, the console is given exactly the file's tempo changes, from whatever track they come, in their order in time, each with the tempo the file asks for (scaled by the tempo factor) and never later than the timing tolerance.", "quantifier": "every MIDI file, tempo factor and time base, both builds, with and without loop optimisation", "why_tests_cant": "tempo changes of all tracks are merged with all channels, carried to one voice and delayed by rests, ties and rounding.", "anchors": ["src/midi/mod.rs::MidiHandler::read", "src/midi/mod.rs::MidiHandler::channels_to_voices", "src/nspc/track.rs::Track::new", "src/lib.rs::converter"]}
{"id": "C62", "title": "Every note the console starts has the instrument of its channel", "statement": "Playing a converted file, each note is started with the instrument of the program its MIDI channel has chosen by then, and percussion notes with the instrument of their drum.", "quantifier": "every MIDI file and note, both builds, with and without loop optimisation", "why_tests_cant": "depends on how notes of sixteen channels share eight voices and on the whole history of each voice.", "anchors": ["src/midi/mod.rs::MidiHandler::channels_to_voices", "src/midi/mod.rs::MidiHandler::read", "src/nspc/track.rs::Track::new", "src/lib.rs::converter"]}
{"id": "C63", "title": "A manifest that satisfies the published schema is read as written", "statement": "Every JSON value that satisfies src/manifest.schema.json is accepted as a manifest, in any directory, and each of the 34 slots gets exactly the file, tempo factor and loop flag the manifest gives; a default is used only for a key that is absent.", "quantifier": "every JSON value and manifest directory", "why_tests_cant": "ranges over all JSON values; relates the schema file to the reader.", "anchors": ["src/manifest/mod.rs::Manifest::new", "src/manifest/mod.rs::Song::new", "src/manifest.schema.json::definitions/song"]}
{"id": "C64", "title": "A song lasts as long as its MIDI file, on every voice", "statement": "Playing a converted file, every voice of the console that is not silent lasts until the file's last channel event, less than the timing tolerance more or less, so that no voice ends the song early and a looping song repeats with the period of the file.", "quantifier": "every MIDI file and time base, both builds, with and without loop optimisation", "why_tests_cant": "the padding at the end depends on the rounding of all earlier events of each voice.", "anchors": ["src/midi/mod.rs::MidiHandler::read", "src/nspc/track.rs::Track::new", "src/lib.rs::converter"]}
{"id": "C65", "title": "Every note the console starts has the volume of its channel", "statement": "Playing a converted file, each note is started with twice the volume (controller 7) its MIDI channel has set by then, and with the driver's initial volume if the channel has set none.", "quantifier": "every MIDI file and note, both builds, with and without loop optimisation", "why_tests_cant": "controllers are delayed to the next note or rest of a voice, and a voice plays notes of several channels: depends on the whole history of each voice.", "anchors": ["src/midi/mod.rs::MidiHandler::channels_to_voices", "src/midi/mod.rs::MidiHandler::read", "src/nspc/track.rs::Track::new", "src/lib.rs::converter"]}
{"id": "C66", "title": "Files with the same music give the same song", "statement": "Two accepted MIDI files with the same time base, the same last channel event and on every channel the same tempi, notes, programs, volumes and portamento controllers give the same song. In particular texts, system exclusive messages, pitch bends, pressures and other controllers make no difference, and neither does the order of tracks that do not write to one channel at the same tick.", "quantifier": "every pair of MIDI files with the same music, tempo factor, both builds, with and without loop optimisation, any order of simultaneous note ends", "why_tests_cant": "relates the whole conversion of two files of any size.", "anchors": ["src/midi/mod.rs::MidiHandler::read", "src/midi/mod.rs::MidiHandler::tracks_to_channels", "src/midi/mod.rs::MidiHandler::channels_to_voices", "src/midi/mod.rs::MidiHandler::find_base_voices", "src/nspc/track.rs::Track::new", "src/lib.rs::converter"]}
{"id": "C67", "title": "A JSON song is played as written", "statement": "After a ROM build, the console plays, from the slot of a JSON song, on each of its voices exactly the commands of the voice's track, with the lengths and velocities the file gives, loop calls expanded, and then repeats or stops as the slot says; voices without a track are silent.", "quantifier": "every JSON song, ROM, manifest and bank, both builds, all verbosity and optimisation flags", "why_tests_cant": "composes the JSON reader, the byte encoding, the placement in two blocks, the patching of calls and the driver's reading.", "anchors": ["src/lib.rs::converter", "src/lib.rs::build_rom", "src/nspc/mod.rs::Song::from_json", "src/nspc/mod.rs::Song::write_track", "src/nspc/command.rs::ParameterizedCommand::write", "src/rom/mod.rs::write", "src/rom/mod.rs::write_bank"]}
{"id": "C68", "title": "The time base of a MIDI file makes no difference", "statement": "The same music written with a multiple of the ticks per beat, all times multiplied alike, gives the same song.", "quantifier": "every MIDI file, multiple and tempo factor, both builds, with and without loop optimisation", "why_tests_cant": "rounding happens at every event and accumulates; relates the conversions of two files of any size.", "anchors": ["src/nspc/track.rs::Track::new", "src/nspc/track.rs::Track::get_duration", "src/midi/mod.rs::MidiHandler::read", "src/midi/mod.rs::MidiHandler::find_base_voices", "src/nspc/mod.rs::Song::from_midi"]}
{"id": "C69", "title": "A transposed MIDI file gives the transposed song", "statement": "If every key of a file without percussion is moved by the same number of semitones and stays a MIDI key, the song is the same command by command, with every note and every pitch slide target moved by that number and the same loops.", "quantifier": "every MIDI file, interval and tempo factor, both builds, with and without loop optimisation", "why_tests_cant": "the choice of voices and of loops depends on comparisons between all notes of the file.", "anchors": ["src/midi/mod.rs::MidiHandler::read", "src/midi/mod.rs::MidiHandler::channels_to_voices", "src/nspc/track.rs::Track::new", "src/nspc/seqtree.rs::optimize_call_loops", "src/nspc/mod.rs::Song::from_midi"]}
{"id": "C70", "title": "Each command does what its arguments ask", "statement": "After a successful run with a complete write: a ROM command leaves, behind each slot's entry of the song table, the song its arguments (or the manifest, with paths seen from the manifest's directory) name for that slot, at the bank addresses given or the game's, as MIDI sound, as written JSON, or silence, repeating or stopping as asked; the JSON export holds the converted song, without loop calls under --skip-optimization and otherwise with calls that expand to the same commands; the dummy ROM has the input's size and block chains and zeros elsewhere.", "quantifier": "every command line, file system, ROM image, manifest and MIDI or JSON file, both builds", "why_tests_cant": "quantifies over all command lines, files and songs at once, from the arguments to the bytes the console loads.", "anchors": ["src/lib.rs::run", "src/lib.rs::build_rom", "src/lib.rs::write_all_overworld", "src/lib.rs::write_file_select", "src/lib.rs::converter", "src/manifest/mod.rs::Manifest::new", "src/rom/mod.rs::Rom::write", "src/rom/mod.rs::gen_fake_rom"]}
{"id": "C71", "title": "Pitch slides are those the voice asks for", "statement": "A note gets a pitch slide if portamento (controller 65) is on at its start and the note before it ends there, with no change of instrument, volume or tempo between the two; it gets none if portamento is off, there is such a change or no note before it, or the two are two steps apart. The slide lasts the portamento time of controllers 5 and 37, rounded up to steps, and the note is tied to it, not struck again, unless one of these changes falls inside the note.", "quantifier": "every voice, ticks-per-beat value and tempo factor, both builds", "why_tests_cant": "depends on the whole history of the voice: controllers, the rounded end of the last note and the last command emitted.", "anchors": ["src/nspc/track.rs::Track::new", "src/nspc/track.rs::Track::create_pitch_slide", "src/nspc/track.rs::Track::get_duration"]}
{"id": "C72", "title": "A build that reports success plays the songs", "statement": "If a ROM-building command reports success and the file is written completely, then every slot of the song table leads to the song asked for, whatever the sizes of the songs, unless a track that had to be moved to a bank's overflow block calls loops or is longer than that block; without the optimisation and with MIDI files only, a track longer than the overflow block is the only exception.", "quantifier": "all build modes, tools, hash orders, file systems, command lines and ROM images whose chains can hold the banks, all manifests with readable MIDI files or JSON songs of at most eight tracks per part", "why_tests_cant": "Sizes of songs, ROM layouts and manifests are unbounded, and success must imply playability for all of them.", "anchors": ["src/rom/mod.rs::Rom::write", "src/rom/mod.rs::Rom::write_bank", "src/lib.rs::build_rom", "src/lib.rs::all_overworld", "src/lib.rs::file_select", "src/nspc/mod.rs::Song::write_track"]}
{"id": "C73", "title": "One performance has everything the MIDI file asks for", "statement": "After a successful build with a complete write, each slot of the song table leads to exactly the song its file converts to; the performance the driver gives of it has, at once, the file's notes with their pitches, times, lengths and velocities, each on the instrument and at the volume its channel had set, under the file's tempi, and ends where the file ends. JSON songs with loop calls are played as their commands say and empty slots are silent.", "quantifier": "all build modes, hash orders, file systems, command lines, ROM images, manifests and MIDI files (with or without loop optimisation)", "why_tests_cant": "Separate guarantees about pitches, instruments and tempi could be met by different readings of the file; that one performance meets all of them must hold for every file, song size and ROM layout.", "anchors": ["src/rom/mod.rs::Rom::write", "src/lib.rs::run", "src/lib.rs::build_rom", "src/lib.rs::converter", "src/nspc/mod.rs::Song::from_midi", "src/nspc/mod.rs::Song::write_to_rom", "src/nspc/track.rs::Track::new", "src/midi/mod.rs::MidiHandler::read"]}
{"id": "C74", "title": "A successful build is a safe, repeatable edit of the ROM file", "statement": "A ROM-building command that reports success and writes completely changes no file but the ROM, and in the ROM only the payloads of the banks' song blocks: its size, the block chains and everything else stay. Running the same command again succeeds and changes nothing, and running it after a write that was cut short gives the files of an uninterrupted build.", "quantifier": "all build modes, tools, hash orders (different at each run), file systems, command lines, ROM images and cut-off points of the write", "why_tests_cant": "Quantifies over every byte outside the blocks, every place the write can stop and every iteration order of the hash map.", "anchors": ["src/rom/mod.rs::Rom::read", "src/rom/mod.rs::Rom::write", "src/lib.rs::run", "src/lib.rs::build_rom", "src/manifest/mod.rs::Manifest::new"]}
{"id": "C75", "title": "A release build converts every MIDI file without crashing", "statement": "In a release build, converting a MIDI file to a song, with or without loop optimisation, gives a song or the 'couldn't fit' error whenever the file is a complete format-1 file, and the reader's error when it is cut short. It aborts only if the file is not of format 1.", "quantifier": "every sequence of MIDI messages with valid data bytes, whatever their times, note lengths and unmatched note-offs; every hash order, tempo factor and tick rate", "why_tests_cant": "the arithmetic, the table look-ups and the termination of the loop search depend on the whole history of every voice.", "anchors": ["src/lib.rs::song_from_midi", "src/midi/mod.rs::MidiHandler::read", "src/nspc/track.rs::Track::new", "src/nspc/seqtree.rs::optimize_call_loops", "src/nspc/mod.rs::Song::from_midi"]}
{"id": "C76", "title": "A release build never crashes while building a ROM", "statement": "In a release build, every ROM-building command given a ROM that can hold the banks and MIDI files (missing, cut short or with any times and events) or valid JSON songs either succeeds or reports that the songs do not fit, that a song needs too many voices, that a MIDI file cannot be read, or an I/O error. It does not abort, whatever the sizes of the songs, as long as no single track is longer than the overflow block.", "quantifier": "all command lines, file systems, ROM images, manifests, MIDI files, hash orders and flags; for one bank also both builds and any source of songs", "why_tests_cant": "the index arithmetic of the writer, the patches of loop calls and the sizes of songs are unbounded and interact; a crash needs one particular combination.", "anchors": ["src/rom/mod.rs::Rom::write", "src/rom/mod.rs::Rom::write_bank", "src/lib.rs::run", "src/lib.rs::build_rom", "src/lib.rs::converter", "src/nspc/mod.rs::Song::write_to_rom", "src/nspc/mod.rs::Song::write_track", "src/manifest/mod.rs::Manifest::new"]}
{"id": "C77", "title": "The default addresses suit the game, and the sample dummy stands in for it", "statement": "With the default bank addresses, every one-megabyte image with the game's nine pointer bytes and nine block headers (three banks with a song block, an overflow block and an end mark) is one the tool can build into: gen-fake-rom turns it into exactly the shipped sample/dummy.smc, written to a new file, whatever else it contains; a build keeps it such an image, changes only the payloads of the six song blocks and makes each slot lead to its song; a release build does not crash on it; and a build that succeeds on the sample dummy succeeds on the game's ROM with the same bytes written, and the other way round. All this for songs whose tracks are not longer than the overflow blocks; what is said about the image that a build leaves also needs that no track with loop calls has to be moved to an overflow block.", "quantifier": "all contents of the image outside pointers and headers, all command lines without an address option, manifests, MIDI and JSON files, build modes, hash orders and flags", "why_tests_cant": "the real ROM cannot be shipped with tests; that no content of it matters must hold for all of its megabyte of unknown bytes.", "anchors": ["src/rom/mod.rs::DEFAULT_BANK_BASE_ADDRS", "src/rom/mod.rs::Rom::read", "src/rom/mod.rs::Rom::write", "src/rom/mod.rs::gen_fake_rom", "src/lib.rs::run", "sample/dummy.smc"]}
{"id": "C78", "title": "A build succeeds exactly when the songs fit", "statement": "If the ROM can hold the banks, every slot's file converts, JSON songs have valid indices and no track is longer than its bank's overflow block, a ROM-building command reports success exactly when in every bank the headers and tracks, placed one after the other in the song block and from the first that does not fit there in the overflow block, end before the overflow block does; otherwise it reports that the songs do not fit. In particular it succeeds when a bank's songs are together no larger than the song block's room, and when together with one more of the largest piece they are no larger than both blocks; it fails when they are larger than both blocks.", "quantifier": "all build modes, command lines, file systems, ROM images and block sizes, manifests, songs of any size and number of tracks, hash orders and flags", "why_tests_cant": "sizes of songs and blocks are unbounded; the boundary must be exact for every combination of sizes.", "anchors": ["src/rom/mod.rs::Rom::write", "src/rom/mod.rs::Rom::write_bank", "src/nspc/mod.rs::Song::write_to_rom", "src/nspc/mod.rs::Song::write_track", "src/lib.rs::run", "src/lib.rs::build_rom"]}
{"id": "C79", "title": "Music on a grid is played exactly", "statement": "If the notes of a MIDI file start, and its programs change, at whole multiples of some number of 1/24 beats that is a whole number of ticks, and its notes end there or less than 1/24 beat before, then the song made of it has no timing error at all: the driver starts every note at exactly its time in steps of 1/24 beat, and if the last message is at such a time too, every voice lasts exactly as long as the file.", "quantifier": "all files and voices of any length on such a grid (of less than about 349000 ticks), tick rates (whether or not a step is a whole number of ticks), hash orders, tempo factors, build modes, with or without loops", "why_tests_cant": "rounding errors of a step accumulate along a voice; that they cancel must be shown for every history of notes, waits and program changes.", "anchors": ["src/nspc/track.rs::Track::new", "src/lib.rs::song_from_midi", "src/nspc/mod.rs::Song::from_midi", "src/nspc/mod.rs::Song::write_track"]}
{"id": "C80", "title": "A ROM build never waits forever for its progress display", "statement": "Building a ROM shows one bar for the songs and one for each bank, drawn by a second thread that the command waits for at the end. Whenever the banks have been written, that wait ends, however the threads are scheduled and whatever is drawn; the display does not change the result; the bar for the songs never shows more songs than the manifest has and ends at that number; and the bar of a bank only moves forward and never exceeds its total.", "quantifier": "all manifests, ROM images, songs, flags, build modes and results of the final write; all interleavings of the two threads and all choices of what a bar draws", "why_tests_cant": "a deadlock needs one schedule or one path that leaves a bar unfinished; tests see a few schedules.", "anchors": ["src/rom/mod.rs::Rom::write", "src/rom/mod.rs::Rom::write_bank"]}
{"id": "C81", "title": "The verbose output of a ROM build is true", "statement": "With the verbose flag, a ROM build prints, bank by bank and in order, every song's address in the file and in the sound processor's memory with the address of its entry in the song table, every track's two addresses, the part table and every pointer it writes. In the finished file the table entry and the pointers hold what was printed, the two addresses belong together, and the bytes of the track are where was printed. The size printed for a song is the number of bytes it takes. Without the flag nothing is printed.", "quantifier": "all manifests, ROM images, layouts and songs that fit, build modes; the addresses of all songs and tracks at once, in the file as it is after all later songs and banks were written", "why_tests_cant": "each printed address is computed before later songs, pointers and banks are written; that none of them invalidates it must hold for every combination of sizes.", "anchors": ["src/rom/mod.rs::Rom::write", "src/rom/mod.rs::Rom::write_bank"]}
{"id": "C82", "title": "Only a channel that switches portamento on slides", "statement": "A MIDI file that never switches portamento on (controller 65 with 64 or more) is converted to a song without pitch slides, whatever its other controllers, notes and repeats are, and the driver executes no pitch slide when it plays it. In a file that does, the notes of the channel slide, and those of other channels do not.", "quantifier": "all files of any number of tracks, channels and messages, paths, hash orders, tempo factors, build modes, with or without loops", "why_tests_cant": "portamento is a state carried along each voice, and voices are shared by channels and changed by every note; that no history of messages switches it on must hold for all of them.", "anchors": ["src/nspc/track.rs::Track::new", "src/midi/mod.rs::MidiHandler", "src/midi/mod.rs::channels_to_voices", "src/lib.rs::song_from_midi"]}
{"id": "C83", "title": "The verbose output of the MIDI reader is true", "statement": "Asking for verbose output changes nothing in the result of reading a MIDI file, and without it nothing is printed. With it, the voice last said to be tried for each channel is the channel's own in the result; the notes started in any other voice are, one for one and in order, those said to have found their channel's voice occupied and to use that voice; each reported overlap names two channels that do sound together within the reported interval, the earlier of which was given the reported voice; the voices reported as possible for a channel are those that no earlier channel sounding at the same time was given, except that of the empty ones only the first is reported; and when the music does not fit, the last line is about the channel or the note for which no voice was left.", "quantifier": "all sequences of MIDI events of any number of tracks, channels and notes, hash orders and build modes; overlaps in files whose tracks are shorter than 2^32 ticks and, in a release build, whose channels never have more note-offs than note-ons", "why_tests_cant": "the search for voices backtracks, so what was printed of a channel can be taken back later, and voices depend on all notes before; that the last word is the truth must hold for every search.", "anchors": ["src/midi/mod.rs::MidiHandler::read", "src/midi/mod.rs::tracks_to_channels", "src/midi/mod.rs::find_base_voices", "src/midi/mod.rs::overlapping_interval", "src/midi/mod.rs::channels_to_voices"]}
{"id": "C84", "title": "A dumped MIDI file is shown as it is, also when it cannot be used", "statement": "The dump_midi command touches no file, and prints an error exactly when using the file in a build fails with that error. What it prints after it is true: the tracks are the file's as far as it could be read, with the file's ticks per beat; of a file that is cut short the channels and voices are empty; of a whole file each channel shows the file's messages for it in time order and the times at which it sounds, and the printed end is the time of the last channel message. The printed base voices fit the printed intervals and are those the verbose lines ended with; if none fit, they are 0 and the voices are empty; if instead a note found no voice, the printed voices show it: for some channel its base voice, and every voice that is no channel's, end in a note that is still on, and the voices hold exactly the notes before that one. Without an error the printed voices, ticks per beat and end are those a build converts.", "quantifier": "all sequences of MIDI events of any number of tracks, channels and notes, complete or cut short, hash orders and build modes; channels in files whose tracks are shorter than 2^32 ticks; the sounding times, in a release build, in channels that never have more note-offs than note-ons", "why_tests_cant": "the handler is printed in whatever state the failing step left it, and the failing step can come after any history of notes; that the state is meaningful must hold for every point of failure.", "anchors": ["src/lib.rs::run", "src/midi/mod.rs::MidiHandler", "src/midi/mod.rs::MidiHandler::read", "src/midi/mod.rs::find_base_voices", "src/midi/mod.rs::channels_to_voices"]}

(** PropHeard.v: properties C61 (tempo), C62 (instruments) and C64 (length), from the file to the driver. Specification:
    SpecHeard.v (what the driver is told), SpecControl.v (the settings of a file), SpecFile.v, SpecNotes.v (the
    file), SpecPlayback.v, SpecAram.v (the driver). *)
From Coq Require Import ZArith List Permutation String.
From Verif Require Import Base F32 Messages Command Track Song Paths Midi Cli SpecMidi SpecNotes SpecVoices SpecVoice SpecNspc SpecLoop SpecRom
  SpecAram SpecSong SpecTime SpecPlayback SpecFile SpecControl SpecHeard MidiExamples AramMore PropTrack SettingProofs FileSettings EndProofs SettingExamples.
Import ListNotations.
Open Scope Z_scope.
Open Scope list_scope.

(** C61: a renderable file is converted, with or without loops, and the song is in ARAM. Playing it, the driver
    is told exactly the tempo changes of the file, in order, each with the tempo the file asks for and not
    later than the tolerance after its time. Missing: it can be told earlier (C51_early_refuted); files that
    are not renderable and lengths above 127 steps (C52); with loops, songs whose loops change the
    music (C24 says when they do not). *)
Theorem C61_file_tempo_partial :
  forall (b : build) (w : world) (order : nat -> notes -> notes) (opt : bool) (p : path) (tf : f32) (s s0 : song)
    (cbs : list callback) (mem : Z -> option Z) (a : Z) (lp : bool) (at_ : list Z),
  midi_file w p = (cbs, true) -> Forall callback_typed cbs -> (forall k, permutes (order k)) ->
  renderable (beat_ticks cbs) (tracks_of cbs) ->
  song_from_midi_file b w order opt p tf = Ok s -> song_from_midi_file b w order false p tf = Ok s0 ->
  Forall seven_bit (tracks s0) -> (opt = true -> keeps_music (tracks s0) (tracks s)) ->
  song_in mem a lp s at_ -> mem 0 = None ->
  exists ess, song_plays mem a ess /\ forall l, file_tempos (tracks_of cbs) l ->
    Forall2 (fun x m => control_of tf (fst m) = Some (Tempo (snd x)) /\
        fst x * beat_ticks cbs - 24 * snd m < tolerance (beat_ticks cbs) (6 * file_size (tracks_of cbs)))
      (flat_map (told TEMPO) ess) l.
Proof. exact file_tempo. Qed.
Print Assumptions C61_file_tempo_partial.
(** A file with two tempi, at tick 0 and at tick 192 (8 beats of 24 ticks, 48 steps). *)
Example C61_case : forall b opt,
  let w := mk_world (fun _ => (band_file, true)) (fun _ => None) in
  Forall callback_typed band_file /\ renderable (beat_ticks band_file) (tracks_of band_file) /\
  song_from_midi_file b w id_order opt "song.mid"%string f32_0_3 = Ok band_song /\
  Forall seven_bit (tracks band_song) /\ keeps_music (tracks band_song) (tracks band_song) /\
  song_in band_mem 0xd000 false band_song band_at /\ band_mem 0 = None /\
  song_plays band_mem 0xd000 band_plays /\ flat_map (told TEMPO) band_plays = [(0, 36); (48, 30)].
Proof.
  intros b opt w. split; [exact band_typed|]. split; [exact band_renderable|]. split; [exact (band_converts b opt)|]. split; [exact band_short|].
  split; [exact band_varied|]. split; [exact band_in|]. split; [reflexivity|]. split; [exact band_heard|vm_compute; reflexivity].
Qed.

(** C62: of the same files and songs, every note the driver starts (one for each note of the file, C52) is
    started with the instrument of the program its channel has chosen by then, if the channel keeps its
    programs ([keeps_program]: others do not share its voices with programs of their own, and it changes
    programs only while it plays one note at a time), and with the instrument of the drum on the percussion
    channel ([keeps_drums]). Missing: other channels (refuted below) and what C61 leaves out. *)
Theorem C62_file_instruments_partial :
  forall (b : build) (w : world) (order : nat -> notes -> notes) (opt : bool) (p : path) (tf : f32) (s s0 : song)
    (cbs : list callback) (mem : Z -> option Z) (a : Z) (lp : bool) (at_ : list Z),
  midi_file w p = (cbs, true) -> Forall callback_typed cbs -> (forall k, permutes (order k)) ->
  renderable (beat_ticks cbs) (tracks_of cbs) ->
  song_from_midi_file b w order opt p tf = Ok s -> song_from_midi_file b w order false p tf = Ok s0 ->
  Forall seven_bit (tracks s0) -> (opt = true -> keeps_music (tracks s0) (tracks s)) ->
  song_in mem a lp s at_ -> mem 0 = None ->
  exists notes ns ess, file_notes (tracks_of cbs) notes /\ Permutation ns (filter ended (map drum notes)) /\ song_plays mem a ess /\
    Forall2 (fun x n =>
        heard_at (beat_ticks cbs) (tolerance (beat_ticks cbs) (6 * file_size (tracks_of cbs))) (so_on x, so_pitch x) (nt_on n) (nt_key n) /\
        (forall c l p, nt_ch n = Z.of_nat c -> keeps_program (tracks_of cbs) c -> stable_sort_of (file_order (tracks_of cbs) c) l ->
           program_at l (nt_on n) = Some (nt_ch n, p) -> so_set x = Some (instrument_of_program p)) /\
        (nt_ch n = 9 -> keeps_drums (tracks_of cbs) ->
           exists d k, In (MidiEvent d (NoteOn 9 k (nt_vel n)), nt_on n) (flat_map (timed 0) (tracks_of cbs)) /\
             drum_key 9 k = nt_key n /\ so_set x = Some (drum_instrument k)))
      (flat_map (sounds_with INSTRUMENT) ess) ns.
Proof. exact file_instruments. Qed.
Print Assumptions C62_file_instruments_partial.
(** The file of C61: channel 0 plays one note at a time and changes its program in the song, channel 1 plays
    a chord with a program chosen first, the percussion channel plays two snares and a cymbal. *)
Example C62_case :
  keeps_program (tracks_of band_file) 0 /\ ~ programs_first (sorted_of (tracks_of band_file) 0) /\
  keeps_program (tracks_of band_file) 1 /\ keeps_drums (tracks_of band_file) /\
  song_plays band_mem 0xd000 band_plays /\
  map (fun x => (so_on x, so_pitch x, so_set x)) (flat_map (sounds_with INSTRUMENT) band_plays) =
    [(0, driver_pitch 60, Some 9); (24, driver_pitch 62, Some (instrument_of_program 56)); (48, driver_pitch 64, Some (instrument_of_program 56));
     (0, driver_pitch 70, Some 22);
     (12, driver_pitch 68, Some 19); (24, driver_pitch 49, Some 12); (39, driver_pitch 68, Some 19);
     (0, driver_pitch 74, Some 22)].
Proof.
  split; [exact band_keeps0|]. split; [exact band_not_first|]. split; [exact band_keeps1|]. split; [exact band_keeps9|]. split; [exact band_heard|vm_compute; reflexivity].
Qed.

(** C62 is false of a channel that changes its program between two chords: the second note of the second
    chord is started with the instrument of the old program. *)
Theorem C62_chords_refuted :
  forall b : build, exists w s mem at_ ess x,
  midi_file w "song.mid"%string = (chord_file, true) /\ renderable (beat_ticks chord_file) (tracks_of chord_file) /\
  song_from_midi_file b w id_order false "song.mid"%string f32_0_3 = Ok s /\ Forall seven_bit (tracks s) /\
  song_in mem 0xd000 false s at_ /\ mem 0 = None /\ song_plays mem 0xd000 ess /\
  In x (flat_map (sounds_with INSTRUMENT) ess) /\ so_on x = 24 /\ so_pitch x = driver_pitch 65 /\
  (forall l, stable_sort_of (file_order (tracks_of chord_file) 0) l -> program_at l 96 = Some (0, 73)) /\
  so_set x = Some (instrument_of_program 40) /\ instrument_of_program 40 <> instrument_of_program 73.
Proof. exact chord_wrong. Qed.
Print Assumptions C62_chords_refuted.

(** C64: of the same files and songs, every voice that is not silent lasts as long as the file, up to the
    tolerance (less than one step if a step is a whole number of ticks); so they end together. Missing: what C61
    leaves out. *)
Theorem C64_song_length_partial :
  forall (b : build) (w : world) (order : nat -> notes -> notes) (opt : bool) (p : path) (tf : f32) (s s0 : song)
    (cbs : list callback) (mem : Z -> option Z) (a : Z) (lp : bool) (at_ : list Z),
  midi_file w p = (cbs, true) -> Forall callback_typed cbs -> (forall k, permutes (order k)) ->
  renderable (beat_ticks cbs) (tracks_of cbs) ->
  song_from_midi_file b w order opt p tf = Ok s -> song_from_midi_file b w order false p tf = Ok s0 ->
  Forall seven_bit (tracks s0) -> (opt = true -> keeps_music (tracks s0) (tracks s)) ->
  song_in mem a lp s at_ -> mem 0 = None ->
  exists ess end_, song_plays mem a ess /\ file_end (tracks_of cbs) end_ /\
    forall es, In es ess -> es <> [] ->
      Z.abs (played_steps es * beat_ticks cbs - 24 * end_) < tolerance (beat_ticks cbs) (S (6 * file_size (tracks_of cbs))).
Proof. exact file_ending. Qed.
Print Assumptions C64_song_length_partial.
(** The file of C61 ends at tick 240, 60 steps. *)
Example C64_case : file_end (tracks_of band_file) 240 /\ song_plays band_mem 0xd000 band_plays /\
  map (fun es => match es with [] => None | _ => Some (played_steps es) end) band_plays = [Some 60; Some 60; Some 60; Some 60; None; None; None; None].
Proof. split; [split; [vm_compute; repeat constructor; discriminate|left; vm_compute; auto 30]|]. split; [exact band_heard|vm_compute; reflexivity]. Qed.

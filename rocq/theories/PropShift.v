(** PropShift.v: properties C68 (the time base of a file makes no difference) and C69 (a transposed file gives the
    transposed song). Specification: SpecShift.v, SpecSame.v ([music], [accepted]). *)
From Coq Require Import ZArith List String.
From Verif Require Import Base F32 Messages Command Track Song Paths Midi Cli SpecMidi SpecNotes SpecVoices SpecVoice SpecFile SpecHeard SpecSame SpecShift
  MidiExamples SameProofs SameExamples ShiftProofs ShiftFile ShiftExamples.
Import ListNotations.
Open Scope Z_scope.
Open Scope list_scope.

(** C68, for time bases divisible by 24, files shorter than 2^23 ticks and no portamento. The same music written with
    [k] times the ticks per beat gives the same song, or the same failure: with or without loops, for every tempo
    factor, in a debug build. A song a debug build gives, a release build gives too. *)
Theorem C68_time_base_partial :
  forall (w1 w2 : world) (order1 order2 : nat -> notes -> notes) (opt : bool) (p1 p2 : path) (tf : f32) (cbs1 cbs2 : list callback) (k : Z),
  midi_file w1 p1 = (cbs1, true) -> midi_file w2 p2 = (cbs2, true) -> accepted cbs1 -> accepted cbs2 ->
  (forall i, permutes (order1 i)) -> (forall i, permutes (order2 i)) ->
  1 <= k -> rescored 0 k cbs1 cbs2 -> (24 | beat_ticks cbs1) -> 0 < beat_ticks cbs1 -> beat_ticks cbs2 < 2 ^ 16 ->
  no_portamento cbs1 -> (forall x, In x (flat_map (timed 0) (tracks_of cbs2)) -> snd x < 2 ^ 23) ->
  song_from_midi_file Debug w1 order1 opt p1 tf = song_from_midi_file Debug w2 order2 opt p2 tf /\
  forall (b1 b2 : build) (s : song), song_from_midi_file Debug w1 order1 opt p1 tf = Ok s ->
    song_from_midi_file b1 w1 order1 opt p1 tf = Ok s /\ song_from_midi_file b2 w2 order2 opt p2 tf = Ok s.
Proof. exact finer_song_both. Qed.
Print Assumptions C68_time_base_partial.
(** A file with a tempo, a melody and a drum, and the same with five times the ticks. *)
Example C68_time_base_case :
  accepted plain_file /\ accepted fine_file /\ rescored 0 5 plain_file fine_file /\
  ((24 | beat_ticks plain_file) /\ 0 < beat_ticks plain_file /\ beat_ticks fine_file < 2 ^ 16 /\ no_portamento plain_file /\
   (forall x, In x (flat_map (timed 0) (tracks_of fine_file)) -> snd x < 2 ^ 23)) /\
  exists s, song_from_midi_file Debug (same_world plain_file) id_order true "song.mid"%string f32_0_3 = Ok s /\ (2 <= length (tracks s))%nat.
Proof. exact (conj plain_accepted (conj fine_accepted (conj fine_rescored (conj fine_side (plain_song_size Debug))))). Qed.

(** The condition on 24 is needed: with 20 ticks in a beat, the end of a note is rounded to a whole number of ticks. *)
Theorem C68_divisor_refuted :
  forall b : build, accepted twenty_file /\ accepted six_score_file /\ rescored 0 6 twenty_file six_score_file /\ no_portamento twenty_file /\
  song_from_midi_file b (same_world twenty_file) id_order false "song.mid"%string f32_0_3 <>
  song_from_midi_file b (same_world six_score_file) id_order false "song.mid"%string f32_0_3.
Proof. exact twenty_six. Qed.
Print Assumptions C68_divisor_refuted.
(** The condition on portamento is needed: the controller's value is taken as a number of the file's ticks. *)
Theorem C68_portamento_refuted :
  forall b : build, accepted slide_file /\ accepted fine_slide_file /\ rescored 0 2 slide_file fine_slide_file /\ (24 | beat_ticks slide_file) /\
  song_from_midi_file b (same_world slide_file) id_order false "song.mid"%string f32_0_3 <>
  song_from_midi_file b (same_world fine_slide_file) id_order false "song.mid"%string f32_0_3.
Proof. exact slide_differs. Qed.
Print Assumptions C68_portamento_refuted.

(** C69: the file with every key [d] semitones higher (or lower) gives the song with every note and every slide
    target [d] higher and nothing else changed, or fails in the same way. With or without loops, for every tempo
    factor, in debug and release builds. *)
Theorem C69_transposed :
  forall (b : build) (w1 w2 : world) (order1 order2 : nat -> notes -> notes) (opt : bool) (p1 p2 : path) (tf : f32) (cbs1 cbs2 : list callback) (d : Z),
  midi_file w1 p1 = (cbs1, true) -> midi_file w2 p2 = (cbs2, true) -> accepted cbs1 -> accepted cbs2 ->
  (forall i, permutes (order1 i)) -> (forall i, permutes (order2 i)) ->
  rescored d 1 cbs1 cbs2 -> no_drums cbs1 -> keys_valid cbs1 -> keys_valid cbs2 ->
  match song_from_midi_file b w1 order1 opt p1 tf with
  | Ok s1 => exists s2, song_from_midi_file b w2 order2 opt p2 tf = Ok s2 /\ parts s2 = parts s1 /\ tracks s2 = map (map (higher d)) (tracks s1)
  | Err e => song_from_midi_file b w2 order2 opt p2 tf = Err e
  | Panic r => song_from_midi_file b w2 order2 opt p2 tf = Panic r
  | Diverge => song_from_midi_file b w2 order2 opt p2 tf = Diverge
  end.
Proof. exact transposed_cases. Qed.
Print Assumptions C69_transposed.
(** A repeated figure that becomes a loop and a voice with a pitch slide, a fifth higher. *)
Example C69_transposed_case :
  accepted tune_file /\ accepted fifth_file /\ rescored 7 1 tune_file fifth_file /\ (no_drums tune_file /\ keys_valid tune_file /\ keys_valid fifth_file) /\
  forall b, exists s, song_from_midi_file b (same_world tune_file) id_order true "song.mid"%string f32_0_3 = Ok s /\ (0 < slides s)%nat /\ (0 < calls s)%nat.
Proof. exact (conj tune_accepted (conj fifth_accepted (conj fifth_rescored (conj fifth_side tune_song)))). Qed.

(** The keys of the percussion channel choose an instrument, not a pitch. *)
Theorem C69_drums_refuted :
  forall b : build, exists s1 s2, accepted drum_file /\ accepted high_drum_file /\ rescored 2 1 drum_file high_drum_file /\ keys_valid drum_file /\ keys_valid high_drum_file /\
  song_from_midi_file b (same_world drum_file) id_order false "song.mid"%string f32_0_3 = Ok s1 /\
  song_from_midi_file b (same_world high_drum_file) id_order false "song.mid"%string f32_0_3 = Ok s2 /\
  tracks s2 <> map (map (higher 2)) (tracks s1).
Proof. exact drum_stays. Qed.
Print Assumptions C69_drums_refuted.

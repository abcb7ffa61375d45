(** PropSame.v: property C66 (what of a MIDI file the song depends on). Specification: SpecSame.v (the music of a
    file), SpecMidi.v (the order of a channel's events), SpecHeard.v ([file_end]). *)
From Coq Require Import ZArith List Permutation String.
From Verif Require Import Base F32 Messages Command Track Song Paths Midi Cli SpecMidi SpecNotes SpecVoices SpecVoice SpecFile SpecHeard SpecSame
  MidiExamples SameProofs SameExamples.
Import ListNotations.
Open Scope Z_scope.
Open Scope list_scope.

(** C66: two accepted files with the same music give the same song, or fail in the same way: the same time base,
    the same end, and on every channel, sorted by time, the same tempi, notes, programs and portamento and volume
    controllers. With or without loops, for every tempo factor, in debug and release builds. *)
Theorem C66_same_music :
  forall (b : build) (w1 w2 : world) (order1 order2 : nat -> notes -> notes) (opt : bool) (p1 p2 : path) (tf : f32) (cbs1 cbs2 : list callback),
  midi_file w1 p1 = (cbs1, true) -> midi_file w2 p2 = (cbs2, true) -> accepted cbs1 -> accepted cbs2 ->
  (forall k, permutes (order1 k)) -> (forall k, permutes (order2 k)) -> same_music cbs1 cbs2 ->
  song_from_midi_file b w1 order1 opt p1 tf = song_from_midi_file b w2 order2 opt p2 tf.
Proof. exact song_same. Qed.
Print Assumptions C66_same_music.

(** Adding and removing events that do not matter ([matters]) in any of the tracks changes nothing, provided the last
    channel event of the file stays at the same tick. *)
Theorem C66_ignored_events :
  forall (b : build) (w1 w2 : world) (order1 order2 : nat -> notes -> notes) (opt : bool) (p1 p2 : path) (tf : f32) (cbs1 cbs2 : list callback),
  midi_file w1 p1 = (cbs1, true) -> midi_file w2 p2 = (cbs2, true) -> accepted cbs1 -> accepted cbs2 ->
  (forall k, permutes (order1 k)) -> (forall k, permutes (order2 k)) ->
  beat_ticks cbs1 = beat_ticks cbs2 -> (forall t, file_end (tracks_of cbs1) t <-> file_end (tracks_of cbs2) t) ->
  Forall2 (fun t1 t2 => music (timed 0 t1) = music (timed 0 t2)) (tracks_of cbs1) (tracks_of cbs2) ->
  song_from_midi_file b w1 order1 opt p1 tf = song_from_midi_file b w2 order2 opt p2 tf.
Proof. exact ignored_same. Qed.
Print Assumptions C66_ignored_events.
(** A title, an end of track, a system exclusive message, a pan controller, a pitch bend, pressures and a lyric. *)
Example C66_ignored_case :
  accepted plain_file /\ accepted dressed_file /\ beat_ticks plain_file = beat_ticks dressed_file /\
  (forall t, file_end (tracks_of plain_file) t <-> file_end (tracks_of dressed_file) t) /\
  Forall2 (fun t1 t2 => music (timed 0 t1) = music (timed 0 t2)) (tracks_of plain_file) (tracks_of dressed_file) /\
  length (concat (tracks_of dressed_file)) = (length (concat (tracks_of plain_file)) + 8)%nat /\
  forall b, exists s, song_from_midi_file b (same_world plain_file) id_order true "song.mid"%string f32_0_3 = Ok s /\ (2 <= length (tracks s))%nat.
Proof.
  split; [exact plain_accepted|]. split; [exact dressed_accepted|]. split; [reflexivity|]. split; [exact dressed_ends|].
  split; [exact dressed_music|]. split; [vm_compute; reflexivity|exact plain_song_size].
Qed.

(** The order of the tracks in the file makes no difference, if no two tracks have events that matter for one channel
    at the same tick. *)
Theorem C66_track_order :
  forall (b : build) (w1 w2 : world) (order1 order2 : nat -> notes -> notes) (opt : bool) (p1 p2 : path) (tf : f32) (cbs1 cbs2 : list callback),
  midi_file w1 p1 = (cbs1, true) -> midi_file w2 p2 = (cbs2, true) -> accepted cbs1 -> accepted cbs2 ->
  (forall k, permutes (order1 k)) -> (forall k, permutes (order2 k)) ->
  beat_ticks cbs1 = beat_ticks cbs2 -> Permutation (tracks_of cbs1) (tracks_of cbs2) -> ForallOrdPairs tracks_apart (tracks_of cbs1) ->
  song_from_midi_file b w1 order1 opt p1 tf = song_from_midi_file b w2 order2 opt p2 tf.
Proof. exact order_same. Qed.
Print Assumptions C66_track_order.
(** Three tracks, the first and the last exchanged. *)
Example C66_order_case :
  accepted tempo_later_file /\ accepted swapped_file /\ beat_ticks tempo_later_file = beat_ticks swapped_file /\
  Permutation (tracks_of tempo_later_file) (tracks_of swapped_file) /\ tracks_of tempo_later_file <> tracks_of swapped_file /\
  ForallOrdPairs tracks_apart (tracks_of tempo_later_file).
Proof.
  split; [exact tempo_later_accepted|]. split; [exact swapped_accepted|]. split; [reflexivity|]. split; [exact swapped_permutes|].
  split; [vm_compute; intros H; discriminate H|exact swapped_apart].
Qed.

(** The two provisos are needed. An ignored event after the last note (here a pitch bend) lengthens the song. *)
Theorem C66_end_refuted :
  forall b : build, accepted long_file /\ accepted stopped_file /\ beat_ticks long_file = beat_ticks stopped_file /\
  Forall2 (fun t1 t2 => music (timed 0 t1) = music (timed 0 t2)) (tracks_of long_file) (tracks_of stopped_file) /\
  song_from_midi_file b (same_world long_file) id_order false "song.mid"%string f32_0_3 <>
  song_from_midi_file b (same_world stopped_file) id_order false "song.mid"%string f32_0_3.
Proof. exact late_bend. Qed.
Print Assumptions C66_end_refuted.
(** Two tracks that set the volume of one channel at one tick: the later track in the file wins. *)
Theorem C66_order_refuted :
  forall b : build, accepted loud_then_soft /\ accepted soft_then_loud /\ beat_ticks loud_then_soft = beat_ticks soft_then_loud /\
  Permutation (tracks_of loud_then_soft) (tracks_of soft_then_loud) /\
  song_from_midi_file b (same_world loud_then_soft) id_order false "song.mid"%string f32_0_3 <>
  song_from_midi_file b (same_world soft_then_loud) id_order false "song.mid"%string f32_0_3.
Proof. exact order_matters. Qed.
Print Assumptions C66_order_refuted.

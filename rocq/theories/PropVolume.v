(** PropVolume.v: property C65 (volumes, from the file to the driver). Specification: SpecVolume.v (the volumes of
    a file), SpecHeard.v (what the driver is told), SpecControl.v, SpecFile.v, SpecNotes.v (the file),
    SpecPlayback.v, SpecAram.v (the driver). *)
From Coq Require Import ZArith List Permutation String.
From Verif Require Import Base F32 Messages Command Track Song Paths Midi Cli SpecMidi SpecNotes SpecVoices SpecVoice SpecNspc SpecLoop SpecRom
  SpecAram SpecSong SpecTime SpecPlayback SpecFile SpecControl SpecHeard SpecVolume MidiExamples AramMore PropTrack SettingExamples VolumeProofs VolumeExamples.
Import ListNotations.
Open Scope Z_scope.
Open Scope list_scope.

(** C65: a renderable file is converted, with or without loops, and the song is in ARAM. Every note the driver
    starts (one for each note of the file, C52) of a channel that keeps its volume is started with twice the
    volume its channel has set last, 0xc8 if it has set none. Missing: channels that do not keep their volume
    ([keeps_volume]), among them channels that change it during a note (C65_during_note_refuted); files that are not
    renderable and lengths above 127 steps (C52); with loops, songs whose loops change the music
    (C24 says when they do not). *)
Theorem C65_file_volumes_partial :
  forall (b : build) (w : world) (order : nat -> notes -> notes) (opt : bool) (p : path) (tf : f32) (s s0 : song)
    (cbs : list callback) (mem : Z -> option Z) (a : Z) (lp : bool) (at_ : list Z),
  midi_file w p = (cbs, true) -> Forall callback_typed cbs -> (forall k, permutes (order k)) ->
  renderable (beat_ticks cbs) (tracks_of cbs) ->
  song_from_midi_file b w order opt p tf = Ok s -> song_from_midi_file b w order false p tf = Ok s0 ->
  Forall seven_bit (tracks s0) -> (opt = true -> keeps_music (tracks s0) (tracks s)) ->
  song_in mem a lp s at_ -> mem 0 = None ->
  exists notes ns ess, file_notes (tracks_of cbs) notes /\ Permutation ns (filter ended (map drum notes)) /\ song_plays mem a ess /\
    Forall2 (fun x n =>
        heard_at (beat_ticks cbs) (tolerance (beat_ticks cbs) (6 * file_size (tracks_of cbs))) (so_on x, so_pitch x) (nt_on n) (nt_key n) /\
        (forall c l, nt_ch n = Z.of_nat c -> keeps_volume (tracks_of cbs) c -> stable_sort_of (file_order (tracks_of cbs) c) l ->
           so_set x = Some (channel_volume (volume_at l (nt_on n)))))
      (flat_map (sounds_with VOLUME) ess) ns.
Proof. exact file_volumes. Qed.
Print Assumptions C65_file_volumes_partial.
(** Channel 0 plays two notes and changes its volume in between, channel 1 plays a chord, the percussion channel
    sets no volume. *)
Example C65_case :
  (forall b opt, song_from_midi_file b loud_world id_order opt "song.mid"%string f32_0_3 = Ok loud_song) /\
  Forall callback_typed loud_file /\ renderable (beat_ticks loud_file) (tracks_of loud_file) /\
  Forall seven_bit (tracks loud_song) /\ keeps_music (tracks loud_song) (tracks loud_song) /\ song_in loud_mem 0xd000 false loud_song loud_at /\
  keeps_volume (tracks_of loud_file) 0 /\ ~ volume_first (sorted_of (tracks_of loud_file) 0) /\
  keeps_volume (tracks_of loud_file) 1 /\ keeps_volume (tracks_of loud_file) 9 /\
  song_plays loud_mem 0xd000 loud_plays /\
  map (fun x => (so_on x, so_pitch x, so_set x)) (flat_map (sounds_with VOLUME) loud_plays) =
    [(0, driver_pitch 60, Some 200); (24, driver_pitch 62, Some 100);
     (0, driver_pitch 70, Some 180); (12, driver_pitch 68, Some 0xc8); (0, driver_pitch 74, Some 180)].
Proof.
  split; [exact loud_converts|]. split; [exact loud_typed|]. split; [exact loud_renderable|]. split; [exact loud_short|].
  split; [exact loud_varied|]. split; [exact loud_in|]. split; [exact loud_keeps0|]. split; [exact loud_first|].
  split; [exact loud_keeps1|]. split; [exact loud_keeps9|]. split; [exact loud_heard|vm_compute; reflexivity].
Qed.

(** C65 is false of a channel that changes its volume while a note sounds: the note is started with the later
    volume. The file sets volume 100, strikes a key and sets volume 10 half a beat later. *)
Theorem C65_during_note_refuted :
  forall b : build, exists w s mem at_ ess x,
  midi_file w "song.mid"%string = (fade_file, true) /\ renderable (beat_ticks fade_file) (tracks_of fade_file) /\
  song_from_midi_file b w id_order false "song.mid"%string f32_0_3 = Ok s /\ Forall seven_bit (tracks s) /\
  song_in mem 0xd000 false s at_ /\ mem 0 = None /\ song_plays mem 0xd000 ess /\
  flat_map (sounds_with VOLUME) ess = [x] /\ so_on x = 0 /\ so_pitch x = driver_pitch 60 /\
  (forall l, stable_sort_of (file_order (tracks_of fade_file) 0) l -> volume_at l 0 = Some 100) /\
  so_set x = Some (2 * 10).
Proof. exact fade_wrong. Qed.
Print Assumptions C65_during_note_refuted.

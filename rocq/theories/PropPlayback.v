(** PropPlayback.v: property C52 (from a MIDI file to the notes the driver starts). Specification:
    SpecFile.v (files), SpecMidi.v, SpecNotes.v, SpecVoices.v (their notes), SpecPlayback.v (what is heard),
    SpecRom.v (a song in ARAM), SpecAram.v (the driver). *)
From Coq Require Import ZArith List Permutation String.
From Verif Require Import Base F32 Messages Command Track Song Paths Midi Cli SpecMidi SpecNotes SpecVoices SpecVoice SpecNspc SpecLoop SpecRom
  SpecAram SpecSong SpecTime SpecPlayback SpecFile MidiExamples AramMore PlaybackProofs FilePlay FileExamples RenderExamples.
Import ListNotations.
Open Scope Z_scope.
Open Scope list_scope.

(** C52: a renderable MIDI file is converted, with or without loops, and the song is in ARAM. Playing it,
    the driver starts exactly one note for every note of the file that is switched off, at its pitch and
    time. Missing: files that are not renderable (refuted below for snares), lengths above 127 steps,
    and, with loops, songs whose loops change the music (C24 says when they do not). *)
Theorem C52_file_heard_partial :
  forall (b : build) (w : world) (order : nat -> notes -> notes) (opt : bool) (p : path) (tf : f32) (s s0 : song)
    (cbs : list callback) (mem : Z -> option Z) (a : Z) (lp : bool) (at_ : list Z),
  midi_file w p = (cbs, true) -> Forall callback_typed cbs -> (forall k, permutes (order k)) ->
  renderable (beat_ticks cbs) (tracks_of cbs) ->
  song_from_midi_file b w order opt p tf = Ok s -> song_from_midi_file b w order false p tf = Ok s0 ->
  Forall seven_bit (tracks s0) -> (opt = true -> keeps_music (tracks s0) (tracks s)) ->
  song_in mem a lp s at_ -> mem 0 = None ->
  exists notes ns ess, file_notes (tracks_of cbs) notes /\ Permutation ns (filter ended (map drum notes)) /\ song_plays mem a ess /\
    Forall2 (fun x n => heard_at (beat_ticks cbs) (tolerance (beat_ticks cbs) (6 * file_size (tracks_of cbs))) x (nt_on n) (nt_key n))
      (flat_map attacks ess) ns.
Proof. exact file_plays. Qed.
Print Assumptions C52_file_heard_partial.
Example C52_case : forall b opt,
  let w := mk_world (fun _ => (good_file, true)) (fun _ => None) in
  let s := mk_song [[0; 1; 2]%nat] good_tracks in
  Forall callback_typed good_file /\ renderable (beat_ticks good_file) (tracks_of good_file) /\
  song_from_midi_file b w id_order opt "song.mid"%string f32_0_3 = Ok s /\
  Forall seven_bit (tracks s) /\ keeps_music (tracks s) (tracks s) /\
  song_in good_mem 0xd000 false s good_at /\ good_mem 0 = None.
Proof.
  intros b opt w s. split; [exact good_typed|]. split; [exact good_renderable|]. split; [exact (good_converts b opt)|].
  split; [exact good_short|]. split; [exact good_varied|]. split; [exact good_in|reflexivity].
Qed.
(** With optimisation the song may have real loop calls: here one sequence played three times and once. *)
Example C52_case_loops : forall b,
  Forall callback_typed riff_file /\ renderable (beat_ticks riff_file) (tracks_of riff_file) /\
  song_from_midi_file b riff_world id_order true "song.mid"%string f32_0_3 = Ok riff_song /\
  song_from_midi_file b riff_world id_order false "song.mid"%string f32_0_3 = Ok riff_flat /\
  Forall seven_bit (tracks riff_flat) /\ keeps_music (tracks riff_flat) (tracks riff_song) /\
  song_in riff_mem 0xd000 false riff_song riff_at /\ riff_mem 0 = None /\
  call_loops_of (nth 0 (tracks riff_song) []) = [(1%nat, 3); (1%nat, 1)].
Proof.
  intros b. split; [exact riff_typed|]. split; [exact riff_renderable|]. split; [exact (riff_converts b true)|]. split; [exact (riff_converts b false)|].
  split; [exact riff_short|]. split; [exact riff_fresh|]. split; [exact riff_in|]. split; reflexivity.
Qed.
(** A program may also be changed during the song, while another channel holds a note. *)
Example C52_case_busy : renderable (beat_ticks busy_file) (tracks_of busy_file).
Proof. exact busy_renderable. Qed.
(** Notes may be shorter than a step: drum hits of 10 ticks at 20 ticks per step. *)
Example C52_case_brisk : Forall callback_typed brisk_file /\ renderable (beat_ticks brisk_file) (tracks_of brisk_file) /\
  exists s, song_from_midi_file Debug (mk_world (fun _ => (brisk_file, true)) (fun _ => None)) id_order false "song.mid"%string f32_0_3 = Ok s /\
    map heads (tracks s) <> [].
Proof.
  split; [repeat constructor; vm_compute; intuition discriminate|]. split; [exact brisk_renderable|].
  eexists. split; [vm_compute; reflexivity|]. vm_compute. discriminate.
Qed.

(** C52, for voices in place of a file. *)
Theorem C52_voices_heard_partial :
  forall (b : build) (voices : list (list tmsg)) (tpb max_time : Z) (n : nat) (tf : f32) (opt : bool) (s : song) (trs : list track)
    (mem : Z -> option Z) (a : Z) (lp : bool) (at_ : list Z),
  song_from_midi b voices tpb max_time tf opt = Ok s -> (length voices <= 8)%nat -> 1 <= tpb <= 65535 ->
  voices_ok tpb max_time n voices -> voice_tracks b voices tpb max_time tf trs -> Forall seven_bit trs ->
  (opt = true -> keeps_music trs (tracks s)) -> song_in mem a lp s at_ -> mem 0 = None ->
  exists ess, song_plays mem a ess /\
    Forall2 (fun x v => heard_at tpb (tolerance tpb n) x (n_on v) (n_key v)) (flat_map attacks ess) (flat_map notes_of voices).
Proof. exact song_sounds. Qed.
Print Assumptions C52_voices_heard_partial.

(** What is heard, and which notes a file has, are determined. *)
Theorem C52_sound_is_unique :
  forall (mem : Z -> option Z) (a : Z) (e1 e2 : list (list event)), song_plays mem a e1 -> song_plays mem a e2 -> e1 = e2.
Proof. exact song_plays_det. Qed.
Print Assumptions C52_sound_is_unique.
Theorem C52_notes_are_unique :
  forall (ts : list (list message)) (n1 n2 : list note), file_notes ts n1 -> file_notes ts n2 -> n1 = n2.
Proof. intros ts n1 n2 H1 H2. exact (file_notes_det ts n1 n2 H1 H2). Qed.
Print Assumptions C52_notes_are_unique.

(** C52 is false of snares ended by a note-on of velocity 0: they sound 30 keys too low (at their own key
    instead of the snare's). *)
Theorem C52_snare_refuted :
  forall b : build, exists w s mem at_ ess n,
  midi_file w "song.mid"%string = (snare_file, true) /\ song_from_midi_file b w id_order false "song.mid"%string f32_0_3 = Ok s /\
  song_in mem 0xd000 false s at_ /\ mem 0 = None /\ song_plays mem 0xd000 ess /\
  (forall notes, file_notes (tracks_of snare_file) notes -> notes = [n]) /\ ended n = true /\
  flat_map attacks ess = [(0, driver_pitch (nt_key n))] /\ nt_key (drum n) <> nt_key n.
Proof. exact snare_wrong. Qed.
Print Assumptions C52_snare_refuted.

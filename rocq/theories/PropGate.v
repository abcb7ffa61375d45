(** PropGate.v: property C60 (how long and how loud notes sound). Specification: SpecGate.v (lengths and
    velocities), SpecVoice.v (the notes of a voice), SpecFile.v, SpecNotes.v (the notes of a file),
    SpecPlayback.v, SpecAram.v (the driver). *)
From Coq Require Import ZArith List Permutation String.
From Verif Require Import Base F32 Messages Command Track Song Paths Midi Cli SpecMidi SpecNotes SpecVoices SpecVoice SpecNspc SpecLoop SpecRom
  SpecAram SpecSong SpecTime SpecPlayback SpecFile SpecGate MidiExamples AramMore PropTrack GateProofs HeardProofs FileExamples FileHeard.
From Verif Require TrackProofs.
Import ListNotations.
Open Scope Z_scope.
Open Scope list_scope.

(** C60, in the converted track: the commands that carry velocities are, in order, the notes of the voice.
    Each starts and stops sounding less than the tolerance from the note's times and carries the upper four bits of its
    seven-bit velocity. Missing: voices with a program change inside a note, or with a short note that
    ends in the same step as the note before (voice_ok, SpecVoice.v). *)
Theorem C60_note_lengths_partial :
  forall (b : build) (tpb : Z) (tf : f32) (events : list tmsg) (max_time : Z) (tr : track),
  1 <= tpb <= 65535 -> voice_ok tpb max_time events -> track_new b events tpb max_time tf = Ok tr ->
  Forall2 (lasts tpb (tolerance tpb (length events))) (slots tr) (notes_of events).
Proof. exact conversion_lasts. Qed.
Print Assumptions C60_note_lengths_partial.
(** Six notes, with sustain 7, 6, 3, 7, 7 with a short rest behind, and 7 prolonged by ties. *)
Definition gate_voice : list tmsg :=
  [(MidiEvent 0 (NoteOn 0 60 100), 0); (MidiEvent 0 (NoteOff 0 60 0), 48); (MidiEvent 0 (NoteOn 0 62 80), 48); (MidiEvent 0 (NoteOff 0 62 0), 66);
   (MidiEvent 0 (NoteOn 0 64 70), 72); (MidiEvent 0 (NoteOff 0 64 0), 75); (MidiEvent 0 (NoteOn 0 65 60), 80); (MidiEvent 0 (NoteOff 0 65 0), 114);
   (MidiEvent 0 (NoteOn 0 67 127), 120); (MidiEvent 0 (NoteOff 0 67 0), 169); (MidiEvent 0 (NoteOn 0 69 127), 172); (MidiEvent 0 (NoteOff 0 69 0), 800)].
Example C60_lengths_case : voice_ok 24 1000 gate_voice /\ exists tr, track_new Debug gate_voice 24 1000 f32_0_3 = Ok tr /\
  map (fun s => (s_onset s, s_steps s, s_vel s, s_sustain s, s_ties s)) (slots tr) =
    [(0, 48, 12, Some 7, 0); (48, 24, 10, Some 6, 0); (72, 8, 8, Some 3, 0);
     (80, 34, 7, Some 7, 0); (120, 52, 15, Some 7, 0); (172, 127, 15, Some 7, 501)].
Proof.
  split.
  - unfold gate_voice. TrackProofs.voice_case.
  - eexists. split; [vm_compute; reflexivity|]. vm_compute. reflexivity.
Qed.

(** C60, from the file to the driver: a renderable file whose notes have velocities from 8 is converted, with
    or without loops, and the song is in ARAM. Playing it, the driver starts exactly one note for every note
    of the file that is switched off, at its pitch, time, velocity and length. Missing: softer notes (refuted
    below), files that are not renderable and lengths above 127 steps (C52); with loops, songs whose
    loops change the music (C24 says when they do not) and loop bodies that end on another velocity
    (C28). *)
Theorem C60_file_heard_partial :
  forall (b : build) (w : world) (order : nat -> notes -> notes) (opt : bool) (p : path) (tf : f32) (s s0 : song)
    (cbs : list callback) (mem : Z -> option Z) (a : Z) (lp : bool) (at_ : list Z),
  midi_file w p = (cbs, true) -> Forall callback_typed cbs -> (forall k, permutes (order k)) ->
  renderable (beat_ticks cbs) (tracks_of cbs) ->
  (forall notes n, file_notes (tracks_of cbs) notes -> In n notes -> 8 <= nt_vel n) ->
  song_from_midi_file b w order opt p tf = Ok s -> song_from_midi_file b w order false p tf = Ok s0 ->
  Forall seven_bit (tracks s0) ->
  (opt = true -> keeps_music (tracks s0) (tracks s) /\ Forall (velocity_safe (tracks s)) (tracks s)) ->
  song_in mem a lp s at_ -> mem 0 = None ->
  exists notes ns ess, file_notes (tracks_of cbs) notes /\ Permutation ns (filter ended (map drum notes)) /\ song_plays mem a ess /\
    Forall2 (fun x n => exists off, nt_off n = Some off /\
        heard_fully (beat_ticks cbs) (tolerance (beat_ticks cbs) (6 * file_size (tracks_of cbs))) x (nt_on n) off (nt_key n) (nt_vel n))
      (flat_map strikes ess) ns.
Proof. exact file_fully. Qed.
Print Assumptions C60_file_heard_partial.
Example C60_case : forall b opt,
  let w := mk_world (fun _ => (good_file, true)) (fun _ => None) in
  let s := mk_song [[0; 1; 2]%nat] good_tracks in
  Forall callback_typed good_file /\ renderable (beat_ticks good_file) (tracks_of good_file) /\
  (forall notes n, file_notes (tracks_of good_file) notes -> In n notes -> 8 <= nt_vel n) /\
  song_from_midi_file b w id_order opt "song.mid"%string f32_0_3 = Ok s /\
  Forall seven_bit (tracks s) /\ keeps_music (tracks s) (tracks s) /\ Forall (velocity_safe (tracks s)) (tracks s) /\
  song_in good_mem 0xd000 false s good_at /\ good_mem 0 = None.
Proof.
  intros b opt w s. split; [exact good_typed|]. split; [exact good_renderable|]. split; [exact good_loud|]. split; [exact (good_converts b opt)|].
  split; [exact good_short|]. split; [exact good_varied|]. split; [exact good_safe|]. split; [exact good_in|reflexivity].
Qed.

(** C60, for voices in place of a file. *)
Theorem C60_voices_heard_partial :
  forall (b : build) (voices : list (list tmsg)) (tpb max_time : Z) (n : nat) (tf : f32) (opt : bool) (s : song) (trs : list track)
    (mem : Z -> option Z) (a : Z) (lp : bool) (at_ : list Z),
  song_from_midi b voices tpb max_time tf opt = Ok s -> (length voices <= 8)%nat -> 1 <= tpb <= 65535 ->
  voices_ok tpb max_time n voices -> voice_tracks b voices tpb max_time tf trs -> Forall seven_bit trs ->
  (forall v x, In v voices -> In x (notes_of v) -> 8 <= n_vel x) ->
  (opt = true -> keeps_music trs (tracks s) /\ Forall (velocity_safe (tracks s)) (tracks s)) ->
  song_in mem a lp s at_ -> mem 0 = None ->
  exists ess, song_plays mem a ess /\
    Forall2 (fun x v => heard_fully tpb (tolerance tpb n) x (n_on v) (n_off v) (n_key v) (n_vel v))
      (flat_map strikes ess) (flat_map notes_of voices).
Proof. exact song_fully. Qed.
Print Assumptions C60_voices_heard_partial.

(** C60 is false of notes softer than 8: such a note sounds as loud as the note before it, here the loudest. *)
Theorem C60_soft_refuted :
  forall b : build, exists w s mem at_ ess vs,
  midi_file w "song.mid"%string = (soft_file, true) /\ renderable (beat_ticks soft_file) (tracks_of soft_file) /\
  song_from_midi_file b w id_order false "song.mid"%string f32_0_3 = Ok s /\
  song_in mem 0xd000 false s at_ /\ mem 0 = None /\ song_plays mem 0xd000 ess /\
  (forall notes, file_notes (tracks_of soft_file) notes -> map nt_vel notes = [127; 4]) /\
  map (fun x => (k_pitch x, k_vs x)) (flat_map strikes ess) = [(driver_pitch 60, Some vs); (driver_pitch 62, Some vs)] /\ vs mod 16 = 15.
Proof. exact soft_wrong. Qed.
Print Assumptions C60_soft_refuted.

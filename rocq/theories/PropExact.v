(** PropExact.v: exact conditions for properties C04, C07, C10 and C49, and property C75 (a release build converts every MIDI
    file without crashing). Specification: SpecNspc.v (player), SpecTime.v (steps), SpecExact.v (one note at a time),
    SpecVoice.v ([midi_valid]), SpecMidi.v, SpecVoices.v (tracks of the callbacks, balanced channels). *)
From Coq Require Import ZArith List.
From Verif Require Import Base F32 Messages Command Track Song Midi Cli SpecNspc SpecTime SpecVoice SpecExact SpecMidi SpecNotes SpecVoices SpecFile
  SlideProofs FoldExact ExactProofs ClockProofs NoCrash CheckedProofs MidiExamples ExactExamples.
Import ListNotations.
Open Scope Z_scope.
Open Scope list_scope.

(** C04: a folded note plays as the note with the folded length and gate exactly when note and rest together last at most
    127 steps. *)
Theorem C04_playable_exact :
  forall n m v s v2 s2 p c, 1 <= n <= 127 -> 1 <= m <= 127 -> 0x80 <= p <= 0xc7 -> in_range 0 15 v ->
  set_sustain (mk_pcmd (Some n) v s (Note p)) (mk_pcmd (Some m) v2 s2 Rest) = Ok (true, c) ->
  ((forall rest, play_stream (fst (track_write [c] [] []) ++ 0 :: rest) = Some (prescribed [c] None None, rest)) <-> n + m <= 127).
Proof. exact fold_exact. Qed.
Print Assumptions C04_playable_exact.
Example C04_exact_case :
  set_sustain (mk_pcmd (Some 60) (Some 9) (Some 7) (Note 0xa4)) (mk_pcmd (Some 60) None None Rest) = Ok (true, mk_pcmd (Some 120) (Some 9) (Some 4) (Note 0xa4)) /\
  set_sustain (mk_pcmd (Some 64) (Some 9) (Some 7) (Note 0xa4)) (mk_pcmd (Some 64) None None Rest) = Ok (true, mk_pcmd (Some 128) (Some 9) (Some 4) (Note 0xa4)).
Proof. split; reflexivity. Qed.

(** C07: the emitted rest has the quantised length exactly when that is at most 32512 steps. *)
Theorem C07_rest_exact :
  forall b cmds e t tpb cmds' e', insert_rest b cmds e t tpb = Ok (cmds', e') -> e < t ->
  (total_steps cmds' = total_steps cmds + quantized_length (t - e) tpb false <-> quantized_length (t - e) tpb false <= 32512).
Proof. exact rest_exact. Qed.
Print Assumptions C07_rest_exact.
(** C07: and so does the emitted note. *)
Theorem C07_note_exact :
  forall b s note t tpb s' start,
  on_note_off b s note t tpb = Ok s' -> note_start s = Some start -> start <= t -> t - start < 2 ^ 32 ->
  (total_steps (commands s') = total_steps (commands s) + quantized_length (t - start) tpb true <->
   quantized_length (t - start) tpb true <= 32512).
Proof. exact note_exact. Qed.
Print Assumptions C07_note_exact.
Example C07_exact_case :
  (exists l, insert_rest Debug [] 0 32512 24 = Ok (l, 32512)) /\ quantized_length 32512 24 false = 32512 /\
  (exists l, insert_rest Debug [] 0 32513 24 = Ok (l, 32513)) /\ quantized_length 32513 24 false = 32513.
Proof. split; [eexists|split; [|split; [eexists|]]]; vm_compute; reflexivity. Qed.

(** C10: in a release build, whatever the times and lengths of the notes, converting a voice succeeds if it never starts a
    note while one is on, and reports the second voice otherwise. It never aborts. *)
Theorem C10_release :
  forall (tpb : Z) (tf : f32) (events : list tmsg) (max_time : Z), Forall (fun e => midi_valid (fst e)) events ->
  if single_notes false events then exists tr, track_new Release events tpb max_time tf = Ok tr
  else track_new Release events tpb max_time tf = Err EMoreThanOneVoice.
Proof. exact release_exact. Qed.
Print Assumptions C10_release.
Example C10_release_case :
  Forall (fun e => midi_valid (fst e)) (note_ev 60 0 1 ++ note_ev 62 1 2) /\ single_notes false (note_ev 60 0 1 ++ note_ev 62 1 2) = true /\
  single_notes false [(MidiEvent 0 (NoteOn 0 60 100), 0); (MidiEvent 0 (NoteOn 0 62 100), 5)] = false.
Proof. split; [repeat constructor; cbn; discriminate|split; reflexivity]. Qed.

(** C10: and a checked build aborts exactly when a note is switched off before the time its track's clock has reached when it
    is started ([fate]); times up to 349525 ticks, in any order. *)
Theorem C10_checked :
  forall (tpb : Z) (tf : f32) (events : list tmsg) (max_time T : Z),
  1 <= tpb <= 65535 -> 24 * T < 2 ^ 23 -> max_time <= T -> Forall (fun e => midi_valid (fst e) /\ 0 <= snd e <= T) events ->
  match fate tpb 0 None events with
  | Converts => exists tr, track_new Debug events tpb max_time tf = Ok tr
  | TwoNotes => track_new Debug events tpb max_time tf = Err EMoreThanOneVoice
  | Crashes => track_new Debug events tpb max_time tf = Panic POverflow
  end.
Proof. exact checked_exact. Qed.
Print Assumptions C10_checked.
(** Two notes of one tick, with a step of four ticks: one after the other, and four ticks apart. *)
Example C10_checked_case :
  Forall (fun e => midi_valid (fst e) /\ 0 <= snd e <= 349525) (note_ev 60 0 1 ++ note_ev 62 1 2) /\ 24 * 349525 < 2 ^ 23 /\
  fate 96 0 None (note_ev 60 0 1 ++ note_ev 62 1 2) = Crashes /\ fate 96 0 None (note_ev 60 0 1 ++ note_ev 62 4 5) = Converts.
Proof. split; [repeat constructor; cbn; discriminate|split; [reflexivity|split; reflexivity]]. Qed.

(** C10, for a MIDI file that is read and not optimised: it is converted, or one of its eight voices crashes. *)
Theorem C10_file_checked :
  forall (w : world) (order : nat -> notes -> notes) (p : Paths.path) (tf : f32) (cbs : list callback) (h : handler) (T : Z),
  midi_file w p = (cbs, true) -> Forall callback_typed cbs -> (forall k, permutes (order k)) ->
  file_ok (tracks_of cbs) -> Forall (Forall midi_valid) (tracks_of cbs) -> 1 <= beat_ticks cbs <= 65535 ->
  0 <= T -> 24 * T < 2 ^ 23 -> (forall x, In x (flat_map (timed 0) (tracks_of cbs)) -> snd x <= T) ->
  midi_read Debug cbs true order = Ok h ->
  Forall (fun v => fate (beat_ticks cbs) 0 None v = Converts) (h_voices h) /\ (exists s, song_from_midi_file Debug w order false p tf = Ok s) \/
  Exists (fun v => fate (beat_ticks cbs) 0 None v = Crashes) (h_voices h) /\ song_from_midi_file Debug w order false p tf = Panic POverflow.
Proof. exact file_checked. Qed.
Print Assumptions C10_file_checked.
Example C10_file_case : Forall callback_typed blips /\ file_ok (tracks_of blips) /\ Forall (Forall midi_valid) (tracks_of blips) /\ beat_ticks blips = 96 /\
  (forall x, In x (flat_map (timed 0) (tracks_of blips)) -> snd x <= 349525) /\
  exists h, midi_read Debug blips true id_order = Ok h /\ Exists (fun v => fate (beat_ticks blips) 0 None v = Crashes) (h_voices h).
Proof. exact blips_case. Qed.

(** C49: a checked build aborts on a format-1 file exactly when some channel, in order, switches off a note more than are on
    (or has 2^64 notes on); the release build never does (C49_read_total_release). *)
Theorem C49_crash_exact :
  forall (cbs : list callback) (order : nat -> notes -> notes),
  Forall callback_typed cbs -> (forall k, permutes (order k)) -> format1 false cbs = true -> file_ok (tracks_of cbs) ->
  (forall c l, stable_sort_of (file_order (tracks_of cbs) c) l -> balanced l) /\
    ((exists h, midi_read Debug cbs true order = Ok h) \/ midi_read Debug cbs true order = Err ECouldntFit) \/
  (exists c l, stable_sort_of (file_order (tracks_of cbs) c) l /\ ~ balanced l) /\ midi_read Debug cbs true order = Panic POverflow.
Proof. exact read_exact. Qed.
Print Assumptions C49_crash_exact.
Example C49_exact_case : Forall callback_typed stray_off /\ format1 false stray_off = true /\ file_ok (tracks_of stray_off) /\
  exists c l, stable_sort_of (file_order (tracks_of stray_off) c) l /\ ~ balanced l.
Proof. exact (conj stray_typed (conj eq_refl (conj stray_file stray_unbalanced))). Qed.

(** C75: in a release build, converting any sequence of MIDI messages to a song, with or without loop optimisation, gives a
    song or "couldn't fit" if it is a complete format-1 file, the reader's error if it is cut short, and aborts only if the file is not of
    format 1 (or has messages before its first track). Times are arbitrary. *)
Theorem C75_conversion_total :
  forall (w : world) (order : nat -> notes -> notes) (opt : bool) (p : Paths.path) (tf : f32) (cbs : list callback) (complete : bool),
  midi_file w p = (cbs, complete) -> Forall callback_typed cbs -> (forall k, permutes (order k)) ->
  Forall (Forall channel_ok) (tracks_of cbs) -> Forall (Forall midi_valid) (tracks_of cbs) ->
  (exists s, song_from_midi_file Release w order opt p tf = Ok s) /\ format1 false cbs = true /\ complete = true \/
  song_from_midi_file Release w order opt p tf = Err ECouldntFit /\ format1 false cbs = true /\ complete = true \/
  song_from_midi_file Release w order opt p tf = Err EMidiRead /\ format1 false cbs = true /\ complete = false \/
  (exists c, song_from_midi_file Release w order opt p tf = Panic c) /\ format1 false cbs = false.
Proof. exact file_release. Qed.
Print Assumptions C75_conversion_total.
Example C75_case : Forall callback_typed stray_off /\ Forall (Forall channel_ok) (tracks_of stray_off) /\
  Forall (Forall midi_valid) (tracks_of stray_off) /\ format1 false stray_off = true.
Proof. exact (conj stray_typed (conj stray_channels (conj stray_valid eq_refl))). Qed.

(** PropTrack.v: properties C08, C09, C10, C12, C14 and C48 (conversion of one voice into a track).
    Specification: SpecVoice.v (voices, notes, heads), SpecTime.v (durations), SpecNspc.v (player). *)
From Coq Require Import ZArith List.
From Verif Require Import Base F32 Messages Command Track SpecTime SpecNspc SpecVoice SpecHeads SlideProofs HeadProofs DecodeProofs.
From Verif Require TrackProofs.
Open Scope Z_scope.

(** A voice with two notes, portamento, a program change and a volume change (480 ticks per beat). *)
Definition example_voice : list tmsg :=
  [(MidiEvent 0 (ProgramChange 0 40), 0); (MidiEvent 0 (ControlChange 0 65 127), 0);
   (MidiEvent 0 (ControlChange 0 5 1), 0);
   (MidiEvent 0 (NoteOn 0 60 100), 125); (MidiEvent 0 (NoteOff 0 60 0), 601);
   (MidiEvent 0 (NoteOn 0 64 80), 601); (MidiEvent 0 (ControlChange 0 7 90), 700);
   (MetaEvent 0 SetTempo [7; 161; 32], 700); (MidiEvent 0 (NoteOff 0 64 0), 5000)].
Example example_voice_ok : voice_ok 480 9600 example_voice /\
  notes_of example_voice = [mk_vnote 125 601 60 100; mk_vnote 601 5000 64 80].
Proof.
  split; [|reflexivity]. unfold example_voice. TrackProofs.voice_case.
Qed.

(** C08, when a 1/24-beat step is a whole number [g] of ticks: the steps emitted before a note put it less
    than one step from its note-on, however long the song. The full statement for every ticks-per-beat
    value and every voice is false: see [C08_drift_refuted] and [C08_program_change_refuted]. *)
Theorem C08_keeps_time_partial :
  forall (b : build) (g : Z) (tf : f32) (events : list tmsg) (max_time : Z) (tr : track),
  1 <= g -> 24 * g <= 65535 -> voice_ok (24 * g) max_time events ->
  track_new b events (24 * g) max_time tf = Ok tr ->
  Forall2 (fun h n => Z.abs (h_onset h * g - n_on n) < g) (heads tr) (notes_of events) /\
  (tr <> [] -> Z.abs (total_steps tr * g - max_time) < g).
Proof. exact conversion_exact_time. Qed.
Print Assumptions C08_keeps_time_partial.

(** C08, any ticks-per-beat value: the error is below one step plus one tick per event of the voice. *)
Theorem C08_drift_bound :
  forall (b : build) (tpb : Z) (tf : f32) (events : list tmsg) (max_time : Z) (tr : track),
  1 <= tpb <= 65535 -> voice_ok tpb max_time events -> track_new b events tpb max_time tf = Ok tr ->
  Forall2 (fun h n => Z.abs (h_onset h * tpb - 24 * n_on n) < tolerance tpb (length events))
    (heads tr) (notes_of events).
Proof. exact conversion_time. Qed.
Print Assumptions C08_drift_bound.
Example C08_case : exists tr, track_new Debug example_voice 480 9600 f32_0_3 = Ok tr /\
  map h_onset (heads tr) = [6; 31] /\ total_steps tr = 480.
Proof. eexists. split; [vm_compute; reflexivity|]. split; vm_compute; reflexivity. Qed.

(** C08: with 100 ticks per beat the error does accumulate: after 60 notes it exceeds five steps. *)
Theorem C08_drift_refuted :
  exists events tr,
  events = flat_map (fun i => note_ev 60 (9 * Z.of_nat i) (9 * Z.of_nat i + 9)) (seq 0 60) /\
  track_new Debug events 100 540 f32_0_3 = Ok tr /\ voice_ok 100 540 events /\
  exists h n, nth_error (heads tr) 59 = Some h /\ nth_error (notes_of events) 59 = Some n /\
    h_onset h * 100 - 24 * n_on n > 5 * 100.
Proof. exact drift. Qed.
Print Assumptions C08_drift_refuted.

(** C08: a program change in the middle of a note makes the whole rest of the voice late by the time
    already played: two one-beat notes then take 60 steps, not 48. *)
Theorem C08_program_change_refuted :
  exists events tr,
  events = [(MidiEvent 0 (NoteOn 0 60 96), 0); (MidiEvent 0 (ProgramChange 0 5), 48);
            (MidiEvent 0 (NoteOff 0 60 0), 96); (MidiEvent 0 (NoteOn 0 62 96), 96);
            (MidiEvent 0 (NoteOff 0 62 0), 192)] /\
  track_new Debug events 96 192 f32_0_3 = Ok tr /\ map n_on (notes_of events) = [0; 96] /\
  map h_onset (heads tr) = [12; 36] /\ total_steps tr = 60.
Proof. exact program_change_shifts. Qed.
Print Assumptions C08_program_change_refuted.

(** C09: a non-empty track lasts as long as the song, up to the same tolerance (one step when steps are
    whole ticks, see [C08_keeps_time_partial]). Voices with a short note that ends in the same step as the note
    before, or a program change during a note, are excluded ([voice_ok]); for the latter it is false
    ([C08_program_change_refuted]). *)
Theorem C09_common_end_partial :
  forall (b : build) (tpb : Z) (tf : f32) (events : list tmsg) (max_time : Z) (tr : track),
  1 <= tpb <= 65535 -> voice_ok tpb max_time events -> track_new b events tpb max_time tf = Ok tr -> tr <> [] ->
  Z.abs (total_steps tr * tpb - 24 * max_time) < tolerance tpb (S (length events)).
Proof. exact conversion_end. Qed.
Print Assumptions C09_common_end_partial.

(** C10: the conversion succeeds in both builds if every note is at least one step long, or ends in a later step than the
    note before it. *)
Theorem C10_no_crash_partial :
  forall (b : build) (tpb : Z) (tf : f32) (events : list tmsg) (max_time : Z),
  1 <= tpb <= 65535 -> voice_ok tpb max_time events -> exists tr, track_new b events tpb max_time tf = Ok tr.
Proof. exact conversion_total. Qed.
Print Assumptions C10_no_crash_partial.
(** Drum hits of 10 ticks, half a step; the second ends one step after the first. *)
Example C10_case_short : exists tr,
  let events := [(MidiEvent 9 (NoteOn 9 38 100), 0); (MidiEvent 9 (NoteOff 9 38 0), 10); (MidiEvent 9 (NoteOn 9 42 100), 20);
                 (MidiEvent 9 (NoteOff 9 42 0), 30); (MidiEvent 9 (NoteOn 9 38 100), 245); (MidiEvent 9 (NoteOff 9 38 0), 255)] in
  voice_ok 480 480 events /\ track_new Debug events 480 480 f32_0_3 = Ok tr /\ map h_onset (heads tr) = [0; 1; 12] /\ total_steps tr = 24.
Proof.
  eexists. cbv zeta. split.
  - unfold voice_ok. cbn [voice_from midi_valid]. unfold near.
    repeat match goal with |- _ /\ _ => split | |- long_enough _ _ _ _ => right | |- True => exact I | |- apart _ None _ => exact I
                         | |- apart _ (Some 10) _ => left | |- apart _ (Some 30) _ => left end; try reflexivity; lia.
  - vm_compute. repeat split.
Qed.

(** C10 is false for shorter notes: two consecutive one-tick notes (at 96 ticks per beat) make the
    overflow-checked build panic; the unchecked build emits a 512-step note. *)
Theorem C10_short_notes_refuted :
  exists events,
  events = note_ev 60 0 1 ++ note_ev 62 1 2 /\ track_new Debug events 96 2 f32_0_3 = Panic POverflow /\
  exists tr, track_new Release events 96 2 f32_0_3 = Ok tr /\ total_steps tr = 513.
Proof. exact short_notes_crash. Qed.
Print Assumptions C10_short_notes_refuted.

(** C12: for every event list (any times, any length of notes) and either build, if the conversion succeeds
    then the commands carrying a velocity are, in order, one per completed note of the voice, with its pitch
    and velocity; it is a Tie exactly when the command before it is a pitch slide. *)
Theorem C12_one_command_per_note :
  forall (b : build) (tpb : Z) (tf : f32) (events : list tmsg) (max_time : Z) (tr : track),
  Forall (fun ev => midi_valid (fst ev)) events -> track_new b events tpb max_time tf = Ok tr ->
  Forall2 (fun h n => h_vel h = n_vel n / 8 /\ h_cmd h = (if h_tied h then Tie else Note (n_key n + 0x68)) /\
                      (h_tied h = true -> h_slide h <> None))
    (heads tr) (notes_of events).
Proof. exact notes_any. Qed.
Print Assumptions C12_one_command_per_note.
(** C12: and every Note command carries a velocity, so there are no others. *)
Theorem C12_no_other_notes :
  forall (b : build) (tpb : Z) (tf : f32) (events : list tmsg) (max_time : Z) (tr : track),
  track_new b events tpb max_time tf = Ok tr ->
  forall pc p, In pc tr -> cmd pc = Note p -> exists v, velocity pc = Some v.
Proof. exact only_heads_any. Qed.
Print Assumptions C12_no_other_notes.
Example C12_case : exists tr, track_new Debug example_voice 480 9600 f32_0_3 = Ok tr /\
  map (fun h => (h_cmd h, h_vel h, h_tied h)) (heads tr) = [(Note 164, 12, false); (Note 168, 10, false)].
Proof. eexists. split; [vm_compute; reflexivity|]. vm_compute. reflexivity. Qed.
(** A program change inside a note, notes shorter than a step, a stray note-off, and a note that does not end. *)
Definition hasty_voice : list tmsg :=
  [(MidiEvent 0 (NoteOn 0 60 100), 0); (MidiEvent 0 (ProgramChange 0 40), 10); (MidiEvent 0 (NoteOff 0 60 0), 12); (MidiEvent 0 (NoteOff 0 60 0), 13);
   (MidiEvent 0 (ControlChange 0 65 127), 40); (MidiEvent 0 (NoteOn 0 62 80), 40); (MidiEvent 0 (NoteOff 0 62 0), 41);
   (MidiEvent 0 (NoteOn 0 64 70), 41); (MidiEvent 0 (NoteOff 0 64 0), 70); (MidiEvent 0 (NoteOn 0 65 60), 80)].
Example C12_case_hasty : Forall (fun ev => midi_valid (fst ev)) hasty_voice /\ off_keys hasty_voice /\
  notes_of hasty_voice = [mk_vnote 0 12 60 100; mk_vnote 40 41 62 80; mk_vnote 41 70 64 70] /\
  exists tr, track_new Debug hasty_voice 96 80 f32_0_3 = Ok tr /\
  map (fun h => (h_cmd h, h_vel h, h_tied h)) (heads tr) = [(Note 164, 12, false); (Note 166, 10, false); (Tie, 8, true)].
Proof.
  split; [repeat constructor; vm_compute; intuition discriminate|]. split; [repeat split|]. split; [reflexivity|].
  eexists. split; [vm_compute; reflexivity|]. vm_compute. reflexivity.
Qed.

(** C14: whatever the events and their times, a converted track is well-formed for the driver exactly when
    every duration is between 1 and 127 and every note byte is between 80 and C7. Missing: tracks that
    break either condition, for which it is false (the three refutations). *)
Theorem C14_readable_partial :
  forall (b : build) (tpb : Z) (tf : f32) (events : list tmsg) (max_time : Z) (tr : track),
  Forall (fun ev => midi_valid (fst ev)) events -> track_new b events tpb max_time tf = Ok tr ->
  (well_formed tr <->
   Forall (fun pc => in_range 1 127 (duration pc) /\ forall p, cmd pc = Note p -> 0x80 <= p <= 0xc7) tr).
Proof. exact decodable_exact. Qed.
Print Assumptions C14_readable_partial.
(** C14: the note bytes are in range if every key is in 24..95. *)
Theorem C14_keys_partial :
  forall (b : build) (tpb : Z) (tf : f32) (events : list tmsg) (max_time : Z) (tr : track),
  Forall (fun ev => midi_valid (fst ev)) events -> track_new b events tpb max_time tf = Ok tr ->
  (forall n, In n (notes_of events) -> 24 <= n_key n <= 95) ->
  (well_formed tr <-> Forall (fun pc => in_range 1 127 (duration pc)) tr).
Proof. exact decodable_keys. Qed.
Print Assumptions C14_keys_partial.
(** C14: in a well-behaved voice no duration is 0, so only durations above 127 matter. *)
Theorem C14_decodable_partial :
  forall (b : build) (tpb : Z) (tf : f32) (events : list tmsg) (max_time : Z) (tr : track),
  1 <= tpb <= 65535 -> voice_ok tpb max_time events -> track_new b events tpb max_time tf = Ok tr ->
  (forall n, In n (notes_of events) -> 24 <= n_key n <= 95) ->
  (well_formed tr <-> Forall (fun pc => in_range 0 127 (duration pc)) tr).
Proof. exact track_decodable. Qed.
Print Assumptions C14_decodable_partial.
(** C14: the bytes of such a track play back as prescribed. *)
Theorem C14_plays_partial :
  forall (b : build) (tpb : Z) (tf : f32) (events : list tmsg) (max_time : Z) (tr : track) (rest : list Z),
  Forall (fun ev => midi_valid (fst ev)) events -> track_new b events tpb max_time tf = Ok tr ->
  Forall (fun pc => in_range 1 127 (duration pc) /\ forall p, cmd pc = Note p -> 0x80 <= p <= 0xc7) tr ->
  play_stream (fst (track_write tr [] []) ++ 0 :: rest) = Some (prescribed tr None None, rest).
Proof. exact decodable_plays. Qed.
Print Assumptions C14_plays_partial.
Example C14_case : exists tr, track_new Debug hasty_voice 96 80 f32_0_3 = Ok tr /\
  Forall (fun pc => in_range 1 127 (duration pc) /\ forall p, cmd pc = Note p -> 0x80 <= p <= 0xc7) tr.
Proof.
  eexists. split; [vm_compute; reflexivity|]. repeat constructor; try (vm_compute; intuition discriminate).
  all: match goal with H : _ = Note _ |- _ => cbn [cmd] in H; inversion H; subst; vm_compute; intuition discriminate end.
Qed.
(** C14: a note that gets no time (96 ticks per beat) has duration 0, which is not written: it lasts as long as the note before it. *)
Theorem C14_zero_refuted :
  exists events tr,
  events = zero_voice /\ track_new Debug events 96 288 f32_0_3 = Ok tr /\
  map (fun pc => (duration pc, cmd pc)) tr = [(Some 48, Note 164); (Some 0, Note 166); (Some 24, Note 168)] /\
  option_map (fun r => map (fun e => (ev_token e, ev_dur e)) (fst r)) (play_stream (fst (track_write tr [] []) ++ [0])) =
    Some [(TNote 164, Some 48); (TNote 166, Some 48); (TNote 168, Some 24)].
Proof. exact zero_breaks_stream. Qed.
Print Assumptions C14_zero_refuted.
Theorem C14_fold_refuted :
  exists events tr,
  events = note_ev 60 0 96 ++ note_ev 62 192 216 /\ voice_ok 24 216 events /\
  track_new Debug events 24 216 f32_0_3 = Ok tr /\
  map (fun pc => (duration pc, cmd pc)) tr = [(Some 192, Note 164); (Some 24, Note 166)] /\
  option_map (fun r => map (fun e => (ev_token e, ev_dur e)) (fst r)) (play_stream (fst (track_write tr [] []) ++ [0])) =
    Some [(TNote 192, None); (TNote 164, Some 76); (TNote 166, Some 24)].
Proof. exact fold_breaks_stream. Qed.
Print Assumptions C14_fold_refuted.
Theorem C14_low_note_refuted :
  exists events tr,
  events = note_ev 20 0 24 /\ voice_ok 24 24 events /\ track_new Debug events 24 24 f32_0_3 = Ok tr /\
  play_stream (fst (track_write tr [] []) ++ [0]) = None.
Proof. exact low_note_breaks_stream. Qed.
Print Assumptions C14_low_note_refuted.

(** C48: in every successfully converted track (any events, either build) each pitch slide directly follows
    a non-rest command and delay + min(time, duration) is that command's duration. *)
Theorem C48_slides_fit :
  forall (b : build) (events : list tmsg) (tpb max_time : Z) (tf : f32) (tr : track),
  track_new b events tpb max_time tf = Ok tr -> slides_fit None tr.
Proof. exact track_slides_fit. Qed.
Print Assumptions C48_slides_fit.
(** C48: the slide before a note aims at that note's pitch, whatever the times, if a note-off names the note
    it ends (percussion notes ended by a note-on of velocity 0 may not, C23). *)
Theorem C48_slide_target :
  forall (b : build) (tpb : Z) (tf : f32) (events : list tmsg) (max_time : Z) (tr : track),
  Forall (fun ev => midi_valid (fst ev)) events -> off_keys events -> track_new b events tpb max_time tf = Ok tr ->
  Forall2 (fun h n => forall sl p q target,
             h_slide h = Some sl -> cmd sl = PitchSlide p q target -> target = n_key n + 0x68)
    (heads tr) (notes_of events).
Proof. exact slides_any. Qed.
Print Assumptions C48_slide_target.
Example C48_case : exists tr, track_new Debug example_voice 480 9600 f32_0_3 = Ok tr /\
  map h_slide (heads tr) = [None; Some (mk_pcmd None None None (PitchSlide 12 13 168))].
Proof. eexists. split; [vm_compute; reflexivity|]. vm_compute. reflexivity. Qed.

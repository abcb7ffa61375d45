(** PropPlaced.v: properties C08, C09 and C10 for notes of any length (SpecPlaced.v). *)
From Coq Require Import ZArith List.
From Verif Require Import Base F32 Messages Command Track SpecTime SpecVoice SpecPlaced PlacedProofs.
Import ListNotations.
Open Scope Z_scope.

(** A voice with notes shorter than a step (4 ticks), a note off the grid and a program change during a note. *)
Definition skipping : list tmsg :=
  [(MidiEvent 0 (NoteOn 0 60 100), 0); (MidiEvent 0 (NoteOff 0 60 0), 1); (MidiEvent 0 (NoteOn 0 62 100), 6); (MidiEvent 0 (NoteOff 0 62 0), 7);
   (MidiEvent 0 (NoteOn 0 64 90), 103); (MidiEvent 0 (ProgramChange 0 40), 115); (MidiEvent 0 (NoteOff 0 64 0), 190); (MidiEvent 0 (NoteOn 0 65 90), 191)].

(** C08, C10: for any order of events and any lengths of notes, the converted track has its notes at the steps [placed]
    computes and lasts the steps it computes, in both builds; where [placed] gives up, a checked build fails. *)
Theorem C08_placed_exact :
  forall (b : build) (tpb : Z) (tf : f32) (events : list tmsg) (max_time : Z),
  1 <= tpb <= 65535 -> max_time < 2 ^ 31 -> Forall (fun e => midi_valid (fst e) /\ 0 <= snd e < 2 ^ 31) events -> calm tpb 0 None events max_time ->
  match placed tpb vclock0 events with
  | Some (onsets, e) =>
      exists tr, track_new b events tpb max_time tf = Ok tr /\ map h_onset (heads tr) = onsets /\
        (tr <> [] -> total_steps tr = k_steps (wait tpb e max_time))
  | None => b = Debug -> forall tr, track_new b events tpb max_time tf <> Ok tr
  end.
Proof. exact track_placed. Qed.
Print Assumptions C08_placed_exact.
Example C08_placed_case : Forall (fun e => midi_valid (fst e) /\ 0 <= snd e < 2 ^ 31) skipping /\ calm 96 0 None skipping 288 /\
  option_map (fun x => (fst x, k_steps (wait 96 (snd x) 288))) (placed 96 vclock0 skipping) = Some ([0; 1; 28], 75).
Proof.
  split; [repeat constructor; vm_compute; intuition discriminate|]. split; [|vm_compute; reflexivity].
  cbn [calm skipping]. unfold calm_gap. repeat match goal with |- _ /\ _ => split end; vm_compute; reflexivity.
Qed.
(** C08, C09: without program changes during notes, and in time order, every note is within the tolerance of its time (one
    step when a step is a whole number of ticks), and so is the end of the track, if the voice converts in a checked build. *)
Theorem C08_any_length_partial :
  forall (tpb : Z) (tf : f32) (events : list tmsg) (max_time : Z) (tr : track),
  1 <= tpb <= 65535 -> max_time < 2 ^ 31 -> Forall (fun e => midi_valid (fst e) /\ 0 <= snd e < 2 ^ 31) events -> calm tpb 0 None events max_time ->
  orderly tpb 0 None events max_time -> track_new Debug events tpb max_time tf = Ok tr ->
  Forall2 (fun h n => Z.abs (h_onset h * tpb - 24 * n_on n) < tolerance tpb (length events)) (heads tr) (notes_of events) /\
  (tr <> [] -> Z.abs (total_steps tr * tpb - 24 * max_time) < tolerance tpb (S (length events))).
Proof. exact placed_time_debug. Qed.
Print Assumptions C08_any_length_partial.
(** Release builds: the same for every voice that a checked build would convert. *)
Theorem C08_any_length_release_partial :
  forall (tpb : Z) (tf : f32) (events : list tmsg) (max_time : Z) (tr : track),
  1 <= tpb <= 65535 -> max_time < 2 ^ 31 -> Forall (fun e => midi_valid (fst e) /\ 0 <= snd e < 2 ^ 31) events -> calm tpb 0 None events max_time ->
  orderly tpb 0 None events max_time -> placed tpb vclock0 events <> None -> track_new Release events tpb max_time tf = Ok tr ->
  Forall2 (fun h n => Z.abs (h_onset h * tpb - 24 * n_on n) < tolerance tpb (length events)) (heads tr) (notes_of events) /\
  (tr <> [] -> Z.abs (total_steps tr * tpb - 24 * max_time) < tolerance tpb (S (length events))).
Proof. exact (placed_time Release). Qed.
Print Assumptions C08_any_length_release_partial.
Example C08_any_length_case : orderly 96 0 None (firstn 4 skipping) 288 /\ placed 96 vclock0 (firstn 4 skipping) <> None /\ notes_of (firstn 4 skipping) = [mk_vnote 0 1 60 100; mk_vnote 6 7 62 100].
Proof.
  split; [|split; [vm_compute; discriminate|reflexivity]]. cbn [orderly skipping firstn]. unfold orderly_gap. repeat match goal with |- _ /\ _ => split end; vm_compute; intuition discriminate.
Qed.

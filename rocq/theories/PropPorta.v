(** PropPorta.v: property C71 (pitch slides between notes). Specification: SpecPorta.v, SpecVoice.v. *)
From Coq Require Import ZArith List.
From Verif Require Import Base F32 Messages Command Track SpecVoice SpecPorta PortaProofs SlidePlace.
From Verif Require TrackProofs.
Import ListNotations.
Open Scope Z_scope.

(** C71: the slides of a track are those its voice asks for, for portamento times of up to 127 steps and notes of up
    to 2^18 ticks, and a note is rendered as a tie exactly if it directly follows its slide. Longer times give other
    slides: see [C71_long_refuted]. *)
Theorem C71_slides_as_asked_partial :
  forall (b : build) (tpb : Z) (tf : f32) (events : list tmsg) (max_time : Z) (tr : track),
  1 <= tpb <= 65535 -> voice_ok tpb max_time events ->
  Forall (fun n => n_off n - n_on n <= 2 ^ 18) (notes_of events) ->
  track_new b events tpb max_time tf = Ok tr ->
  Forall2 (fun h a => slide_as_asked tpb (h_slide h) (h_tied h) a) (heads tr) (asked_of events) /\
  Forall (fun h => h_cmd h = Tie <-> h_tied h = true) (heads tr).
Proof. intros b tpb tf events max_time tr. exact (slides_as_asked b tpb tf events max_time tr). Qed.
Print Assumptions C71_slides_as_asked_partial.

(** A voice with a slide into a tied note, a slide into a note that is struck because its volume changes, and three
    notes without a slide: the first, one after a rest and one after portamento is switched off. *)
Definition sliding_voice : list tmsg :=
  [(MidiEvent 0 (ControlChange 0 65 64), 0); (MidiEvent 0 (ControlChange 0 37 100), 0);
   (MidiEvent 0 (NoteOn 0 60 96), 0); (MidiEvent 0 (NoteOff 0 60 0), 480);
   (MidiEvent 0 (NoteOn 0 64 96), 480); (MidiEvent 0 (NoteOff 0 64 0), 960);
   (MidiEvent 0 (NoteOn 0 65 96), 960); (MidiEvent 0 (ControlChange 0 7 80), 1000); (MidiEvent 0 (NoteOff 0 65 0), 1440);
   (MidiEvent 0 (NoteOn 0 62 96), 1920); (MidiEvent 0 (ControlChange 0 65 63), 2000); (MidiEvent 0 (NoteOff 0 62 0), 2400);
   (MidiEvent 0 (NoteOn 0 60 96), 2400); (MidiEvent 0 (NoteOff 0 60 0), 2880)].
Example C71_case : voice_ok 480 3840 sliding_voice /\
  Forall (fun n => n_off n - n_on n <= 2 ^ 18) (notes_of sliding_voice) /\
  asked_of sliding_voice =
    [mk_asked true 100 None 0 true; mk_asked true 100 (Some 480) 480 true; mk_asked true 100 (Some 960) 960 false;
     mk_asked true 100 (Some 1440) 1920 true; mk_asked false 100 (Some 2400) 2400 true] /\
  exists tr, track_new Debug sliding_voice 480 3840 f32_0_3 = Ok tr /\
    map (fun h => (h_slide h, h_tied h)) (heads tr) =
      [(None, false); (Some (mk_pcmd None None None (PitchSlide 19 5 168)), true);
       (Some (mk_pcmd None None None (PitchSlide 19 5 169)), false); (None, false); (None, false)].
Proof.
  split.
  { unfold sliding_voice. TrackProofs.voice_case. }
  split.
  { apply Forall_forall. intros n Hn. apply Z.leb_le.
    assert (H : forallb (fun n => n_off n - n_on n <=? 2 ^ 18) (notes_of sliding_voice) = true) by (vm_compute; reflexivity).
    exact (proj1 (forallb_forall _ _) H n Hn). }
  split; [vm_compute; reflexivity|].
  eexists. split; vm_compute; reflexivity.
Qed.

(** C71: a portamento time of 144 steps gives a slide of 17. *)
Theorem C71_long_refuted :
  exists tr h a pc delay time target,
  voice_ok 480 960 long_slide /\ track_new Debug long_slide 480 960 f32_0_3 = Ok tr /\
  nth_error (heads tr) 1 = Some h /\ nth_error (asked_of long_slide) 1 = Some a /\
  h_slide h = Some pc /\ cmd pc = PitchSlide delay time target /\ 24 * a_time a = 144 * 480 /\ time = 17.
Proof. exact long_slide_case. Qed.
Print Assumptions C71_long_refuted.

(** C71: in every track, whatever its voice, a slide ends with the note (or the last tie of the note) that it starts in,
    or starts with it if it takes longer; there is none at the start of a track or after a rest. *)
Theorem C71_slide_ends :
  forall (b : build) (events : list tmsg) (tpb max_time : Z) (tf : f32) (tr : track),
  track_new b events tpb max_time tf = Ok tr -> slides_placed tr.
Proof. intros b events tpb max_time tf tr. exact (track_slides b events tpb max_time tf tr). Qed.
Print Assumptions C71_slide_ends.
(** In the voice of [C71_case] the first slide takes 5 of the 24 steps of the note before it. *)
Example C71_ends_case : exists tr x sl rest, track_new Debug sliding_voice 480 3840 f32_0_3 = Ok tr /\ tr = x :: sl :: rest /\
  duration x = Some 24 /\ cmd sl = PitchSlide 19 5 168.
Proof. eexists _, _, _, _. split; [vm_compute; reflexivity|]. split; [reflexivity|]. split; reflexivity. Qed.

(** PropControl.v: properties C50 and C51 (instrument, volume and tempo changes of a converted voice).
    Specification: SpecControl.v. *)
From Coq Require Import ZArith List.
From Verif Require Import Base F32 Messages Command Track SpecTime SpecVoice SpecControl ControlProofs.
From Verif Require TrackProofs.
Open Scope Z_scope.

(** C50: for every event list (in any order, with any timing) and either build, if the conversion succeeds
    then the instrument, volume and tempo commands of the track are exactly those the events ask for, in the
    events' order, and they lie between the same notes, a note counting where it ends. *)
Theorem C50_controls_kept :
  forall (b : build) (events : list tmsg) (tpb max_time : Z) (tf : f32) (tr : track),
  Forall (fun ev => midi_valid (fst ev)) events -> track_new b events tpb max_time tf = Ok tr ->
  track_outline tr = outline_of tf events.
Proof. exact track_outline_kept. Qed.
Print Assumptions C50_controls_kept.
Definition control_voice : list tmsg :=
  [(MidiEvent 0 (ProgramChange 0 40), 0); (MidiEvent 0 (ControlChange 0 7 90), 0);
   (MidiEvent 0 (NoteOn 0 60 100), 125); (MidiEvent 0 (NoteOff 0 60 0), 601);
   (MidiEvent 0 (NoteOn 0 64 80), 601); (MidiEvent 0 (ControlChange 0 7 127), 700);
   (MetaEvent 0 SetTempo [7; 161; 32], 700); (MidiEvent 0 (NoteOff 0 64 0), 5000);
   (MidiEvent 0 (ProgramChange 9 12), 5000)].
Example C50_case : exists tr, track_new Debug control_voice 480 9600 f32_0_3 = Ok tr /\
  Forall (fun ev => midi_valid (fst ev)) control_voice /\
  track_outline tr = [Control (SetInstrument 9); Control (ChannelVolume 180); Sounds 12;
    Control (ChannelVolume 254); Control (Tempo 36); Sounds 10; Control (SetInstrument 12)].
Proof.
  eexists. split; [vm_compute; reflexivity|]. split; [|vm_compute; reflexivity].
  repeat constructor; vm_compute; intuition discriminate.
Qed.

(** C51: each of these commands takes effect at its anchor, up to the tolerance of C08: the latest note-on,
    note-off or program change up to it. *)
Theorem C51_when_controls_act :
  forall (b : build) (events : list tmsg) (tpb max_time : Z) (tf : f32) (tr : track),
  1 <= tpb <= 65535 -> voice_ok tpb max_time events -> track_new b events tpb max_time tf = Ok tr ->
  Forall2 (fun x c => snd x = ch_cmd c /\ Z.abs (fst x * tpb - 24 * ch_anchor c) < tolerance tpb (length events))
    (timed_controls 0 tr) (changes_of tf events).
Proof. exact track_changes_kept. Qed.
Print Assumptions C51_when_controls_act.

(** C51: so no change is late, and a program change is on time. Missing: that volume and tempo changes are
    not early either, which is false ([C51_early_refuted]). *)
Theorem C51_never_late_partial :
  forall (b : build) (events : list tmsg) (tpb max_time : Z) (tf : f32) (tr : track),
  1 <= tpb <= 65535 -> voice_ok tpb max_time events -> in_order events -> track_new b events tpb max_time tf = Ok tr ->
  Forall2 (fun x c => snd x = ch_cmd c /\
      fst x * tpb - 24 * ch_time c < tolerance tpb (length events) /\
      (forall i, ch_cmd c = SetInstrument i -> Z.abs (fst x * tpb - 24 * ch_time c) < tolerance tpb (length events)))
    (timed_controls 0 tr) (changes_of tf events).
Proof. exact track_changes_not_late. Qed.
Print Assumptions C51_never_late_partial.
Definition timed_voice : list tmsg := removelast control_voice.
Example C51_case : exists tr, track_new Debug timed_voice 480 9600 f32_0_3 = Ok tr /\
  voice_ok 480 9600 timed_voice /\ in_order timed_voice /\
  timed_controls 0 tr = [(0, SetInstrument 9); (0, ChannelVolume 180); (31, ChannelVolume 254); (31, Tempo 36)] /\
  map ch_anchor (changes_of f32_0_3 timed_voice) = [0; 0; 601; 601].
Proof.
  eexists. split; [vm_compute; reflexivity|]. split; [|split; [|split; vm_compute; reflexivity]].
  - unfold timed_voice, control_voice. cbn [removelast]. TrackProofs.voice_case.
  - repeat constructor; vm_compute; discriminate.
Qed.

(** C51 is false for volume and tempo: at 96 ticks per beat, a tempo change on beat 4 in a rest acts on
    beat 1 (step 24), where the previous note ends, and a volume change on beat 6 in the middle of a note
    acts on beat 5 (step 120), where that note starts. *)
Theorem C51_early_refuted :
  exists events tr,
  events = [(MidiEvent 0 (NoteOn 0 60 96), 0); (MidiEvent 0 (NoteOff 0 60 0), 96);
            (MetaEvent 0 SetTempo [7; 161; 32], 384); (MidiEvent 0 (NoteOn 0 62 96), 480);
            (MidiEvent 0 (ControlChange 0 7 50), 576); (MidiEvent 0 (NoteOff 0 62 0), 672)] /\
  voice_ok 96 672 events /\ in_order events /\ track_new Debug events 96 672 f32_0_3 = Ok tr /\
  timed_controls 0 tr = [(24, Tempo 36); (120, ChannelVolume 100)] /\
  map (fun c => (ch_time c, ch_cmd c)) (changes_of f32_0_3 events) = [(24 * 16, Tempo 36); (24 * 24, ChannelVolume 100)].
Proof. exact controls_early. Qed.
Print Assumptions C51_early_refuted.

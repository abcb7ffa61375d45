(** PropBuild.v: property C46 (overflow-checked and release builds). Specification: SpecBuild.v. *)
From Coq Require Import ZArith List String.
From Verif Require Import Base F32 Messages Command Track Song Paths Manifest Midi Json Cli SpecBuild BuildProofs MidiExamples.
From Verif Require Rom.
Import ListNotations.
Open Scope string_scope.
Open Scope Z_scope.

(** C46: writing a manifest to a ROM. *)
Theorem C46_build_rom :
  forall (verbose optimize : bool) (w : world) (order : nat -> notes -> notes) (manifest_path parent : path)
    (rom : list Z) (openable : bool) (addrs : list Z) (os : Rom.os_write),
  same_file_unless_overflow rom
    (build_rom Debug verbose optimize w order manifest_path parent rom openable addrs os)
    (build_rom Release verbose optimize w order manifest_path parent rom openable addrs os).
Proof. exact ag_build_rom. Qed.
Print Assumptions C46_build_rom.
(** C46: the two single-song commands. *)
Theorem C46_all_overworld :
  forall (verbose optimize : bool) (w : world) (order : nat -> notes -> notes) (input : path)
    (rom : list Z) (openable : bool) (addrs : list Z) (os : Rom.os_write),
  same_file_unless_overflow rom
    (write_all_overworld Debug verbose optimize w order input rom openable addrs os)
    (write_all_overworld Release verbose optimize w order input rom openable addrs os).
Proof. exact ag_all_overworld. Qed.
Print Assumptions C46_all_overworld.
Theorem C46_file_select :
  forall (verbose optimize : bool) (w : world) (order : nat -> notes -> notes) (input : path)
    (rom : list Z) (openable : bool) (addrs : list Z) (os : Rom.os_write),
  same_file_unless_overflow rom
    (write_file_select Debug verbose optimize w order input rom openable addrs os)
    (write_file_select Release verbose optimize w order input rom openable addrs os).
Proof. exact ag_file_select. Qed.
Print Assumptions C46_file_select.
(** C46: converting a MIDI file to JSON, and the dummy ROM. *)
Theorem C46_midi2json :
  forall (w : world) (order : nat -> notes -> notes) (optimize : bool) (input : path),
  same_unless_overflow (midi2json Debug w order optimize input) (midi2json Release w order optimize input).
Proof. exact ag_midi2json. Qed.
Print Assumptions C46_midi2json.
Theorem C46_gen_fake_rom :
  forall (r addrs old : list Z) (os : Rom.os_write),
  same_file_unless_overflow old (Rom.gen_fake_rom Debug r addrs old os) (Rom.gen_fake_rom Release r addrs old os).
Proof. exact ag_gen_fake. Qed.
Print Assumptions C46_gen_fake_rom.
(** C46: the stages: reading a MIDI file, converting a voice, optimising. *)
Theorem C46_midi_read :
  forall (cbs : list callback) (complete : bool) (order : nat -> notes -> notes),
  same_unless_overflow (midi_read Debug cbs complete order) (midi_read Release cbs complete order).
Proof. exact ag_midi_read. Qed.
Print Assumptions C46_midi_read.
Theorem C46_track_new :
  forall (events : list tmsg) (tpb max_time : Z) (tf : f32),
  same_unless_overflow (track_new Debug events tpb max_time tf) (track_new Release events tpb max_time tf).
Proof. exact ag_track_new. Qed.
Print Assumptions C46_track_new.
Theorem C46_optimize :
  forall (trs : list track) (top_level : nat),
  same_unless_overflow (optimize_call_loops Debug trs top_level) (optimize_call_loops Release trs top_level).
Proof. exact ag_optimize. Qed.
Print Assumptions C46_optimize.
(** Both sides of the disjunction occur: a file read identically by both builds, and one on which only
    the checked build stops. *)
Example C46_case_same : exists h, midi_read Debug good_file true id_order = Ok h /\ midi_read Release good_file true id_order = Ok h.
Proof. eexists. split; vm_compute; reflexivity. Qed.
Example C46_case_overflow : midi_read Debug [head1; CTrackChange; midi 5 (NoteOff 0 60 0)] true id_order = Panic POverflow /\
  exists h, midi_read Release [head1; CTrackChange; midi 5 (NoteOff 0 60 0)] true id_order = Ok h.
Proof. split; [vm_compute; reflexivity|]. eexists. vm_compute. reflexivity. Qed.

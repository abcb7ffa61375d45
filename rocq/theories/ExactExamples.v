(** ExactExamples.v: cases for PropExact.v. *)
From Coq Require Import ZArith List Bool Lia.
From Verif Require Import Base F32 Messages Command Track Song Midi Cli SpecTime SpecVoice SpecExact SpecMidi SpecNotes SpecVoices SpecFile MidiExamples SlideProofs ExactProofs NoCrash.
Import ListNotations.
Open Scope Z_scope.
Open Scope list_scope.

Lemma stray_typed : Forall callback_typed stray_off.
Proof. repeat constructor; cbn; lia. Qed.
Lemma stray_file : file_ok (tracks_of stray_off).
Proof. repeat constructor; cbn; lia. Qed.
Lemma stray_valid : Forall (Forall midi_valid) (tracks_of stray_off).
Proof. repeat constructor; cbn; lia. Qed.
Lemma stray_channels : Forall (Forall channel_ok) (tracks_of stray_off).
Proof. repeat constructor; cbn; lia. Qed.
Lemma stray_unbalanced : exists c l, stable_sort_of (file_order (tracks_of stray_off) c) l /\ ~ balanced l.
Proof.
  destruct (read_exact stray_off id_order stray_typed (fun _ _ => Permutation.Permutation_refl _) eq_refl stray_file) as [(_ & [(h & H)|H])|(H & _)]; [| |exact H];
    rewrite stray_crashes in H; discriminate.
Qed.
(** Two notes of one tick each, one after the other, at 96 ticks per beat. *)
Definition blips : list callback :=
  [head1; CTrackChange; midi 0 (NoteOn 0 60 100); midi 1 (NoteOff 0 60 0); midi 0 (NoteOn 0 62 100); midi 1 (NoteOff 0 62 0)].
Lemma blips_case : Forall callback_typed blips /\ file_ok (tracks_of blips) /\ Forall (Forall midi_valid) (tracks_of blips) /\ beat_ticks blips = 96 /\
  (forall x, In x (flat_map (timed 0) (tracks_of blips)) -> snd x <= 349525) /\
  exists h, midi_read Debug blips true id_order = Ok h /\ Exists (fun v => fate (beat_ticks blips) 0 None v = Crashes) (h_voices h).
Proof.
  split; [repeat constructor; cbn; lia|]. split; [repeat constructor; cbn; lia|]. split; [repeat constructor; cbn; lia|]. split; [reflexivity|]. split.
  - intros x Hx. cbn in Hx. repeat (destruct Hx as [<-|Hx]; [cbn; lia|]). destruct Hx.
  - destruct (midi_read Debug blips true id_order) as [h| | |] eqn:E; try (vm_compute in E; discriminate). exists h. split; [reflexivity|]. vm_compute in E. injection E as <-.
    apply Exists_cons_hd. vm_compute. reflexivity.
Qed.

(** PropSlide.v: property C82 (which files have pitch slides). Specification: SpecSlide.v, SpecFile.v, SpecAram.v. *)
From Coq Require Import ZArith List String.
From Verif Require Import Base F32 Messages Command Track Song Paths Midi Cli SpecMidi SpecNotes SpecVoices SpecNspc SpecRom SpecAram SpecPlayback SpecFile SpecConsole SpecSlide
  MidiExamples ConsoleProofs SlideFile.
From Verif Require FileExamples.
Import ListNotations.
Open Scope Z_scope.

(** C82: a file that never switches portamento on is converted to tracks without pitch slides, loop bodies included. *)
Theorem C82_no_slides :
  forall (b : build) (w : world) (order : nat -> notes -> notes) (opt : bool) (p : path) (tf : f32) (s : song) (cbs : list callback),
  midi_file w p = (cbs, true) -> Forall callback_typed cbs -> (forall k, permutes (order k)) -> never_on (tracks_of cbs) ->
  song_from_midi_file b w order opt p tf = Ok s -> Forall no_slides (tracks s).
Proof. exact file_no_slides. Qed.
Print Assumptions C82_no_slides.

(** C82: and the driver executes no pitch slide (command 0xf9) when it plays the song from memory. *)
Theorem C82_no_slides_heard :
  forall (b : build) (w : world) (order : nat -> notes -> notes) (opt : bool) (p : path) (tf : f32) (cbs : list callback) (s : song)
    (mem : Z -> option Z) (a : Z) (lp : bool) (at_ : list Z),
  (forall k, permutes (order k)) -> good_midi b w order opt p tf cbs -> never_on (tracks_of cbs) ->
  song_from_midi_file b w order opt p tf = Ok s -> song_in mem a lp s at_ -> mem 0 = None ->
  exists ess, song_plays mem a ess /\ Forall (Forall (fun e => forall args, ev_token e <> TControl 0xf9 args)) ess.
Proof. exact file_slides_heard. Qed.
Print Assumptions C82_no_slides_heard.

(** A file of three channels with volumes, two of its notes directly after another, that uses the portamento controllers
    but never switches portamento on. *)
Definition off_file : list callback :=
  [head1; CTrackChange; midi 0 (ControlChange 0 65 63); midi 0 (ControlChange 0 5 1); midi 0 (ControlChange 0 37 12);
   midi 0 (NoteOn 0 60 100); midi 48 (NoteOff 0 60 0); midi 0 (NoteOn 0 64 100); midi 48 (NoteOff 0 64 0);
   CTrackChange; midi 0 (ControlChange 1 7 127); midi 0 (NoteOn 1 50 100); midi 48 (NoteOff 1 50 0); midi 0 (NoteOn 1 52 100); midi 48 (NoteOff 1 52 0)].
Definition one_file (cbs : list callback) : world := mk_world (fun _ => (cbs, true)) (fun _ => None).
Example C82_case : Forall callback_typed off_file /\ (forall k, permutes (id_order k)) /\ never_on (tracks_of off_file) /\
  struck_on 0 (tracks_of off_file) = [60; 64] /\
  exists s, song_from_midi_file Debug (one_file off_file) id_order true "a.mid"%string f32_0_3 = Ok s /\ length (tracks s) = 2%nat.
Proof.
  split; [repeat constructor; cbn; auto; Lia.lia|]. split; [exact id_permutes|].
  split; [vm_compute; repeat constructor|].
  split; [reflexivity|]. eexists. split; vm_compute; reflexivity.
Qed.

Example C82_heard_case : forall b : build, good_midi b con_world id_order true "song.mid"%string f32_0_3 good_file /\ never_on (tracks_of good_file) /\
  struck_on 0 (tracks_of good_file) = [60; 64; 62] /\
  song_from_midi_file b con_world id_order true "song.mid"%string f32_0_3 = Ok con_song /\
  song_in FileExamples.good_mem 0xd000 false con_song FileExamples.good_at /\ FileExamples.good_mem 0 = None.
Proof.
  intros b. split; [exact (con_good b)|]. split; [vm_compute; repeat constructor|]. split; [reflexivity|].
  split; [exact (FileExamples.good_converts b true)|]. split; [exact FileExamples.good_in|reflexivity].
Qed.

(** C82: portamento is a setting of the voice, not of the channel: here only channel 0 switches it on, and channel 0 has
    one note, but both notes of channel 1, which gets the same voice, are slid to. *)
Definition leak_file : list callback :=
  [head1; CTrackChange; midi 0 (ControlChange 0 65 127); midi 0 (ControlChange 0 37 12); midi 0 (NoteOn 0 60 100); midi 48 (NoteOff 0 60 0);
   CTrackChange; midi 48 (NoteOn 1 64 100); midi 48 (NoteOff 1 64 0); midi 0 (NoteOn 1 67 100); midi 48 (NoteOff 1 67 0)].
Theorem C82_channel_refuted :
  forall b : build, exists tr : track,
  song_from_midi_file b (one_file leak_file) id_order false "a.mid"%string f32_0_3 = Ok (mk_song [[0%nat]] [tr]) /\
  (forall t m, In t (tracks_of leak_file) -> In m t -> switches_on m = true -> addressee m = Some 0) /\
  struck_on 0 (tracks_of leak_file) = [60] /\ struck_on 1 (tracks_of leak_file) = [64; 67] /\ slide_keys tr = [64; 67].
Proof.
  intros b. eexists. split; [destruct b; vm_compute; reflexivity|]. split; [|vm_compute; auto].
  intros t m Ht Hm. cbn in Ht. repeat (destruct Ht as [<-|Ht]; [cbn in Hm; repeat (destruct Hm as [<-|Hm]; [intros E; (discriminate E || reflexivity)|]); destruct Hm|]).
  destruct Ht.
Qed.
Print Assumptions C82_channel_refuted.

(** C82: and it reaches one voice only: of two chords of a channel with portamento on, only the note of the channel's own
    voice slides. *)
Definition chord_file : list callback :=
  [head1; CTrackChange; midi 0 (ControlChange 0 65 127); midi 0 (ControlChange 0 37 12);
   midi 0 (NoteOn 0 60 100); midi 0 (NoteOn 0 64 100); midi 48 (NoteOff 0 60 0); midi 0 (NoteOff 0 64 0);
   midi 0 (NoteOn 0 62 100); midi 0 (NoteOn 0 65 100); midi 48 (NoteOff 0 62 0); midi 0 (NoteOff 0 65 0)].
Theorem C82_chord_refuted :
  forall b : build, exists tr1 tr2 : track,
  song_from_midi_file b (one_file chord_file) id_order false "a.mid"%string f32_0_3 = Ok (mk_song [[0; 1]%nat] [tr1; tr2]) /\
  struck_on 0 (tracks_of chord_file) = [60; 64; 62; 65] /\ slide_keys tr1 = [62] /\ slide_keys tr2 = [].
Proof. intros b. eexists _, _. split; [destruct b; vm_compute; reflexivity|]. vm_compute. auto. Qed.
Print Assumptions C82_chord_refuted.

(** PropDump.v: what [dump_midi] prints (C84). *)
From Coq Require Import ZArith List Lia Permutation Sorted.
From Verif Require Import Base Messages Paths Midi Cli Run MidiLog MidiDump SpecMidi SpecNotes SpecVoices SpecFile SpecHeard SpecMidiLog SpecDump.
From Verif Require Import DumpProofs DumpStuck.
Import ListNotations.
Open Scope Z_scope.

(** The command never touches a file, and ends normally, having printed the handler, unless reading crashes. *)
Theorem C84_command : forall b t order f input,
  snd (run_dump_midi b t order f input) = f /\
  match dump_midi b t order f input with
  | Ok _ => fst (run_dump_midi b t order f input) = Ok tt
  | Err _ => False
  | Panic p => fst (run_dump_midi b t order f input) = Panic p
  | Diverge => fst (run_dump_midi b t order f input) = Diverge
  end.
Proof. exact dump_command. Qed.
Print Assumptions C84_command.

(** It prints an error exactly when a build from the file fails with it; otherwise the voices, the ticks per beat
    and the end it prints are those a build converts. *)
Theorem C84_result : forall b cbs complete order,
  match read_state b cbs complete order with
  | Ok (None, d) => midi_read b cbs complete order = Ok (mk_handler (d_voices d) (d_tpb d) (d_max d))
  | Ok (Some e, _) => midi_read b cbs complete order = Err e
  | Err _ => False
  | Panic p => midi_read b cbs complete order = Panic p
  | Diverge => midi_read b cbs complete order = Diverge
  end.
Proof. exact read_agrees. Qed.
Print Assumptions C84_result.

(** The tracks printed are the file's, as far as it could be read. Of a file cut short the rest is empty. Of a whole
    file the channels printed are the file's, and the end is that of its last channel message. *)
Theorem C84_file : forall b cbs complete order e d, Forall callback_typed cbs -> read_state b cbs complete order = Ok (e, d) ->
  d_tracks d = tracks_of cbs /\ d_tpb d = beat_ticks cbs /\
  (complete = false -> e = Some EMidiRead /\ shows_nothing d) /\
  (complete = true -> file_ok (tracks_of cbs) -> shows_channels b (tracks_of cbs) d /\ file_end (tracks_of cbs) (d_max d)).
Proof. exact dump_file. Qed.
Print Assumptions C84_file.

(** The base voices printed fit the intervals printed. If no base voices fit, the base voices are 0 and the voices empty.
    If a note found no voice, the voices printed show it: for some channel, its base voice and every voice that is no
    channel's base voice end in a note that is still on. *)
Theorem C84_voices : forall b cbs order e d, Forall callback_typed cbs -> (forall k, permutes (order k)) ->
  read_state b cbs true order = Ok (e, d) ->
  (e = None /\ conflict_free (map ch_intervals (d_channels d)) (map ch_base (d_channels d))) \/
  (e = Some ECouldntFit /\ (~ exists base, conflict_free (map ch_intervals (d_channels d)) base) /\
   Forall (fun x => ch_base x = O) (d_channels d) /\ length (d_voices d) = 8%nat /\ Forall (fun l => l = []) (d_voices d)) \/
  (e = Some ECouldntFit /\ conflict_free (map ch_intervals (d_channels d)) (map ch_base (d_channels d)) /\ length (d_voices d) = 8%nat /\
   exists c, (c < 16)%nat /\ forall v, (v < 8)%nat -> (shown_base d c = Some v \/ forall c', shown_base d c' <> Some v) ->
     sounding_after false (nth v (d_voices d) []) = true).
Proof. exact dump_voices. Qed.
Print Assumptions C84_voices.

(** If base voices fit and the music does not, the voices printed hold exactly the notes before the first one that found
    no voice, and no others: the messages printed of the channels, in time order, are [p], that note-on and [q], and the
    notes in the voices are those of [p], up to the re-triggered one, which ends there. *)
Theorem C84_stuck : forall b cbs order e d, Forall callback_typed cbs -> (forall k, permutes (order k)) ->
  read_state b cbs true order = Ok (Some e, d) -> (exists base, conflict_free (map ch_intervals (d_channels d)) base) ->
  exists p dt c k vel t q, interleave (map ch_messages (d_channels d)) (p ++ (MidiEvent dt (NoteOn c k vel), t) :: q) /\ 0 < vel /\ 0 <= c < 16 /\
    StronglySorted not_after (p ++ (MidiEvent dt (NoteOn c k vel), t) :: q) /\
    length (d_voices d) = 8%nat /\ Forall (alternates None) (d_voices d) /\
    Permutation (flat_map voice_notes (d_voices d)) (map drum (notes_in (p ++ [(MidiEvent dt (NoteOff c k vel), t)]))) /\
    forall v, (v < 8)%nat -> (shown_base d (Z.to_nat c) = Some v \/ forall c', shown_base d c' <> Some v) ->
      sounding_after false (nth v (d_voices d) []) = true.
Proof. exact dump_stuck. Qed.
Print Assumptions C84_stuck.

(** The base voices printed are those the verbose lines before end with (C83). *)
Theorem C84_log : forall b cbs order log o d, Forall callback_typed cbs -> (forall k, permutes (order k)) ->
  read_printing b true cbs true order = (log, o) -> read_state b cbs true order = Ok (None, d) ->
  forall c, last_tried c log = shown_base d c.
Proof. exact dump_log. Qed.
Print Assumptions C84_log.

(** One file for each way of ending. *)
Definition two_notes : list callback :=
  [CHeader 1 1 24; CTrackChange; CMidi 0 (NoteOn 0 60 64); CMidi 0 (NoteOn 1 62 64); CMidi 24 (NoteOff 0 60 64); CMidi 0 (NoteOff 1 62 64)].
Definition nine_keys : list callback :=
  CHeader 1 1 24 :: CTrackChange :: map (fun k => CMidi 0 (NoteOn 0 k 64)) [60; 61; 62; 63; 64; 65; 66; 67; 68].
Definition nine_channels : list callback :=
  CHeader 1 1 24 :: CTrackChange :: map (fun c => CMidi 0 (NoteOn c 60 64)) [0; 1; 2; 3; 4; 5; 6; 7; 8] ++
  map (fun c => CMidi 1 (NoteOff c 60 64)) [0; 1; 2; 3; 4; 5; 6; 7; 8].
Definition shown_voices (r : outcome (option error * dump)) : option (option error * list nat * list nat) :=
  match r with Ok (e, d) => Some (e, map ch_base (d_channels d), map (@length _) (d_voices d)) | _ => None end.
Example C84_case :
  shown_voices (read_state Debug two_notes true (fun _ n => n)) = Some (None, 0 :: 1 :: repeat 0 14, [2; 2; 0; 0; 0; 0; 0; 0])%nat /\
  shown_voices (read_state Debug two_notes false (fun _ n => n)) = Some (Some EMidiRead, repeat 0 16, repeat 0 8)%nat /\
  shown_voices (read_state Debug nine_keys true (fun _ n => n)) = Some (Some ECouldntFit, repeat 0 16, repeat 1 8)%nat /\
  shown_voices (read_state Debug nine_channels true (fun _ n => n)) = Some (Some ECouldntFit, repeat 0 16, repeat 0 8)%nat.
Proof. vm_compute. repeat split. Qed.
Example C84_case_typed : Forall callback_typed (two_notes ++ nine_keys ++ nine_channels) /\ file_ok (tracks_of two_notes) /\ file_ok (tracks_of nine_channels).
Proof. split; [repeat constructor; cbn; lia|]. unfold file_ok, track_ok. cbn. repeat constructor; cbn; lia. Qed.
Lemma shown_inv r bs ls e : shown_voices r = Some (e, bs, ls) -> exists d, r = Ok (e, d) /\ map (@length _) (d_voices d) = ls.
Proof. destruct r as [[e' d]| | |]; intros H; try discriminate. injection H as <- _ <-. eauto. Qed.
Lemma nine_keys_typed : Forall callback_typed nine_keys.
Proof. repeat constructor; cbn; lia. Qed.
Example C84_stuck_case : exists d, read_state Debug nine_keys true (fun _ n => n) = Ok (Some ECouldntFit, d) /\
  (exists base, conflict_free (map ch_intervals (d_channels d)) base) /\ map (@length _) (d_voices d) = repeat 1%nat 8.
Proof.
  destruct (shown_inv _ _ _ _ (proj1 (proj2 (proj2 C84_case)))) as (d & E & Hv). exists d. split; [exact E|]. split; [|exact Hv].
  destruct (C84_voices Debug nine_keys (fun _ n => n) _ _ nine_keys_typed (fun _ _ => Permutation_refl _) E) as [(H & _)|[(_ & _ & _ & _ & H0)|(_ & Hc & _)]].
  - discriminate H.
  - exfalso. clear E. destruct (d_voices d) as [|l r]; [discriminate Hv|]. apply Forall_inv in H0. rewrite H0 in Hv. discriminate Hv.
  - eexists. exact Hc.
Qed.

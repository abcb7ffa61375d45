(** PropMidiLog.v: what `-v` prints about the reading of a MIDI file (C83). *)
From Coq Require Import ZArith List Bool Lia ZifyBool ZifyNat Permutation Sorted.
From Verif Require Import Base Messages Midi MidiLog SpecMidi SpecNotes SpecVoices SpecMidiLog MidiLogProofs MidiPossible TotalProofs FileExamples.
Import ListNotations.
Open Scope Z_scope.

(** Asking for the verbose output does not change the result of reading a file; nothing is printed without it. *)
Theorem C83_same_result b verbose cbs complete order :
  snd (read_printing b verbose cbs complete order) = midi_read b cbs complete order /\
  fst (read_printing b false cbs complete order) = [].
Proof. exact (conj (read_same b verbose cbs complete order) (read_quiet b cbs complete order)). Qed.
Print Assumptions C83_same_result.

(** When a file is read, the voice last said to be tried for each of the sixteen channels is one of the eight
    voices and is the channel's own: the notes of a channel that are started in any other voice [v] are, one for one
    and in order, the notes of which it is said that they found their channel's voice occupied and use [v]. Each
    message about an occupied voice is followed by one about the voice used, and lists the own voices of the channels. *)
Theorem C83_told b cbs complete order log h : Forall callback_typed cbs -> (forall k, permutes (order k)) ->
  read_printing b true cbs complete order = (log, Ok h) ->
  (forall c, (c < 16)%nat -> exists v, (v < 8)%nat /\ last_tried c log = Some v) /\
  Forall (fun x => snd x <> None) (told_moves log) /\
  (forall v, told_guests v log = guests (fun c => last_tried c log) v (nth v (h_voices h) [])) /\
  (forall c t bs, In (Occupied c t bs) log -> (c < 16)%nat /\ length bs = 16%nat /\ forall c', nth_error bs c' = last_tried c' log).
Proof. exact (read_told b cbs complete order log h). Qed.
Print Assumptions C83_told.

(** When the reading of a complete file fails, it is because the music does not fit, and the last line printed says
    where: either the empty list of voices possible for a channel, no note having been placed, or the occupied voice
    of the note for which no voice was left, every note before it for which this was said having been given one. *)
Theorem C83_couldnt_fit b cbs order log e : Forall callback_typed cbs -> (forall k, permutes (order k)) ->
  read_printing b true cbs true order = (log, Err e) ->
  e = ECouldntFit /\
  ((exists p, log = p ++ [Possible []] /\ told_moves log = []) \/
   (exists p c t bs, log = p ++ [Occupied c t bs] /\ (c < 16)%nat /\
      (forall c', (c' < 16)%nat -> exists v, (v < 8)%nat /\ last_tried c' log = Some v) /\
      exists l, told_moves log = l ++ [(c, t, None)] /\ Forall (fun x => snd x <> None) l)).
Proof. exact (read_stuck b cbs order log e). Qed.
Print Assumptions C83_couldnt_fit.

(** Each line about an overlap is true, whatever becomes of the file: it is about the channel last said to be
    searched for and an earlier one, named by the line, that was last said to try the voice of the line; and the two
    channels both have notes sounding at some time within the interval of the line. *)
Theorem C83_overlaps b cbs complete order p v e q r : Forall callback_typed cbs -> file_ok (tracks_of cbs) ->
  (b = Debug \/ forall c l, stable_sort_of (file_order (tracks_of cbs) c) l -> balanced l) ->
  read_printing b true cbs complete order = (p ++ Overlaps v e :: q, r) ->
  exists c l l' t, last_searched p = Some c /\ last_tried (i_channel e) p = Some v /\ (i_channel e < c < 16)%nat /\
    stable_sort_of (file_order (tracks_of cbs) c) l /\ stable_sort_of (file_order (tracks_of cbs) (i_channel e)) l' /\
    i_start e <= t < i_end e /\ 0 < sounding l t /\ 0 < sounding l' t.
Proof. exact (read_overlaps b cbs complete order p v e q r). Qed.
Print Assumptions C83_overlaps.

(** Each line about the possible voices is true and complete, whatever becomes of the file. It follows the start of a search
    for a channel, with nothing but lines about overlaps in between. No voice listed was last tried by an earlier channel that
    has notes sounding together with those of this channel. Each of the eight voices that is not listed has a
    line about an overlap, or nothing sounds in it and an earlier voice in which nothing sounds is listed. *)
Theorem C83_possible b cbs complete order p vs q r : Forall callback_typed cbs -> file_ok (tracks_of cbs) ->
  (b = Debug \/ forall c l, stable_sort_of (file_order (tracks_of cbs) c) l -> balanced l) ->
  read_printing b true cbs complete order = (p ++ Possible vs :: q, r) ->
  exists c p0 mid, p = p0 ++ Searching c :: mid /\ (c < 16)%nat /\ (forall x, In x mid -> exists v e, x = Overlaps v e) /\
    StronglySorted lt vs /\ Forall (fun v => (v < 8)%nat) vs /\
    (forall v c' l l', In v vs -> (c' < c)%nat -> last_tried c' p = Some v ->
       stable_sort_of (file_order (tracks_of cbs) c) l -> stable_sort_of (file_order (tracks_of cbs) c') l' ->
       forall t, 0 <= t -> before_end l t -> before_end l' t -> ~ (0 < sounding l t /\ 0 < sounding l' t)) /\
    (forall v, (v < 8)%nat -> ~ In v vs -> (exists e, In (Overlaps v e) mid) \/
       exists w, (w < v)%nat /\ In w vs /\ forall c' l, (c' < c)%nat -> last_tried c' p = Some v \/ last_tried c' p = Some w ->
         stable_sort_of (file_order (tracks_of cbs) c') l -> forall t, 0 <= t -> before_end l t -> ~ 0 < sounding l t).
Proof. exact (read_possible b cbs complete order p vs q r). Qed.
Print Assumptions C83_possible.

(** Two channels sounding together, the first with a chord: the second takes the next voice, the upper note of the
    chord the one after it. *)
Definition told_file : list callback :=
  [CHeader 1 2 24; CTrackChange;
   CMidi 0 (NoteOn 0 60 64); CMidi 12 (NoteOn 0 64 64); CMidi 12 (NoteOff 0 60 64); CMidi 0 (NoteOff 0 64 64);
   CTrackChange; CMidi 0 (NoteOn 1 48 64); CMidi 24 (NoteOff 1 48 64)].
Definition told_result := Eval vm_compute in read_printing Debug true told_file true (fun _ n => n).
Example C83_told_case : exists h,
  read_printing Debug true told_file true (fun _ n => n) = (fst told_result, Ok h) /\
  firstn 9 (fst told_result) = [Reading; Extracting 0; Extracting 1; Searching 0; Possible [0%nat]; Trying 0 0; Searching 1;
    Overlaps 0 (mk_interval 0 12 0 1); Possible [1%nat]] /\
  told_moves (fst told_result) = [(0%nat, 12, Some 2%nat)] /\
  map (fun v => told_guests v (fst told_result)) [0; 1; 2]%nat = [[]; []; [(0%nat, 12)]].
Proof. eexists. split; [vm_compute; reflexivity|]. split; [vm_compute; reflexivity|]. split; vm_compute; reflexivity. Qed.
Example C83_told_typed : Forall callback_typed told_file /\ file_ok (tracks_of told_file).
Proof. split; [repeat constructor; cbn; lia|]. unfold file_ok, track_ok. cbn. repeat constructor; cbn; lia. Qed.

(** Nine notes of one channel at a time, and nine channels. *)
Definition crowd_file : list callback :=
  CHeader 1 1 24 :: CTrackChange :: map (fun k => CMidi 0 (NoteOn 0 k 64)) [60; 61; 62; 63; 64; 65; 66; 67; 68].
Definition nine_file : list callback :=
  CHeader 1 1 24 :: CTrackChange :: map (fun c => CMidi 0 (NoteOn c 60 64)) [0; 1; 2; 3; 4; 5; 6; 7; 8] ++
  map (fun c => CMidi 1 (NoteOff c 60 64)) [0; 1; 2; 3; 4; 5; 6; 7; 8].
Example C83_couldnt_fit_case :
  snd (read_printing Debug true crowd_file true (fun _ n => n)) = Err ECouldntFit /\
  last (fst (read_printing Debug true crowd_file true (fun _ n => n))) Reading = Occupied 0 0 (repeat O 16) /\
  snd (read_printing Debug true nine_file true (fun _ n => n)) = Err ECouldntFit /\
  last (fst (read_printing Debug true nine_file true (fun _ n => n))) Reading = Possible [].
Proof. vm_compute. repeat split. Qed.

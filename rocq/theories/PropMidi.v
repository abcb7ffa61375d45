(** PropMidi.v: properties C11, C15-C23 and C49 (reading a MIDI file and distributing it to voices).
    Specification: SpecMidi.v (tracks, channels, order), SpecNotes.v (notes of channels and voices,
    instruments), SpecVoices.v (sounding times, base voices, reader callbacks). *)
From Coq Require Import ZArith List Permutation Sorted.
From Verif Require Import Base F32 Messages Track Midi SpecMidi SpecNotes SpecVoices
  MergeProofs BaseVoiceProofs LoopProofs VoiceProofs ReadProofs ReadProofs2 InstrProofs TotalProofs MidiExamples.
Open Scope Z_scope.

(** C11: after a successful read no voice's conversion fails with an error value, in either build. *)
Theorem C11_no_second_voice_error :
  forall (b : build) (cbs : list callback) (complete : bool) (order : nat -> notes -> notes) (h : handler),
  Forall callback_typed cbs -> (forall k, permutes (order k)) -> midi_read b cbs complete order = Ok h ->
  forall (events : list tmsg) (b' : build) (tf : f32) (e : error),
  In events (h_voices h) -> track_new b' events (h_ticks_per_beat h) (h_max_time h) tf <> Err e.
Proof. intros b cbs complete order h H1 H2 H3 events b' tf e Hin. exact (read_then_convert b cbs complete order h H1 H2 H3 events b' tf Hin e). Qed.
Print Assumptions C11_no_second_voice_error.
Example C11_case : Forall callback_typed good_file /\ exists h, midi_read Debug good_file true id_order = Ok h.
Proof. split; [exact good_typed|]. destruct good_reads as (h & H & _). exists h. exact H. Qed.

(** C15: the reader's callbacks become one list of messages per track... *)
Theorem C15_tracks_collected :
  forall (b : build) (cbs : list callback) (complete : bool) (order : nat -> notes -> notes) (h : handler),
  midi_read b cbs complete order = Ok h ->
  complete = true /\ format1 false cbs = true /\
  exists tpb, ofold on_callback cbs (mk_rstate [] 0) = Ok (mk_rstate (tracks_of cbs) tpb).
Proof. exact read_ok_tracks. Qed.
Print Assumptions C15_tracks_collected.
(** ... and the merge gives each of sixteen channels exactly its messages, stably sorted. *)
Theorem C15_merge_exact :
  forall (b : build) (ts : list (list message)),
  file_ok ts ->
  exists chs, tracks_to_channels b ts = Ok chs /\ length chs = 16%nat /\
    forall c, stable_sort_of (file_order ts c) (nth c chs []).
Proof. exact merge_ok. Qed.
Print Assumptions C15_merge_exact.
(** In a build with overflow checks the hypothesis holds whenever the merge succeeds. *)
Theorem C15_merge_debug :
  forall (ts : list (list message)) (chs : list (list tmsg)),
  Forall (Forall (fun m => 0 <= delta m /\ match addressee m with Some a => 0 <= a | None => True end)) ts ->
  tracks_to_channels Debug ts = Ok chs -> file_ok ts.
Proof. exact merge_debug_ok. Qed.
Print Assumptions C15_merge_debug.
Example C15_case : file_ok (tracks_of good_file) /\ length (tracks_of good_file) = 3%nat /\
  map fst (file_order (tracks_of good_file) 3) = [MidiEvent 6 (NoteOn 3 50 64); MidiEvent 6 (NoteOff 3 50 64)].
Proof. split; [exact good_file_ok|]. split; reflexivity. Qed.

(** C16: for any intervals, channels sharing a voice never sound together. *)
Theorem C16_base_voices_sound :
  forall (chs : list (list interval)) (base : list nat),
  find_base_voices chs (repeat [] 8) = Some base -> conflict_free chs base.
Proof. exact base_sound. Qed.
Print Assumptions C16_base_voices_sound.
(** C16: in terms of the file's messages: at no time are two channels sharing a voice both sounding. A release
    build counts wrongly when a channel has more note-offs than note-ons, so there the channels must be balanced. *)
Theorem C16_channels_sound :
  forall (b : build) (ts : list (list message)) (chs : list (list tmsg)) ivs mx base i j ci cj v t,
  Forall (Forall message_typed) ts -> tracks_to_channels b ts = Ok chs -> all_intervals b chs 0 0 = Ok (ivs, mx) ->
  find_base_voices ivs (repeat [] 8) = Some base ->
  i <> j -> nth_error chs i = Some ci -> nth_error chs j = Some cj -> b = Debug \/ balanced ci /\ balanced cj -> nth_error base i = Some v -> nth_error base j = Some v ->
  0 <= t -> before_end ci t -> before_end cj t -> ~ (0 < sounding ci t /\ 0 < sounding cj t).
Proof. exact base_voices_sound. Qed.
Print Assumptions C16_channels_sound.
(** C16, the condition is needed: in a release build a stray note-off on channel 0 makes the count wrong, and
    channels 0 and 1, which both play from 10 to 20, share voice 0. *)
Theorem C16_release_refuted : exists ts chs ivs mx base,
  Forall (Forall message_typed) ts /\ tracks_to_channels Release ts = Ok chs /\ all_intervals Release chs 0 0 = Ok (ivs, mx) /\
  find_base_voices ivs (repeat [] 8) = Some base /\
  nth_error chs 0 = Some [(MidiEvent 5 (NoteOff 0 60 0), 5); (MidiEvent 5 (NoteOn 0 60 100), 10); (MidiEvent 10 (NoteOff 0 60 0), 20)] /\
  nth_error chs 1 = Some [(MidiEvent 10 (NoteOn 1 64 100), 10); (MidiEvent 10 (NoteOff 1 64 0), 20)] /\
  nth_error base 0 = Some 0%nat /\ nth_error base 1 = Some 0%nat.
Proof. exact stray_shares. Qed.
Print Assumptions C16_release_refuted.
Example C16_case : find_base_voices
  [[mk_interval 0 10 0 1]; [mk_interval 5 15 1 2]; [mk_interval 10 20 2 1]; [mk_interval 0 5 3 1]] (repeat [] 8) =
  Some [0; 1; 0; 1]%nat.
Proof. reflexivity. Qed.

(** C17: when the search gives up, no conflict-free assignment exists. *)
Theorem C17_base_voices_complete :
  forall (chs : list (list interval)),
  Forall proper chs -> find_base_voices chs (repeat [] 8) = None -> ~ exists base, conflict_free chs base.
Proof. exact base_complete. Qed.
Print Assumptions C17_base_voices_complete.
(** C17: and the intervals taken from a file are proper, so this applies to every file. *)
Theorem C17_channels_complete :
  forall (b : build) (ts : list (list message)) (chs : list (list tmsg)) ivs mx,
  Forall (Forall message_typed) ts -> tracks_to_channels b ts = Ok chs -> all_intervals b chs 0 0 = Ok (ivs, mx) ->
  find_base_voices ivs (repeat [] 8) = None -> ~ exists base, conflict_free ivs base.
Proof. exact base_voices_complete. Qed.
Print Assumptions C17_channels_complete.
Example C17_case : Forall proper (map (fun c => [mk_interval 0 10 c 1]) (seq 0 9)) /\
  find_base_voices (map (fun c => [mk_interval 0 10 c 1]) (seq 0 9)) (repeat [] 8) = None.
Proof. split; [repeat constructor|vm_compute; reflexivity]. Qed.

(** C18: in each of the eight voices note-ons and note-offs alternate, and a note-off is for the note sounding. *)
Theorem C18_voices_alternate :
  forall (b : build) (cbs : list callback) (complete : bool) (order : nat -> notes -> notes) (h : handler),
  Forall callback_typed cbs -> (forall k, permutes (order k)) -> midi_read b cbs complete order = Ok h ->
  length (h_voices h) = 8%nat /\ Forall (alternates None) (h_voices h) /\ Forall (StronglySorted time_le) (h_voices h).
Proof. exact read_voices. Qed.
Print Assumptions C18_voices_alternate.
(** C18, for any channels and any base voices. *)
Theorem C18_distribution_alternates :
  forall (chs : list (list tmsg)) (base : list nat) (order : nat -> notes -> notes) (voices : list (list tmsg)),
  channels_ok chs -> base_ok base -> (forall k, permutes (order k)) -> channels_to_voices chs base order = Ok voices ->
  length voices = 8%nat /\ Forall (alternates None) voices /\
  Permutation (flat_map voice_notes voices) (map drum (flat_map channel_notes chs)).
Proof. exact distribution. Qed.
Print Assumptions C18_distribution_alternates.
Example C18_case : exists h, midi_read Debug good_file true id_order = Ok h /\
  length (filter (fun v => negb (is_nil v)) (h_voices h)) = 3%nat /\ length (flat_map voice_notes (h_voices h)) = 7%nat.
Proof. exact good_reads. Qed.

(** C19: the notes of the eight voices are, as a multiset, exactly the notes of the file: each with its own
    channel, key, velocity, start and end. (The key is mapped on the percussion channel, see C23.) *)
Theorem C19_notes_conserved :
  forall (b : build) (cbs : list callback) (complete : bool) (order : nat -> notes -> notes) (h : handler),
  Forall callback_typed cbs -> (forall k, permutes (order k)) -> file_ok (tracks_of cbs) ->
  midi_read b cbs complete order = Ok h ->
  exists notes, file_notes (tracks_of cbs) notes /\ Permutation (flat_map voice_notes (h_voices h)) (map drum notes).
Proof. exact read_conserves. Qed.
Print Assumptions C19_notes_conserved.
(** C19: a failure is genuine: no base voices, or a note-on at whose time (after ending an equal note) its
    channel's base voice and every voice that is nobody's base voice are sounding. *)
Theorem C19_failure_genuine :
  forall (b : build) (cbs : list callback) (order : nat -> notes -> notes) (e : error),
  Forall callback_typed cbs -> (forall k, permutes (order k)) -> midi_read b cbs true order = Err e ->
  e = ECouldntFit /\ exists chs ivs mx, tracks_to_channels b (tracks_of cbs) = Ok chs /\ all_intervals b chs 0 0 = Ok (ivs, mx) /\
  (find_base_voices ivs (repeat [] 8) = None \/
   exists base p d c k vel t q s, find_base_voices ivs (repeat [] 8) = Some base /\
     interleave chs (p ++ (MidiEvent d (NoteOn c k vel), t) :: q) /\ 0 < vel /\
     ofold (voice_step base (fun n => n)) (p ++ [(MidiEvent d (NoteOff c k vel), t)]) (vstate0 base) = Ok s /\
     forall v, (v < 8)%nat -> (v = nth (Z.to_nat c) base 0%nat \/ ~ In v base) ->
       sounding_after false (nth v (v_voices s) []) = true).
Proof. exact read_failure. Qed.
Print Assumptions C19_failure_genuine.
Example C19_failure_case : midi_read Debug nine true id_order = Err ECouldntFit.
Proof. exact nine_fails. Qed.

(** C20: time order holds for every file: see [C18_voices_alternate]. At equal times a note-off precedes a
    note-on unless a key is struck twice at one tick in one channel. *)
Theorem C20_offs_before_ons_partial :
  forall (b : build) (cbs : list callback) (complete : bool) (order : nat -> notes -> notes) (h : handler),
  Forall callback_typed cbs -> (forall k, permutes (order k)) -> file_ok (tracks_of cbs) ->
  (forall c, NoDup (hits (file_order (tracks_of cbs) c))) ->
  midi_read b cbs complete order = Ok h -> Forall offs_before_ons (h_voices h).
Proof. exact read_offs. Qed.
Print Assumptions C20_offs_before_ons_partial.
Theorem C20_double_hit_refuted :
  exists h, midi_read Debug double_hit true id_order = Ok h /\
  nth 0 (h_voices h) [] =
    [(MidiEvent 0 (NoteOn 0 60 100), 0); (MidiEvent 0 (NoteOff 0 60 90), 0);
     (MidiEvent 0 (NoteOn 0 60 90), 0); (MidiEvent 48 (NoteOff 0 60 0), 48)].
Proof. exact double_hit_voice. Qed.
Print Assumptions C20_double_hit_refuted.

(** C21: any two choices of iteration order, at every step, give the same outcome. *)
Theorem C21_order_irrelevant :
  forall (b : build) (cbs : list callback) (complete : bool) (o1 o2 : nat -> notes -> notes),
  (forall k, permutes (o1 k)) -> (forall k, permutes (o2 k)) ->
  midi_read b cbs complete o1 = midi_read b cbs complete o2.
Proof. exact read_order_irrelevant. Qed.
Print Assumptions C21_order_irrelevant.
Example C21_case : permutes (fun n => rev n) /\
  midi_read Debug chords true (fun _ n => rev n) = midi_read Debug chords true id_order.
Proof. split; [intros n; symmetry; apply Permutation_rev|vm_compute; reflexivity]. Qed.

(** C22 for melodic channels: the last program change before the note is its channel's own current one if it is on the channel's base voice
    and that voice is shared only with channels that send no program changes, or on another voice and the
    channel's program changes all come before its first note. Missing: the other cases, where it is false. *)
Theorem C22_own_instrument_partial :
  forall (chs : list (list tmsg)) (base : list nat) (order : nat -> notes -> notes) (voices : list (list tmsg)) c v l1 d k vel t l2 p,
  channels_ok chs -> base_ok base -> (forall j, permutes (order j)) -> channels_to_voices chs base order = Ok voices ->
  0 <= c < 16 -> c <> 9 ->
  nth v voices [] = l1 ++ (MidiEvent d (NoteOn c k vel), t) :: l2 ->
  program_at (nth (Z.to_nat c) chs []) t = Some p ->
  (if Nat.eqb v (nth (Z.to_nat c) base 0%nat) then quiet_sharers chs base (Z.to_nat c)
   else programs_first (nth (Z.to_nat c) chs [])) ->
  last_program l1 = Some p.
Proof. exact own_instrument. Qed.
Print Assumptions C22_own_instrument_partial.
Example C22_case : channels_ok good_channels /\ base_ok good_base /\
  quiet_sharers good_channels good_base 1 /\ programs_first (nth 0 good_channels []) /\
  exists voices, channels_to_voices good_channels good_base id_order = Ok voices /\
  map (map fst) (firstn 5 voices) =
    [[MidiEvent 0 (ProgramChange 0 5); MidiEvent 0 (NoteOn 0 60 100); MidiEvent 0 (NoteOff 0 60 0)];
     [MidiEvent 0 (ProgramChange 1 7); MidiEvent 0 (NoteOn 1 67 90); MidiEvent 0 (NoteOff 1 67 0);
      MidiEvent 0 (ProgramChange 1 9); MidiEvent 0 (NoteOn 1 67 90); MidiEvent 0 (NoteOff 1 67 0)];
     [MidiEvent 0 (ProgramChange 9 19); MidiEvent 0 (NoteOn 9 68 100); MidiEvent 0 (NoteOff 9 68 0);
      MidiEvent 0 (ProgramChange 9 12); MidiEvent 0 (NoteOn 9 49 100); MidiEvent 0 (NoteOff 9 49 0)];
     [];
     [MidiEvent 0 (ProgramChange 0 5); MidiEvent 0 (NoteOn 0 64 100); MidiEvent 0 (NoteOff 0 64 0)]].
Proof. split; [exact good_channels_ok|]. split; [exact good_base_ok|]. split; [apply good_sharers|]. split; [apply good_sharers|]. exact good_channels_case. Qed.
(** C22 is false when two channels take turns on a voice: channel 0 (program 5) plays with program 7. *)
Theorem C22_shared_voice_refuted :
  exists h, midi_read Debug turns true id_order = Ok h /\
  nth 0 (h_voices h) [] =
    [(MidiEvent 0 (ProgramChange 0 5), 0); (MidiEvent 0 (ProgramChange 1 7), 0);
     (MidiEvent 0 (NoteOn 0 60 100), 0); (MidiEvent 10 (NoteOff 0 60 0), 10);
     (MidiEvent 0 (ProgramChange 1 7), 20); (MidiEvent 10 (NoteOn 1 64 90), 20); (MidiEvent 10 (NoteOff 1 64 0), 30)].
Proof. exact turns_voice. Qed.
Print Assumptions C22_shared_voice_refuted.
(** C22 is false for a second voice of a channel: the chord at time 20 follows program change 6, but the
    upper note still plays with program 5. *)
Theorem C22_stale_voice_refuted :
  exists h, midi_read Debug chords true id_order = Ok h /\
  nth 1 (h_voices h) [] =
    [(MidiEvent 0 (ProgramChange 0 5), 0); (MidiEvent 0 (NoteOn 0 64 100), 0); (MidiEvent 0 (NoteOff 0 64 0), 10);
     (MidiEvent 0 (NoteOn 0 64 100), 20); (MidiEvent 0 (NoteOff 0 64 0), 30)].
Proof. exact chords_voice. Qed.
Print Assumptions C22_stale_voice_refuted.

(** C23: percussion keys are always mapped ([drum] in [C19_notes_conserved]). The instrument is right when all
    percussion notes are on the percussion base voice and no channel using that voice changes program. *)
Theorem C23_percussion_partial :
  forall (chs : list (list tmsg)) (base : list nat) (order : nat -> notes -> notes) (voices : list (list tmsg)) v l1 d k vel t l2,
  channels_ok chs -> base_ok base -> (forall j, permutes (order j)) -> channels_to_voices chs base order = Ok voices ->
  (forall i, (i < 16)%nat -> nth i base 0%nat = nth 9 base 0%nat -> last_program (nth i chs []) = None) ->
  (forall w d' k' vel' t', In (MidiEvent d' (NoteOn 9 k' vel'), t') (nth w voices []) -> w = nth 9 base 0%nat) ->
  nth v voices [] = l1 ++ (MidiEvent d (NoteOn 9 k vel), t) :: l2 ->
  exists k0, In (MidiEvent d (NoteOn 9 k0 vel), t) (nth 9 chs []) /\ drum_key 9 k0 = k /\
    last_program l1 = Some (9, drum_instrument k0).
Proof. exact own_percussion. Qed.
Print Assumptions C23_percussion_partial.
(** C23 is false in general: after a cymbal and a snare together, a snare on the first voice plays with the
    cymbal's instrument (12); and a velocity-0 note-off keeps the original key (38 instead of 68). *)
Theorem C23_overlap_refuted :
  exists h, midi_read Debug drums true id_order = Ok h /\
  nth 0 (h_voices h) [] =
    [(MidiEvent 0 (ProgramChange 9 12), 0); (MidiEvent 0 (NoteOn 9 49 100), 0); (MidiEvent 10 (NoteOff 9 49 0), 10);
     (MidiEvent 10 (NoteOn 9 68 100), 20); (MidiEvent 10 (NoteOff 9 38 0), 30)].
Proof. exact drums_voice. Qed.
Print Assumptions C23_overlap_refuted.

(** C49: reading a format-1 file gives voices or the "couldn't fit" error: in a release build for every file,
    with overflow checks for files whose channels never switch off more notes than are on. *)
Theorem C49_read_total_partial :
  forall (cbs : list callback) (order : nat -> notes -> notes),
  Forall callback_typed cbs -> (forall k, permutes (order k)) -> format1 false cbs = true ->
  file_ok (tracks_of cbs) -> (forall c l, stable_sort_of (file_order (tracks_of cbs) c) l -> balanced l) ->
  (exists h, midi_read Debug cbs true order = Ok h) \/ midi_read Debug cbs true order = Err ECouldntFit.
Proof. exact read_total_debug. Qed.
Print Assumptions C49_read_total_partial.
Theorem C49_read_total_release :
  forall (cbs : list callback) (order : nat -> notes -> notes),
  Forall callback_typed cbs -> (forall k, permutes (order k)) -> format1 false cbs = true ->
  Forall (Forall channel_ok) (tracks_of cbs) ->
  (exists h, midi_read Release cbs true order = Ok h) \/ midi_read Release cbs true order = Err ECouldntFit.
Proof. exact read_total_release. Qed.
Print Assumptions C49_read_total_release.
(** C49: a single unmatched note-off crashes the checked build. *)
Theorem C49_stray_note_off_refuted : midi_read Debug stray_off true id_order = Panic POverflow.
Proof. exact stray_crashes. Qed.
Print Assumptions C49_stray_note_off_refuted.

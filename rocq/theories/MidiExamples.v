(** MidiExamples.v: concrete files for PropMidi.v: a well-behaved one, and the counterexamples. *)
From Coq Require Import ZArith List Bool Permutation Sorted Lia ZifyBool.
From Verif Require Import Base Messages Track Midi SpecMidi SpecNotes SpecVoices.
Open Scope Z_scope.

Definition head1 : callback := CHeader 1 2 96.
Definition midi (d : Z) (e : midi_event) : callback := CMidi d e.
Definition id_order : nat -> notes -> notes := fun _ n => n.
Lemma id_permutes k : permutes (id_order k).
Proof. intros n. reflexivity. Qed.

(** Two tracks, three channels, a chord, a retriggered note, a velocity-0 note-off, percussion. *)
Definition good_file : list callback :=
  [head1; CTrackChange; CMeta 0 SetTempo [7; 161; 32];
   CTrackChange; midi 0 (ProgramChange 0 40); midi 0 (NoteOn 0 60 100); midi 0 (NoteOn 0 64 90);
   midi 48 (NoteOff 0 60 0); midi 0 (NoteOn 0 62 80); midi 48 (NoteOn 0 62 0); midi 0 (NoteOff 0 64 0);
   midi 10 (ControlChange 0 7 90);
   CTrackChange; midi 0 (NoteOn 9 38 100); midi 24 (NoteOff 9 38 0); midi 0 (NoteOn 9 49 100); midi 24 (NoteOn 9 49 70);
   midi 24 (NoteOff 9 49 0); midi 6 (NoteOn 3 50 64); midi 6 (NoteOff 3 50 64)].
Lemma good_typed : Forall callback_typed good_file.
Proof. repeat constructor; cbn; auto; lia. Qed.
Lemma good_format : format1 false good_file = true. Proof. reflexivity. Qed.
Lemma good_file_ok : file_ok (tracks_of good_file).
Proof.
  unfold file_ok.
  assert (H : forallb (fun tr => forallb (fun x => match addressee (fst x) with Some c => (0 <=? c) && (c <? 16) | None => true end
     && (0 <=? delta (fst x)) && (0 <=? snd x) && (snd x <? 2 ^ 32)) (timed 0 tr)) (tracks_of good_file) = true) by reflexivity.
  apply Forall_forall. intros tr Htr. rewrite forallb_forall in H. specialize (H tr Htr). rewrite forallb_forall in H.
  apply Forall_forall. intros x Hx. specialize (H x Hx). unfold channel_ok. destruct (addressee (fst x)); lia.
Qed.
Definition good_voices : option (list (list tmsg)) :=
  match midi_read Debug good_file true id_order with Ok h => Some (h_voices h) | _ => None end.
Lemma good_reads : exists h, midi_read Debug good_file true id_order = Ok h /\
  length (filter (fun v => negb (is_nil v)) (h_voices h)) = 3%nat /\
  length (flat_map voice_notes (h_voices h)) = 7%nat.
Proof. eexists. split; [vm_compute; reflexivity|]. split; vm_compute; reflexivity. Qed.

(** C16: a stray note-off before the notes of channel 0. *)
Definition stray_tracks : list (list message) :=
  [[MidiEvent 5 (NoteOff 0 60 0); MidiEvent 5 (NoteOn 0 60 100); MidiEvent 10 (NoteOff 0 60 0)];
   [MidiEvent 10 (NoteOn 1 64 100); MidiEvent 10 (NoteOff 1 64 0)]].
Lemma stray_shares : exists ts chs ivs mx base,
  Forall (Forall message_typed) ts /\ tracks_to_channels Release ts = Ok chs /\ all_intervals Release chs 0 0 = Ok (ivs, mx) /\
  find_base_voices ivs (repeat [] 8) = Some base /\
  nth_error chs 0 = Some [(MidiEvent 5 (NoteOff 0 60 0), 5); (MidiEvent 5 (NoteOn 0 60 100), 10); (MidiEvent 10 (NoteOff 0 60 0), 20)] /\
  nth_error chs 1 = Some [(MidiEvent 10 (NoteOn 1 64 100), 10); (MidiEvent 10 (NoteOff 1 64 0), 20)] /\
  nth_error base 0 = Some 0%nat /\ nth_error base 1 = Some 0%nat.
Proof.
  exists stray_tracks. eexists. eexists. eexists. eexists. split; [repeat constructor; cbn; auto; lia|].
  split; [vm_compute; reflexivity|]. split; [vm_compute; reflexivity|]. split; [vm_compute; reflexivity|]. repeat split; reflexivity.
Qed.

(** C20: a key struck twice at one tick. *)
Definition double_hit : list callback :=
  [head1; CTrackChange; midi 0 (NoteOn 0 60 100); midi 0 (NoteOn 0 60 90); midi 48 (NoteOff 0 60 0)].
Lemma double_hit_voice : exists h, midi_read Debug double_hit true id_order = Ok h /\
  nth 0 (h_voices h) [] =
    [(MidiEvent 0 (NoteOn 0 60 100), 0); (MidiEvent 0 (NoteOff 0 60 90), 0);
     (MidiEvent 0 (NoteOn 0 60 90), 0); (MidiEvent 48 (NoteOff 0 60 0), 48)].
Proof. eexists. split; vm_compute; reflexivity. Qed.

(** C22: two channels that take turns, their programs set at the start. *)
Definition turns : list callback :=
  [head1; CTrackChange; midi 0 (ProgramChange 0 5); midi 0 (ProgramChange 1 7);
   midi 0 (NoteOn 0 60 100); midi 10 (NoteOff 0 60 0); midi 10 (NoteOn 1 64 90); midi 10 (NoteOff 1 64 0)].
Lemma turns_voice : exists h, midi_read Debug turns true id_order = Ok h /\
  nth 0 (h_voices h) [] =
    [(MidiEvent 0 (ProgramChange 0 5), 0); (MidiEvent 0 (ProgramChange 1 7), 0);
     (MidiEvent 0 (NoteOn 0 60 100), 0); (MidiEvent 10 (NoteOff 0 60 0), 10);
     (MidiEvent 0 (ProgramChange 1 7), 20); (MidiEvent 10 (NoteOn 1 64 90), 20); (MidiEvent 10 (NoteOff 1 64 0), 30)].
Proof. eexists. split; vm_compute; reflexivity. Qed.

(** C22: one channel playing chords and changing program between them. *)
Definition chords : list callback :=
  [head1; CTrackChange; midi 0 (ProgramChange 0 5); midi 0 (NoteOn 0 60 100); midi 0 (NoteOn 0 64 100);
   midi 10 (NoteOff 0 60 0); midi 0 (NoteOff 0 64 0); midi 10 (ProgramChange 0 6);
   midi 0 (NoteOn 0 60 100); midi 0 (NoteOn 0 64 100); midi 10 (NoteOff 0 60 0); midi 0 (NoteOff 0 64 0)].
Lemma chords_voice : exists h, midi_read Debug chords true id_order = Ok h /\
  nth 1 (h_voices h) [] =
    [(MidiEvent 0 (ProgramChange 0 5), 0); (MidiEvent 0 (NoteOn 0 64 100), 0); (MidiEvent 0 (NoteOff 0 64 0), 10);
     (MidiEvent 0 (NoteOn 0 64 100), 20); (MidiEvent 0 (NoteOff 0 64 0), 30)].
Proof. eexists. split; vm_compute; reflexivity. Qed.

(** C23: a cymbal and a snare together, then a snare alone. *)
Definition drums : list callback :=
  [head1; CTrackChange; midi 0 (NoteOn 9 49 100); midi 0 (NoteOn 9 38 100);
   midi 10 (NoteOff 9 49 0); midi 0 (NoteOff 9 38 0); midi 10 (NoteOn 9 38 100); midi 10 (NoteOn 9 38 0)].
Lemma drums_voice : exists h, midi_read Debug drums true id_order = Ok h /\
  nth 0 (h_voices h) [] =
    [(MidiEvent 0 (ProgramChange 9 12), 0); (MidiEvent 0 (NoteOn 9 49 100), 0); (MidiEvent 10 (NoteOff 9 49 0), 10);
     (MidiEvent 10 (NoteOn 9 68 100), 20); (MidiEvent 10 (NoteOff 9 38 0), 30)].
Proof. eexists. split; vm_compute; reflexivity. Qed.

(** C49: a note-off for a note that is not sounding. *)
Definition stray_off : list callback :=
  [head1; CTrackChange; midi 0 (NoteOff 0 60 0); midi 0 (NoteOn 0 60 100); midi 10 (NoteOff 0 60 0)].
Lemma stray_crashes : midi_read Debug stray_off true id_order = Panic POverflow.
Proof. vm_compute. reflexivity. Qed.

(** C19: nine simultaneous notes. *)
Definition nine : list callback :=
  [head1; CTrackChange] ++ map (fun k => midi 0 (NoteOn 0 k 100)) [60; 61; 62; 63; 64; 65; 66; 67; 68].
Lemma nine_fails : midi_read Debug nine true id_order = Err ECouldntFit.
Proof. vm_compute. reflexivity. Qed.

(** Channels for C22 and C23: an unshared channel with a program change during the piece, chords with the
    program set first, and percussion. *)
Definition good_channels : list (list tmsg) :=
  [[(MidiEvent 0 (ProgramChange 0 5), 0); (MidiEvent 0 (NoteOn 0 60 100), 0); (MidiEvent 0 (NoteOn 0 64 100), 0);
    (MidiEvent 0 (NoteOff 0 60 0), 40); (MidiEvent 0 (NoteOff 0 64 0), 40)];
   [(MidiEvent 0 (ProgramChange 1 7), 0); (MidiEvent 0 (NoteOn 1 67 90), 0); (MidiEvent 0 (NoteOff 1 67 0), 20);
    (MidiEvent 0 (ProgramChange 1 9), 30); (MidiEvent 0 (NoteOn 1 67 90), 30); (MidiEvent 0 (NoteOff 1 67 0), 40)];
   []; []; []; []; []; []; [];
   [(MidiEvent 0 (NoteOn 9 38 100), 0); (MidiEvent 0 (NoteOff 9 38 0), 10); (MidiEvent 0 (NoteOn 9 49 100), 10);
    (MidiEvent 0 (NoteOff 9 49 0), 20)];
   []; []; []; []; []; []].
Definition good_base : list nat := [0; 1; 3; 3; 3; 3; 3; 3; 3; 2; 3; 3; 3; 3; 3; 3]%nat.
Lemma good_channels_ok : channels_ok good_channels.
Proof.
  split; [reflexivity|]. split; [|split].
  - assert (H : forallb (forallb (fun x => match addressee (fst x) with Some c => (0 <=? c) && (c <? 16) | None => true end
       && (0 <=? snd x) && (snd x <? 2 ^ 32) && match fst x with MidiEvent _ (NoteOn _ _ v) => 0 <=? v | _ => true end)) good_channels = true)
      by reflexivity.
    apply Forall_forall. intros l Hl. rewrite forallb_forall in H. specialize (H l Hl). rewrite forallb_forall in H.
    apply Forall_forall. intros x Hx. specialize (H x Hx). unfold typed, channel_ok.
    destruct (addressee (fst x)), (fst x) as [|? []| |]; repeat split; try lia.
  - unfold good_channels.
    assert (Hna : forall x y, (snd x <? snd y) || ((snd x =? snd y) && (rank (fst x) <=? rank (fst y))) = true -> not_after x y).
    { intros x y. unfold not_after. rewrite orb_true_iff, andb_true_iff, Z.ltb_lt, Z.eqb_eq, Z.leb_le. tauto. }
    repeat (apply Forall_cons; [repeat (apply SSorted_cons; [|repeat (apply Forall_cons; [apply Hna; reflexivity|]); apply Forall_nil]); apply SSorted_nil|]).
    apply Forall_nil.
  - assert (H : forallb (fun c => forallb (for_channel c) (nth c good_channels [])) (seq 0 16) = true) by reflexivity.
    intros c r x Hc Hx. rewrite forallb_forall in H.
    assert (Hlt : (c < 16)%nat) by (apply (nth_error_Some good_channels c); congruence).
    specialize (H c). rewrite (nth_error_nth _ _ [] Hc), forallb_forall in H. apply H; [apply in_seq; lia|exact Hx].
Qed.
Lemma good_base_ok : base_ok good_base.
Proof. split; [reflexivity|]. unfold good_base. repeat constructor. Qed.
Lemma good_channels_case : exists voices, channels_to_voices good_channels good_base id_order = Ok voices /\
  map (map fst) (firstn 5 voices) =
    [[MidiEvent 0 (ProgramChange 0 5); MidiEvent 0 (NoteOn 0 60 100); MidiEvent 0 (NoteOff 0 60 0)];
     [MidiEvent 0 (ProgramChange 1 7); MidiEvent 0 (NoteOn 1 67 90); MidiEvent 0 (NoteOff 1 67 0);
      MidiEvent 0 (ProgramChange 1 9); MidiEvent 0 (NoteOn 1 67 90); MidiEvent 0 (NoteOff 1 67 0)];
     [MidiEvent 0 (ProgramChange 9 19); MidiEvent 0 (NoteOn 9 68 100); MidiEvent 0 (NoteOff 9 68 0);
      MidiEvent 0 (ProgramChange 9 12); MidiEvent 0 (NoteOn 9 49 100); MidiEvent 0 (NoteOff 9 49 0)];
     [];
     [MidiEvent 0 (ProgramChange 0 5); MidiEvent 0 (NoteOn 0 64 100); MidiEvent 0 (NoteOff 0 64 0)]].
Proof. eexists. split; vm_compute; reflexivity. Qed.
Lemma good_sharers : quiet_sharers good_channels good_base 1 /\ programs_first (nth 0 good_channels []).
Proof.
  split.
  - intros i Hi Hne Hb. do 16 (destruct i as [|i]; [first [discriminate Hb | congruence | split; [reflexivity|intros; reflexivity || discriminate]]|]). lia.
  - cbn [nth good_channels]. intros l1 x l2 E Hx. destruct l1 as [|a l1]; cbn in E; injection E as E1 E; subst.
    + discriminate.
    + assert (HF : Forall (fun y : tmsg => is_pc (fst y) = false) (l1 ++ x :: l2)) by (rewrite <- E; repeat constructor).
      apply Forall_app in HF. destruct HF as [_ HF]. inversion HF; assumption.
Qed.

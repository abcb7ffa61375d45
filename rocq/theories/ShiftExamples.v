(** ShiftExamples.v: files with a finer time base and transposed files (for C68 and C69). *)
From Coq Require Import ZArith List Bool Lia ZifyBool ZifyNat String.
From Verif Require Import Base ProofLib F32 Messages Command Track SeqTree Song Paths Manifest Midi Json Cli SpecMidi SpecNotes SpecVoices SpecVoice SpecNspc
  SpecLoop SpecFile SpecHeard SpecSame SpecShift MidiExamples MergeProofs InstrProofs FileExamples SettingExamples SameProofs SameExamples.
Open Scope Z_scope.
Open Scope list_scope.

(** ** Building the second file from the first *)
Definition rescore (d k : Z) (c : callback) : callback :=
  match c with
  | CHeader f t tpb => CHeader f t (k * tpb)
  | CMeta t e data => CMeta (k * t) e data
  | CMidi t e => CMidi (k * t) (match e with NoteOff c n v => NoteOff c (n + d) v | NoteOn c n v => NoteOn c (n + d) v | _ => e end)
  | CSysEx t e data => CSysEx (k * t) e data
  | x => x
  end.
Definition tracks_b (P : message -> bool) (ts : list (list message)) : bool := forallb (forallb P) ts.
Lemma tracks_b_ok P (Q : message -> Prop) ts : (forall m, P m = true -> Q m) -> tracks_b P ts = true -> Forall (Forall Q) ts.
Proof.
  intros HP H. apply Forall_forall. intros t Ht. apply Forall_forall. intros m Hm. unfold tracks_b in H. rewrite forallb_forall in H. specialize (H t Ht).
  rewrite forallb_forall in H. apply HP, H, Hm.
Qed.
Definition key_b (m : message) : bool := match key_of m with Some n => (0 <=? n) && (n <? 128) | None => true end.
Lemma keys_valid_b cbs : tracks_b key_b (tracks_of cbs) = true -> keys_valid cbs.
Proof. apply tracks_b_ok. intros m H n E. unfold key_b in H. rewrite E in H. lia. Qed.
Lemma no_portamento_b cbs : tracks_b (fun m => negb (switches_on m)) (tracks_of cbs) = true -> no_portamento cbs.
Proof. apply tracks_b_ok. intros m H. now destruct (switches_on m). Qed.
Lemma no_drums_b cbs : tracks_b (fun m => negb (drum_note m)) (tracks_of cbs) = true -> no_drums cbs.
Proof. apply tracks_b_ok. intros m H. now destruct (drum_note m). Qed.
Definition before_b (n : Z) (cbs : list callback) : bool := forallb (fun x => snd x <? n) (flat_map (timed 0) (tracks_of cbs)).
Lemma before_b_ok n cbs : before_b n cbs = true -> forall x, In x (flat_map (timed 0) (tracks_of cbs)) -> snd x < n.
Proof. intros H x Hx. unfold before_b in H. rewrite forallb_forall in H. specialize (H x Hx). lia. Qed.
Ltac easy_file := split; [reflexivity|]; split; [repeat constructor; cbn; lia|]; apply file_ok_b_ok; vm_compute; reflexivity.
Ltac easy_tracks :=
  match goal with |- Forall2 ?R ?a ?c => let a' := eval vm_compute in a in let c' := eval vm_compute in c in change (Forall2 R a' c') end;
  repeat (apply Forall2_cons; [vm_compute; reflexivity|]); apply Forall2_nil.
Lemma rescored_b d k e cbs1 cbs2 : beat_ticks cbs2 = k * beat_ticks cbs1 ->
  forallb (fun u => u <=? e) (channel_times (tracks_of cbs1)) = true -> existsb (Z.eqb e) (channel_times (tracks_of cbs1)) = true ->
  forallb (fun u => u <=? k * e) (channel_times (tracks_of cbs2)) = true -> existsb (Z.eqb (k * e)) (channel_times (tracks_of cbs2)) = true ->
  Forall2 (fun t1 t2 => music (timed 0 t2) = map (moved d k) (music (timed 0 t1))) (tracks_of cbs1) (tracks_of cbs2) -> rescored d k cbs1 cbs2.
Proof.
  intros Hb H1 H2 H3 H4 H. split; [exact Hb|]. split; [|exact H]. intros t Ht. apply (end_at_b _ _ H1 H2) in Ht. subst t. now apply (end_at_b _ _ H3 H4).
Qed.

(** ** The file of C66 with five times the ticks *)
Definition fine_file : list callback := map (rescore 0 5) plain_file.
Lemma fine_accepted : accepted fine_file.
Proof. easy_file. Qed.
Lemma fine_rescored : rescored 0 5 plain_file fine_file.
Proof. apply (rescored_b 0 5 192); try (vm_compute; reflexivity). easy_tracks. Qed.
Lemma fine_side : (24 | beat_ticks plain_file) /\ 0 < beat_ticks plain_file /\ beat_ticks fine_file < 2 ^ 16 /\ no_portamento plain_file /\
  (forall x, In x (flat_map (timed 0) (tracks_of fine_file)) -> snd x < 2 ^ 23).
Proof.
  split; [exists 4; reflexivity|]. split; [reflexivity|]. split; [reflexivity|]. split; [apply no_portamento_b; vm_compute; reflexivity|apply before_b_ok; vm_compute; reflexivity].
Qed.
(** ** Twenty ticks in a beat: a note of one tick and a note from the second tick on *)
Definition twenty_file : list callback :=
  [CHeader 1 1 20; CTrackChange; midi 0 (NoteOn 0 60 100); midi 1 (NoteOff 0 60 0); midi 1 (NoteOn 0 62 100); midi 20 (NoteOff 0 62 0)].
Definition six_score_file : list callback := map (rescore 0 6) twenty_file.
Lemma twenty_six b : accepted twenty_file /\ accepted six_score_file /\ rescored 0 6 twenty_file six_score_file /\ no_portamento twenty_file /\
  song_from_midi_file b (same_world twenty_file) id_order false "song.mid"%string f32_0_3 <>
  song_from_midi_file b (same_world six_score_file) id_order false "song.mid"%string f32_0_3.
Proof.
  split; [easy_file|]. split; [easy_file|]. split; [apply (rescored_b 0 6 22); try (vm_compute; reflexivity); easy_tracks|].
  split; [apply no_portamento_b; vm_compute; reflexivity|]. destruct b; vm_compute; intros H; discriminate H.
Qed.
(** ** A slide *)
Definition slide_file : list callback :=
  [CHeader 1 1 24; CTrackChange; midi 0 (ControlChange 0 65 127); midi 0 (ControlChange 0 5 12); midi 0 (NoteOn 0 60 100); midi 24 (NoteOff 0 60 0); midi 0 (NoteOn 0 64 100); midi 24 (NoteOff 0 64 0)].
Definition fine_slide_file : list callback := map (rescore 0 2) slide_file.
Lemma slide_differs b : accepted slide_file /\ accepted fine_slide_file /\ rescored 0 2 slide_file fine_slide_file /\ (24 | beat_ticks slide_file) /\
  song_from_midi_file b (same_world slide_file) id_order false "song.mid"%string f32_0_3 <>
  song_from_midi_file b (same_world fine_slide_file) id_order false "song.mid"%string f32_0_3.
Proof.
  split; [easy_file|]. split; [easy_file|]. split; [apply (rescored_b 0 2 48); try (vm_compute; reflexivity); easy_tracks|].
  split; [exists 1; reflexivity|]. destruct b; vm_compute; intros H; discriminate H.
Qed.

(** ** Two channels, a slide and a repeated figure, a fifth higher *)
Definition figure (n : Z) : list callback := [midi 0 (NoteOn 0 n 100); midi 24 (NoteOff 0 n 0); midi 0 (NoteOn 0 (n + 4) 80); midi 12 (NoteOff 0 (n + 4) 0); midi 0 (NoteOn 0 (n + 7) 60); midi 6 (NoteOff 0 (n + 7) 0)].
Definition tune_file : list callback :=
  [CHeader 1 2 24; CTrackChange; CMeta 0 SetTempo [7; 161; 32]; midi 0 (ProgramChange 0 40)] ++ figure 60 ++ figure 60 ++ figure 60 ++ figure 60 ++ figure 60 ++ figure 60 ++
  [CTrackChange; midi 0 (ControlChange 1 65 127); midi 0 (ControlChange 1 5 12); midi 0 (NoteOn 1 48 80); midi 48 (NoteOff 1 48 0); midi 0 (NoteOn 1 43 80); midi 48 (NoteOff 1 43 0)].
Definition fifth_file : list callback := map (rescore 7 1) tune_file.
Lemma tune_accepted : accepted tune_file.
Proof. easy_file. Qed.
Lemma fifth_accepted : accepted fifth_file.
Proof. easy_file. Qed.
Lemma fifth_rescored : rescored 7 1 tune_file fifth_file.
Proof. apply (rescored_b 7 1 252); try (vm_compute; reflexivity). easy_tracks. Qed.
Lemma fifth_side : no_drums tune_file /\ keys_valid tune_file /\ keys_valid fifth_file.
Proof. split; [apply no_drums_b; vm_compute; reflexivity|]. split; apply keys_valid_b; vm_compute; reflexivity. Qed.
Definition slides (s : song) : nat := List.length (filter (fun c => match cmd c with PitchSlide _ _ _ => true | _ => false end) (List.concat (tracks s))).
Definition calls (s : song) : nat := List.length (filter (fun c => match cmd c with CallLoop _ _ => true | _ => false end) (List.concat (tracks s))).
Lemma tune_song b : exists s, song_from_midi_file b (same_world tune_file) id_order true "song.mid"%string f32_0_3 = Ok s /\ (0 < slides s)%nat /\ (0 < calls s)%nat.
Proof. eexists. split; [destruct b; vm_compute; reflexivity|]. split; vm_compute; lia. Qed.
(** ** A snare two semitones higher *)
Definition drum_file : list callback := [CHeader 1 1 24; CTrackChange; midi 0 (NoteOn 9 38 100); midi 24 (NoteOff 9 38 0)].
Definition high_drum_file : list callback := map (rescore 2 1) drum_file.
Lemma drum_stays b : exists s1 s2, accepted drum_file /\ accepted high_drum_file /\ rescored 2 1 drum_file high_drum_file /\ keys_valid drum_file /\ keys_valid high_drum_file /\
  song_from_midi_file b (same_world drum_file) id_order false "song.mid"%string f32_0_3 = Ok s1 /\
  song_from_midi_file b (same_world high_drum_file) id_order false "song.mid"%string f32_0_3 = Ok s2 /\
  tracks s2 <> map (map (higher 2)) (tracks s1).
Proof.
  do 2 eexists. split; [easy_file|]. split; [easy_file|]. split; [apply (rescored_b 2 1 24); try (vm_compute; reflexivity); easy_tracks|].
  split; [apply keys_valid_b; vm_compute; reflexivity|]. split; [apply keys_valid_b; vm_compute; reflexivity|].
  split; [destruct b; vm_compute; reflexivity|]. split; [destruct b; vm_compute; reflexivity|]. vm_compute. intros H; discriminate H.
Qed.

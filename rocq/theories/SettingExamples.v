(** SettingExamples.v: a file with two tempi, program changes during the song and drums (for C61, C62). *)
From Coq Require Import ZArith List Bool Lia ZifyBool ZifyNat String.
From Verif Require Import Base ProofLib F32 Messages Command Track SeqTree Song Paths Manifest Midi Json Cli SpecMidi SpecNotes SpecVoices SpecVoice SpecNspc
  SpecLoop SpecRom SpecAram SpecSong SpecPlayback SpecFile SpecControl SpecHeard MidiExamples LoopExamples MergeProofs InstrProofs AramMore SongProofs PlaybackProofs FileExamples.
Ltac Zify.zify_post_hook ::= Z.div_mod_to_equations.
Open Scope Z_scope.
Open Scope list_scope.

(** ** Checkers *)
Lemma same_key_ok m m' : same_key m m' = true <-> note_key m = note_key m'.
Proof. unfold same_key. destruct (note_key m), (note_key m'); split; intros H; try discriminate; try reflexivity; [f_equal; lia|injection H; lia]. Qed.
Fixpoint released_first (m : message) (r : list tmsg) : bool :=
  match r with
  | [] => true
  | y :: r' => if same_key (fst y) m then true else negb (note_on (fst y)) && released_first m r'
  end.
Fixpoint one_b (l : list tmsg) : bool :=
  match l with [] => true | x :: r => (negb (note_on (fst x)) || released_first (fst x) r) && one_b r end.
Lemma one_b_ok l : one_b l = true -> one_at_a_time l.
Proof.
  intros H l1 x l2 y l3 -> Hx Hy Hk. induction l1 as [|w l1 IH]; cbn [app one_b] in H; apply andb_true_iff in H; destruct H as [H1 H2]; [|now apply IH].
  rewrite Hx in H1. cbn [negb orb] in H1. clear H2. induction l2 as [|w l2 IH]; cbn [app released_first] in H1.
  - destruct (same_key (fst y) (fst x)) eqn:E; [apply same_key_ok in E; congruence|]. rewrite Hy in H1. discriminate.
  - destruct (same_key (fst w) (fst x)) eqn:E; [exists w; split; [now left|now apply same_key_ok]|].
    apply andb_true_iff in H1. destruct (IH (proj2 H1)) as (z & Hz & Hzk). exists z. split; [now right|exact Hzk].
Qed.
Fixpoint sounds_at_b (l : list tmsg) (t : Z) : bool :=
  match l with
  | [] => false
  | (m, t1) :: r => (note_on m && (t1 <=? t) &&
      forallb (fun z => negb (same_key (fst z) m) || (t <? snd z) || ((t =? snd z) && note_on (fst z))) r) || sounds_at_b r t
  end.
Lemma sounds_at_b_ok l t : sounds_at l t -> sounds_at_b l t = true.
Proof.
  intros (l1 & m & t1 & l2 & -> & Hon & Ht & HF). induction l1 as [|[m' t'] l1 IH]; cbn [app sounds_at_b]; [|rewrite IH; apply orb_true_r].
  apply orb_true_iff. left. rewrite Hon. replace (t1 <=? t) with true by lia. cbn [andb]. apply forallb_forall. intros z Hz.
  destruct (same_key (fst z) m) eqn:E; [|reflexivity]. apply same_key_ok in E. destruct (HF z Hz E) as [H|[H H']].
  - replace (t <? snd z) with true by lia. reflexivity.
  - rewrite H'. replace (t =? snd z) with true by lia. now rewrite orb_true_r.
Qed.
Definition apart_b (l l' : list tmsg) : bool := forallb (fun x => negb (note_on (fst x)) || negb (sounds_at_b l' (snd x))) l.
Lemma apart_b_ok l l' : apart_b l l' = true -> apart l l'.
Proof.
  intros H x Hx Hon Hs. unfold apart_b in H. rewrite forallb_forall in H. specialize (H x Hx). rewrite Hon, (sounds_at_b_ok _ _ Hs) in H. discriminate.
Qed.
Fixpoint first_b (l : list tmsg) : bool :=
  match l with [] => true | x :: r => (negb (note_on (fst x)) || forallb (fun y => negb (is_pc (fst y))) r) && first_b r end.
Lemma first_b_ok l : first_b l = true -> programs_first l.
Proof.
  intros H l1 x l2 -> Hx. induction l1 as [|w l1 IH]; cbn [app first_b] in H; apply andb_true_iff in H; destruct H as [H1 H2]; [|now apply IH].
  rewrite Hx in H1. cbn [negb orb] in H1. apply Forall_forall. intros y Hy. rewrite forallb_forall in H1. specialize (H1 y Hy). now destruct (is_pc (fst y)).
Qed.
Definition none_b (l : list tmsg) : bool := forallb (fun y => negb (is_pc (fst y))) l.
Lemma none_b_ok l : none_b l = true -> last_program l = None.
Proof.
  intros H. apply last_program_none. apply Forall_forall. intros y Hy. unfold none_b in H. rewrite forallb_forall in H. specialize (H y Hy). now destruct (is_pc (fst y)).
Qed.
Definition sorted_of (ts : list (list message)) (c : nat) : list tmsg := sort_msgs (file_order ts c).
Definition others (c : nat) : list nat := filter (fun i => negb (Nat.eqb i c)) (seq 0 16).
Lemma others_ok c i : (i < 16)%nat -> i <> c -> In i (others c).
Proof. intros Hi Hc. apply filter_In. split; [apply in_seq; lia|]. destruct (Nat.eqb_spec i c); [contradiction|reflexivity]. Qed.
Definition keeps_program_b (ts : list (list message)) (c : nat) : bool :=
  let l := sorted_of ts c in
  Nat.ltb c 16 && negb (Nat.eqb c 9) &&
  forallb (fun i => let l' := sorted_of ts i in together_b l l' ||
     (none_b l' && (negb (Nat.eqb i 9) || match channel_notes l' with [] => true | _ => false end))) (others c) &&
  (first_b l || (one_b l && forallb (fun i => let l' := sorted_of ts i in together_b l l' || apart_b l l') (others c))).
Lemma keeps_program_b_ok ts c : keeps_program_b ts c = true -> keeps_program ts c.
Proof.
  unfold keeps_program_b. cbv zeta. rewrite !andb_true_iff. intros [[[H1 H2] H3] H4]. split; [apply Nat.ltb_lt; exact H1|]. split.
  { intros ->. discriminate. }
  intros l Hl. apply stable_sort_is in Hl. subst l. split.
  - intros i l' Hi Hc Hl'. apply stable_sort_is in Hl'. subst l'. rewrite forallb_forall in H3. specialize (H3 i (others_ok c i Hi Hc)).
    apply orb_true_iff in H3. destruct H3 as [H3|H3]; [left; now apply together_b_ok|right]. apply andb_true_iff in H3. destruct H3 as [H3 H5].
    split; [now apply none_b_ok|]. intros ->. cbn [Nat.eqb negb orb] in H5. fold (sorted_of ts 9). destruct (channel_notes (sorted_of ts 9)); [reflexivity|discriminate].
  - apply orb_true_iff in H4. destruct H4 as [H4|H4]; [left; now apply first_b_ok|right]. apply andb_true_iff in H4. destruct H4 as [H4 H5].
    split; [now apply one_b_ok|]. intros i l' Hi Hc Hl'. apply stable_sort_is in Hl'. subst l'. rewrite forallb_forall in H5. specialize (H5 i (others_ok c i Hi Hc)).
    apply orb_true_iff in H5. destruct H5 as [H5|H5]; [left; now apply together_b_ok|right; now apply apart_b_ok].
Qed.
Definition keeps_drums_b (ts : list (list message)) : bool :=
  let l := sorted_of ts 9 in
  none_b l && one_b l && forallb (fun i => let l' := sorted_of ts i in together_b l l' || (none_b l' && apart_b l l')) (others 9).
Lemma keeps_drums_b_ok ts : keeps_drums_b ts = true -> keeps_drums ts.
Proof.
  unfold keeps_drums_b. cbv zeta. rewrite !andb_true_iff. intros [[H1 H2] H3] l Hl. apply stable_sort_is in Hl. subst l.
  split; [now apply none_b_ok|]. split; [now apply one_b_ok|]. intros i l' Hi Hc Hl'. apply stable_sort_is in Hl'. subst l'.
  rewrite forallb_forall in H3. specialize (H3 i (others_ok 9 i Hi Hc)). apply orb_true_iff in H3. destruct H3 as [H3|H3]; [left; now apply together_b_ok|right].
  apply andb_true_iff in H3. split; [apply none_b_ok, H3|apply apart_b_ok, H3].
Qed.

(** ** The file *)
Definition band_file : list callback :=
  [head1; CTrackChange; CMeta 0 SetTempo [7; 161; 32]; midi 0 (ProgramChange 0 40); midi 0 (NoteOn 0 60 100); midi 96 (NoteOff 0 60 0);
   midi 0 (ProgramChange 0 56); midi 0 (NoteOn 0 62 100); midi 96 (NoteOff 0 62 0); CMeta 0 SetTempo [9; 39; 192];
   midi 0 (NoteOn 0 64 90); midi 48 (NoteOff 0 64 0);
   CTrackChange; midi 0 (ProgramChange 1 73); midi 0 (NoteOn 1 70 80); midi 0 (NoteOn 1 74 80); midi 192 (NoteOff 1 70 0); midi 0 (NoteOff 1 74 0);
   CTrackChange; midi 48 (NoteOn 9 38 120); midi 24 (NoteOff 9 38 0); midi 24 (NoteOn 9 49 110); midi 60 (NoteOff 9 49 0);
   midi 0 (NoteOn 9 40 64); midi 24 (NoteOff 9 40 0)].
Lemma band_typed : Forall callback_typed band_file.
Proof. repeat constructor; cbn; lia. Qed.
Lemma band_renderable : renderable (beat_ticks band_file) (tracks_of band_file).
Proof. apply renderable_b_ok. vm_compute. reflexivity. Qed.
Lemma band_keeps0 : keeps_program (tracks_of band_file) 0.
Proof. apply keeps_program_b_ok. vm_compute. reflexivity. Qed.
Lemma band_keeps1 : keeps_program (tracks_of band_file) 1.
Proof. apply keeps_program_b_ok. vm_compute. reflexivity. Qed.
Lemma band_keeps9 : keeps_drums (tracks_of band_file).
Proof. apply keeps_drums_b_ok. vm_compute. reflexivity. Qed.
Definition band_world : world := mk_world (fun _ => (band_file, true)) (fun _ => None).
Definition band_song : song := Eval vm_compute in
  match song_from_midi_file Debug band_world id_order false "song.mid"%string f32_0_3 with Ok s => s | _ => mk_song [] [] end.
Definition band_at : list Z := Eval vm_compute in place 0xd000 band_song.
Definition band_bytes : list Z := Eval vm_compute in image_of 0xd000 band_song.
Definition band_mem : Z -> option Z := mem_of 0xd000 band_bytes.
Lemma band_converts b opt : song_from_midi_file b band_world id_order opt "song.mid"%string f32_0_3 = Ok band_song.
Proof. destruct b, opt; vm_compute; reflexivity. Qed.
Lemma band_short : Forall seven_bit (tracks band_song).
Proof.
  assert (H : forallb (forallb (fun pc => match duration pc with Some d => (0 <=? d) && (d <=? 127) | None => true end)) (tracks band_song) = true) by (vm_compute; reflexivity).
  apply Forall_forall. intros tr Htr. rewrite forallb_forall in H. specialize (H tr Htr). rewrite forallb_forall in H.
  apply Forall_forall. intros pc Hpc. specialize (H pc Hpc). unfold in_range. destruct (duration pc); [lia|exact I].
Qed.
Lemma band_varied : keeps_music (tracks band_song) (tracks band_song).
Proof. apply keeps_b_ok. vm_compute. reflexivity. Qed.
Lemma band_in : song_in band_mem 0xd000 false band_song band_at.
Proof. apply song_b_ok. vm_compute. reflexivity. Qed.

(** ** Playing a song, computed *)
Definition word (mem : Z -> option Z) (a : Z) : option Z :=
  match mem a, mem (a + 1) with Some lo, Some hi => if (0 <=? lo) && (lo <? 256) && (0 <=? hi) && (hi <? 256) then Some (lo + 256 * hi) else None | _, _ => None end.
Lemma word_ok mem a w : word mem a = Some w -> holds mem a w.
Proof.
  unfold word, holds. destruct (mem a) as [lo|]; [|discriminate]. destruct (mem (a + 1)) as [hi|]; [|discriminate].
  destruct ((0 <=? lo) && (lo <? 256) && (0 <=? hi) && (hi <? 256)) eqn:E; [|discriminate]. rewrite !andb_true_iff in E. intros H. assert (Ew : w = lo + 256 * hi) by congruence. subst w. clear H.
  assert (E1 : lo = (lo + 256 * hi) mod 256) by lia. assert (E2 : hi = (lo + 256 * hi) / 256) by lia.
  split; [exact (f_equal Some E1)|]. split; [exact (f_equal Some E2)|]. lia.
Qed.
Definition part_plays (fuel : nat) (mem : Z -> option Z) (part : Z) (k : nat) : option (list event) :=
  match word mem (part + 2 * Z.of_nat k) with
  | Some w => if w =? 0 then Some [] else option_map fst (exec fuel mem true w (None, None))
  | None => None
  end.
Lemma part_plays_ok fuel mem part k es : part_plays fuel mem part k = Some es ->
  exists w, holds mem (part + 2 * Z.of_nat k) w /\ voice_plays mem w es.
Proof.
  unfold part_plays. destruct (word mem _) as [w|] eqn:E; [|discriminate]. intros H. exists w. split; [now apply word_ok|]. unfold voice_plays.
  destruct (w =? 0); [congruence|]. destruct (exec _ _ _ _ _) as [[es' st]|] eqn:E'; [|discriminate]. cbn in H. injection H as <-. exists st. eapply exec_ok. exact E'.
Qed.
Fixpoint parts_play (fuel : nat) (mem : Z -> option Z) (part : Z) (ks : list nat) : option (list (list event)) :=
  match ks with
  | [] => Some []
  | k :: r => match part_plays fuel mem part k, parts_play fuel mem part r with Some es, Some ess => Some (es :: ess) | _, _ => None end
  end.
Lemma parts_play_nth fuel mem part ks : forall ess k es, parts_play fuel mem part ks = Some ess -> nth_error ess k = Some es ->
  exists j, nth_error ks k = Some j /\ part_plays fuel mem part j = Some es.
Proof.
  induction ks as [|j ks IH]; intros ess k es E Hk; cbn [parts_play] in E.
  - injection E as <-. destruct k; discriminate.
  - destruct (part_plays fuel mem part j) as [e1|] eqn:E1; [|discriminate]. destruct (parts_play fuel mem part ks) as [ess'|]; [|discriminate].
    injection E as <-. destruct k as [|k]; cbn [nth_error] in *; [injection Hk as <-; exists j; auto|]. eapply IH; eauto.
Qed.
Lemma parts_play_length fuel mem part ks : forall ess, parts_play fuel mem part ks = Some ess -> length ess = length ks.
Proof.
  induction ks as [|j ks IH]; intros ess E; cbn [parts_play] in E; [injection E as <-; reflexivity|].
  destruct (part_plays fuel mem part j); [|discriminate]. destruct (parts_play fuel mem part ks) as [ess'|]; [|discriminate].
  injection E as <-. cbn. f_equal. now apply IH.
Qed.
Definition played (fuel : nat) (mem : Z -> option Z) (a : Z) : option (list (list event)) :=
  match word mem a with Some part => parts_play fuel mem part (seq 0 8) | None => None end.
Lemma played_ok fuel mem a ess : played fuel mem a = Some ess -> song_plays mem a ess.
Proof.
  unfold played. destruct (word mem a) as [part|] eqn:E; [|discriminate]. intros H. exists part. split; [now apply word_ok|].
  split; [now rewrite (parts_play_length _ _ _ _ _ H)|]. intros k es Hk. destruct (parts_play_nth _ _ _ _ _ _ _ H Hk) as (j & Hj & Hp).
  assert (j = k).
  { assert (Hlt : (k < 8)%nat) by (apply nth_error_lt in Hj; now rewrite seq_length in Hj).
    rewrite (nth_error_nth' _ 0%nat) in Hj by now rewrite seq_length. rewrite seq_nth in Hj by exact Hlt. injection Hj as <-. reflexivity. }
  subst j. now apply part_plays_ok in Hp.
Qed.
Definition band_plays : list (list event) := Eval vm_compute in match played 100 band_mem 0xd000 with Some ess => ess | None => [] end.
Lemma band_heard : song_plays band_mem 0xd000 band_plays.
Proof. apply (played_ok 100). vm_compute. reflexivity. Qed.

(** ** Two chords with a program change in between *)
Definition chord_file : list callback :=
  [head1; CTrackChange; midi 0 (ProgramChange 0 40); midi 0 (NoteOn 0 60 100); midi 0 (NoteOn 0 64 100); midi 96 (NoteOff 0 60 0); midi 0 (NoteOff 0 64 0);
   midi 0 (ProgramChange 0 73); midi 0 (NoteOn 0 62 100); midi 0 (NoteOn 0 65 100); midi 96 (NoteOff 0 62 0); midi 0 (NoteOff 0 65 0)].
Definition chord_world : world := mk_world (fun _ => (chord_file, true)) (fun _ => None).
Definition chord_song : song := Eval vm_compute in
  match song_from_midi_file Debug chord_world id_order false "song.mid"%string f32_0_3 with Ok s => s | _ => mk_song [] [] end.
Definition chord_at : list Z := Eval vm_compute in place 0xd000 chord_song.
Definition chord_bytes : list Z := Eval vm_compute in image_of 0xd000 chord_song.
Definition chord_mem : Z -> option Z := mem_of 0xd000 chord_bytes.
Definition chord_plays : list (list event) := Eval vm_compute in match played 100 chord_mem 0xd000 with Some ess => ess | None => [] end.
Lemma chord_wrong : forall b, exists w s mem at_ ess x,
  midi_file w "song.mid"%string = (chord_file, true) /\ renderable (beat_ticks chord_file) (tracks_of chord_file) /\
  song_from_midi_file b w id_order false "song.mid"%string f32_0_3 = Ok s /\ Forall seven_bit (tracks s) /\
  song_in mem 0xd000 false s at_ /\ mem 0 = None /\ song_plays mem 0xd000 ess /\
  In x (flat_map (sounds_with INSTRUMENT) ess) /\ so_on x = 24 /\ so_pitch x = driver_pitch 65 /\
  (forall l, stable_sort_of (file_order (tracks_of chord_file) 0) l -> program_at l 96 = Some (0, 73)) /\
  so_set x = Some (instrument_of_program 40) /\ instrument_of_program 40 <> instrument_of_program 73.
Proof.
  intros b. exists chord_world, chord_song, chord_mem, chord_at, chord_plays, (mk_sound 24 (driver_pitch 65) (Some (instrument_of_program 40))).
  split; [reflexivity|]. split; [apply renderable_b_ok; vm_compute; reflexivity|].
  split; [destruct b; vm_compute; reflexivity|]. split.
  { assert (H : forallb (forallb (fun pc => match duration pc with Some d => (0 <=? d) && (d <=? 127) | None => true end)) (tracks chord_song) = true) by (vm_compute; reflexivity).
    apply Forall_forall. intros tr Htr. rewrite forallb_forall in H. specialize (H tr Htr). rewrite forallb_forall in H.
    apply Forall_forall. intros pc Hpc. specialize (H pc Hpc). unfold in_range. destruct (duration pc); [lia|exact I]. }
  split; [apply song_b_ok; vm_compute; reflexivity|]. split; [reflexivity|]. split; [apply (played_ok 100); vm_compute; reflexivity|].
  split; [vm_compute; auto 10|]. split; [reflexivity|]. split; [reflexivity|]. split.
  { intros l Hl. apply stable_sort_is in Hl. subst l. vm_compute. reflexivity. }
  split; [reflexivity|vm_compute; discriminate].
Qed.
Lemma first_b_complete l : programs_first l -> first_b l = true.
Proof.
  induction l as [|x l IH]; intros H; [reflexivity|]. cbn [first_b]. apply andb_true_iff. split.
  - destruct (note_on (fst x)) eqn:E; [|reflexivity]. cbn [negb orb]. specialize (H [] x l eq_refl E). rewrite Forall_forall in H.
    apply forallb_forall. intros y Hy. now rewrite (H y Hy).
  - apply IH. intros l1 y l2 El Hy. apply (H (x :: l1) y l2); [now rewrite El|exact Hy].
Qed.
Lemma band_not_first : ~ programs_first (sorted_of (tracks_of band_file) 0).
Proof. intros H. apply first_b_complete in H. revert H. vm_compute. discriminate. Qed.

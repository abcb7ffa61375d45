(** VolumeExamples.v: a file with volumes between its notes, and one that changes the volume of a note (for C65). *)
From Coq Require Import ZArith List Bool Lia ZifyBool ZifyNat String.
From Verif Require Import Base ProofLib F32 Messages Command Track SeqTree Song Paths Manifest Midi Json Cli SpecMidi SpecNotes SpecVoices SpecVoice SpecNspc
  SpecLoop SpecRom SpecAram SpecSong SpecPlayback SpecFile SpecControl SpecHeard SpecVolume MidiExamples LoopExamples MergeProofs InstrProofs AramMore SongProofs
  PlaybackProofs FileExamples SettingExamples VolumeProofs.
Ltac Zify.zify_post_hook ::= Z.div_mod_to_equations.
Open Scope Z_scope.
Open Scope list_scope.

(** ** Checkers *)
Definition unset_b (l : list tmsg) : bool := match last_volume l with Some _ => false | None => true end.
Fixpoint volume_first_b (l : list tmsg) : bool :=
  match l with [] => true | x :: r => (negb (note_on (fst x)) || forallb (fun y => negb (is_volume y)) r) && volume_first_b r end.
Lemma volume_first_b_ok l : unset_b l = false -> volume_first_b l = true -> volume_first l.
Proof.
  intros Hu H. split; [unfold unset_b in Hu; destruct (last_volume l); [discriminate|discriminate Hu]|]. clear Hu.
  intros l1 x l2 -> Hx. induction l1 as [|w l1 IH]; cbn [app volume_first_b] in H; apply andb_true_iff in H; destruct H as [H1 H2]; [|now apply IH].
  rewrite Hx in H1. cbn [negb orb] in H1. apply Forall_forall. intros y Hy. rewrite forallb_forall in H1. specialize (H1 y Hy). now destruct (is_volume y).
Qed.
Fixpoint released_before (m : message) (r : list tmsg) : bool :=
  match r with
  | [] => true
  | y :: r' => if same_key (fst y) m then true else negb (is_volume y) && released_before m r'
  end.
Fixpoint between_b (l : list tmsg) : bool :=
  match l with [] => true | x :: r => (negb (note_on (fst x)) || released_before (fst x) r) && between_b r end.
Lemma between_b_ok l : between_b l = true -> volume_between l.
Proof.
  intros H l1 x l2 y l3 -> Hx Hy. induction l1 as [|w l1 IH]; cbn [app between_b] in H; apply andb_true_iff in H; destruct H as [H1 H2]; [|now apply IH].
  rewrite Hx in H1. cbn [negb orb] in H1. clear H2. induction l2 as [|w l2 IH]; cbn [app released_before] in H1.
  - destruct (same_key (fst y) (fst x)) eqn:E; [|rewrite Hy in H1; discriminate]. apply same_key_ok in E. exfalso.
    unfold is_volume, volume_of in Hy. destruct (fst y) as [|? []| |]; try discriminate Hy. destruct (fst x) as [|? []| |]; discriminate.
  - destruct (same_key (fst w) (fst x)) eqn:E; [exists w; split; [now left|now apply same_key_ok]|].
    apply andb_true_iff in H1. destruct (IH (proj2 H1)) as (z & Hz & Hzk). exists z. split; [now right|exact Hzk].
Qed.
Definition keeps_volume_b (ts : list (list message)) (c : nat) : bool :=
  let l := sorted_of ts c in
  Nat.ltb c 16 && forallb (fun i => let l' := sorted_of ts i in together_b l l' || unset_b l') (others c) &&
  ((negb (unset_b l) && volume_first_b l) ||
   (between_b l && one_b l && forallb (fun i => let l' := sorted_of ts i in together_b l l' || apart_b l l') (others c))).
Lemma keeps_volume_b_ok ts c : keeps_volume_b ts c = true -> keeps_volume ts c.
Proof.
  unfold keeps_volume_b. cbv zeta. rewrite !andb_true_iff. intros [[H1 H3] H4]. split; [apply Nat.ltb_lt; exact H1|].
  intros l Hl. apply stable_sort_is in Hl. subst l. fold (sorted_of ts c). split.
  - intros i l' Hi Hc Hl'. apply stable_sort_is in Hl'. subst l'. rewrite forallb_forall in H3. specialize (H3 i (others_ok c i Hi Hc)).
    apply orb_true_iff in H3. destruct H3 as [H3|H3]; [left; now apply together_b_ok|right]. unfold unset_b in H3. fold (sorted_of ts i). destruct (last_volume (sorted_of ts i)); [discriminate|reflexivity].
  - apply orb_true_iff in H4. destruct H4 as [H4|H4]; apply andb_true_iff in H4; destruct H4 as [H4 H5].
    + left. apply volume_first_b_ok; [now destruct (unset_b (sorted_of ts c))|exact H5].
    + right. apply andb_true_iff in H4. destruct H4 as [H4 H6]. split; [now apply between_b_ok|]. split; [now apply one_b_ok|].
      intros i l' Hi Hc Hl'. apply stable_sort_is in Hl'. subst l'. rewrite forallb_forall in H5. specialize (H5 i (others_ok c i Hi Hc)).
      apply orb_true_iff in H5. destruct H5 as [H5|H5]; [left; now apply together_b_ok|right; now apply apart_b_ok].
Qed.
Lemma short_b (ts : list track) : forallb (forallb (fun pc => match duration pc with Some d => (0 <=? d) && (d <=? 127) | None => true end)) ts = true -> Forall seven_bit ts.
Proof.
  intros H. apply Forall_forall. intros tr Htr. rewrite forallb_forall in H. specialize (H tr Htr). rewrite forallb_forall in H.
  apply Forall_forall. intros pc Hpc. specialize (H pc Hpc). unfold in_range. destruct (duration pc); [lia|exact I].
Qed.

(** ** A file *)
Definition loud_file : list callback :=
  [head1; CTrackChange; midi 0 (ControlChange 0 7 100); midi 0 (NoteOn 0 60 100); midi 96 (NoteOff 0 60 0);
   midi 0 (ControlChange 0 7 50); midi 0 (NoteOn 0 62 100); midi 96 (NoteOff 0 62 0);
   CTrackChange; midi 0 (ControlChange 1 7 90); midi 0 (NoteOn 1 70 80); midi 0 (NoteOn 1 74 80); midi 192 (NoteOff 1 70 0); midi 0 (NoteOff 1 74 0);
   CTrackChange; midi 48 (NoteOn 9 38 120); midi 24 (NoteOff 9 38 0)].
Definition loud_world : world := mk_world (fun _ => (loud_file, true)) (fun _ => None).
Lemma loud_typed : Forall callback_typed loud_file.
Proof. repeat constructor; cbn; lia. Qed.
Lemma loud_renderable : renderable (beat_ticks loud_file) (tracks_of loud_file).
Proof. apply renderable_b_ok. vm_compute. reflexivity. Qed.
Lemma loud_keeps0 : keeps_volume (tracks_of loud_file) 0.
Proof. apply keeps_volume_b_ok. vm_compute. reflexivity. Qed.
Lemma loud_keeps1 : keeps_volume (tracks_of loud_file) 1.
Proof. apply keeps_volume_b_ok. vm_compute. reflexivity. Qed.
Lemma loud_keeps9 : keeps_volume (tracks_of loud_file) 9.
Proof. apply keeps_volume_b_ok. vm_compute. reflexivity. Qed.
Definition loud_song : song := Eval vm_compute in
  match song_from_midi_file Debug loud_world id_order false "song.mid"%string f32_0_3 with Ok s => s | _ => mk_song [] [] end.
Definition loud_at : list Z := Eval vm_compute in place 0xd000 loud_song.
Definition loud_bytes : list Z := Eval vm_compute in image_of 0xd000 loud_song.
Definition loud_mem : Z -> option Z := mem_of 0xd000 loud_bytes.
Lemma loud_converts b opt : song_from_midi_file b loud_world id_order opt "song.mid"%string f32_0_3 = Ok loud_song.
Proof. destruct b, opt; vm_compute; reflexivity. Qed.
Lemma loud_short : Forall seven_bit (tracks loud_song).
Proof. apply short_b. vm_compute. reflexivity. Qed.
Lemma loud_varied : keeps_music (tracks loud_song) (tracks loud_song).
Proof. apply keeps_b_ok. vm_compute. reflexivity. Qed.
Lemma loud_in : song_in loud_mem 0xd000 false loud_song loud_at.
Proof. apply song_b_ok. vm_compute. reflexivity. Qed.
Definition loud_plays : list (list event) := Eval vm_compute in match played 100 loud_mem 0xd000 with Some ess => ess | None => [] end.
Lemma loud_heard : song_plays loud_mem 0xd000 loud_plays.
Proof. apply (played_ok 100). vm_compute. reflexivity. Qed.
Lemma loud_first : ~ volume_first (sorted_of (tracks_of loud_file) 0).
Proof.
  intros [_ H]. specialize (H (firstn 1 (sorted_of (tracks_of loud_file) 0)) (nth 1 (sorted_of (tracks_of loud_file) 0) (TrackChange, 0)) (skipn 2 (sorted_of (tracks_of loud_file) 0)) ltac:(vm_compute; reflexivity) ltac:(vm_compute; reflexivity)).
  rewrite Forall_forall in H. specialize (H (MidiEvent 0 (ControlChange 0 7 50), 96)). assert (true = false) by (apply H; vm_compute; auto). discriminate.
Qed.

(** ** A volume change during a note *)
Definition fade_file : list callback :=
  [head1; CTrackChange; midi 0 (ControlChange 0 7 100); midi 0 (NoteOn 0 60 100); midi 48 (ControlChange 0 7 10); midi 48 (NoteOff 0 60 0)].
Definition fade_world : world := mk_world (fun _ => (fade_file, true)) (fun _ => None).
Definition fade_song : song := Eval vm_compute in
  match song_from_midi_file Debug fade_world id_order false "song.mid"%string f32_0_3 with Ok s => s | _ => mk_song [] [] end.
Definition fade_at : list Z := Eval vm_compute in place 0xd000 fade_song.
Definition fade_bytes : list Z := Eval vm_compute in image_of 0xd000 fade_song.
Definition fade_mem : Z -> option Z := mem_of 0xd000 fade_bytes.
Definition fade_plays : list (list event) := Eval vm_compute in match played 100 fade_mem 0xd000 with Some ess => ess | None => [] end.
Lemma fade_wrong : forall b, exists w s mem at_ ess x,
  midi_file w "song.mid"%string = (fade_file, true) /\ renderable (beat_ticks fade_file) (tracks_of fade_file) /\
  song_from_midi_file b w id_order false "song.mid"%string f32_0_3 = Ok s /\ Forall seven_bit (tracks s) /\
  song_in mem 0xd000 false s at_ /\ mem 0 = None /\ song_plays mem 0xd000 ess /\
  flat_map (sounds_with VOLUME) ess = [x] /\ so_on x = 0 /\ so_pitch x = driver_pitch 60 /\
  (forall l, stable_sort_of (file_order (tracks_of fade_file) 0) l -> volume_at l 0 = Some 100) /\
  so_set x = Some (2 * 10).
Proof.
  intros b. exists fade_world, fade_song, fade_mem, fade_at, fade_plays, (mk_sound 0 (driver_pitch 60) (Some 20)).
  split; [reflexivity|]. split; [apply renderable_b_ok; vm_compute; reflexivity|].
  split; [destruct b; vm_compute; reflexivity|]. split; [apply short_b; vm_compute; reflexivity|].
  split; [apply song_b_ok; vm_compute; reflexivity|]. split; [reflexivity|]. split; [apply (played_ok 100); vm_compute; reflexivity|].
  split; [vm_compute; reflexivity|]. split; [reflexivity|]. split; [reflexivity|]. split; [|reflexivity].
  intros l Hl. apply stable_sort_is in Hl. subst l. vm_compute. reflexivity.
Qed.

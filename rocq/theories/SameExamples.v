(** SameExamples.v: files with the same music, and files that only seem to have it (for C66). *)
From Coq Require Import ZArith List Bool Permutation Lia ZifyBool ZifyNat String.
From Verif Require Import Base ProofLib F32 Messages Command Track SeqTree Song Paths Manifest Midi Json Cli SpecMidi SpecNotes SpecVoices SpecVoice SpecNspc
  SpecLoop SpecFile SpecHeard SpecSame MidiExamples MergeProofs InstrProofs FileExamples SettingExamples SameProofs.
Ltac Zify.zify_post_hook ::= Z.div_mod_to_equations.
Open Scope Z_scope.
Open Scope list_scope.

(** ** Checkers *)
Definition message_ok_b (m : message) : bool := match addressee m with Some c => (0 <=? c) && (c <? 16) | None => true end.
Definition file_ok_b (ts : list (list message)) : bool :=
  forallb (fun tr => forallb (fun x => message_ok_b (fst x) && (0 <=? delta (fst x)) && (0 <=? snd x) && (snd x <? 2 ^ 32)) (timed 0 tr)) ts.
Lemma file_ok_b_ok ts : file_ok_b ts = true -> file_ok ts.
Proof.
  intros H. apply Forall_forall. intros tr Htr. unfold file_ok_b in H. rewrite forallb_forall in H. specialize (H tr Htr). rewrite forallb_forall in H.
  apply Forall_forall. intros x Hx. specialize (H x Hx). unfold channel_ok, message_ok_b in *. destruct (addressee (fst x)); lia.
Qed.
Definition apart_tracks_b (t1 t2 : list message) : bool :=
  forallb (fun x => forallb (fun y => negb (match addressee (fst x), addressee (fst y) with Some a, Some c => a =? c | None, None => true | _, _ => false end) || negb (same_place x y))
    (filter matters (timed 0 t2))) (filter matters (timed 0 t1)).
Lemma apart_tracks_b_ok t1 t2 : apart_tracks_b t1 t2 = true -> tracks_apart t1 t2.
Proof.
  intros H x y Hx Hy Mx My E. unfold apart_tracks_b in H. rewrite forallb_forall in H.
  assert (Hx' : In x (filter matters (timed 0 t1))) by (apply filter_In; auto). assert (Hy' : In y (filter matters (timed 0 t2))) by (apply filter_In; auto).
  specialize (H x Hx'). rewrite forallb_forall in H. specialize (H y Hy'). rewrite E in H.
  destruct (addressee (fst y)) as [c|]; [rewrite Z.eqb_refl in H|]; cbn [negb orb] in H; now destruct (same_place x y).
Qed.

Ltac same_tracks :=
  match goal with |- Forall2 _ ?a ?c => let a' := eval vm_compute in a in let c' := eval vm_compute in c in
    change (Forall2 (fun t1 t2 => music (timed 0 t1) = music (timed 0 t2)) a' c') end;
  repeat (apply Forall2_cons; [vm_compute; reflexivity|]); apply Forall2_nil.

(** ** A file, the same with events that are ignored, and the same with its tracks in another order *)
Definition plain_file : list callback :=
  [head1; CTrackChange; CMeta 0 SetTempo [7; 161; 32];
   CTrackChange; midi 0 (ProgramChange 0 40); midi 0 (ControlChange 0 7 90); midi 0 (NoteOn 0 60 100); midi 96 (NoteOff 0 60 0); midi 0 (NoteOn 0 64 100); midi 96 (NoteOff 0 64 0);
   CTrackChange; midi 48 (NoteOn 9 38 120); midi 24 (NoteOff 9 38 0)].
Definition dressed_file : list callback :=
  [head1; CTrackChange; CMeta 0 (OtherMeta 3) [65; 66]; CMeta 0 SetTempo [7; 161; 32]; CMeta 300 (OtherMeta 47) [];
   CTrackChange; CSysEx 0 240 [1; 2]; midi 0 (ProgramChange 0 40); midi 0 (ControlChange 0 10 64); midi 0 (ControlChange 0 7 90); midi 0 (NoteOn 0 60 100); midi 40 (PitchBendChange 0 8192);
     midi 56 (NoteOff 0 60 0); midi 0 (NoteOn 0 64 100); midi 90 (ChannelPressure 0 3); midi 6 (NoteOff 0 64 0);
   CTrackChange; CMeta 10 (OtherMeta 5) [97]; midi 38 (NoteOn 9 38 120); midi 12 (PolyphonicKeyPressure 9 38 50); midi 12 (NoteOff 9 38 0)].
Definition swapped_file : list callback :=
  [head1; CTrackChange; midi 48 (NoteOn 9 38 120); midi 24 (NoteOff 9 38 0);
   CTrackChange; midi 0 (ProgramChange 0 40); midi 0 (ControlChange 0 7 90); midi 0 (NoteOn 0 60 100); midi 96 (NoteOff 0 60 0); midi 0 (NoteOn 0 64 100); midi 96 (NoteOff 0 64 0);
   CTrackChange; CMeta 200 SetTempo [7; 161; 32]].
Definition tempo_later_file : list callback :=
  [head1; CTrackChange; CMeta 200 SetTempo [7; 161; 32];
   CTrackChange; midi 0 (ProgramChange 0 40); midi 0 (ControlChange 0 7 90); midi 0 (NoteOn 0 60 100); midi 96 (NoteOff 0 60 0); midi 0 (NoteOn 0 64 100); midi 96 (NoteOff 0 64 0);
   CTrackChange; midi 48 (NoteOn 9 38 120); midi 24 (NoteOff 9 38 0)].
Definition same_world (cbs : list callback) : world := mk_world (fun _ => (cbs, true)) (fun _ => None).
Lemma plain_accepted : accepted plain_file.
Proof. split; [reflexivity|]. split; [repeat constructor; cbn; lia|]. apply file_ok_b_ok. vm_compute. reflexivity. Qed.
Lemma dressed_accepted : accepted dressed_file.
Proof. split; [reflexivity|]. split; [repeat constructor; cbn; lia|]. apply file_ok_b_ok. vm_compute. reflexivity. Qed.
Lemma swapped_accepted : accepted swapped_file.
Proof. split; [reflexivity|]. split; [repeat constructor; cbn; lia|]. apply file_ok_b_ok. vm_compute. reflexivity. Qed.
Lemma tempo_later_accepted : accepted tempo_later_file.
Proof. split; [reflexivity|]. split; [repeat constructor; cbn; lia|]. apply file_ok_b_ok. vm_compute. reflexivity. Qed.
Lemma end_at_b ts n : forallb (fun u => u <=? n) (channel_times ts) = true -> existsb (Z.eqb n) (channel_times ts) = true -> forall t, file_end ts t <-> t = n.
Proof.
  intros H1 H2 t. apply existsb_exists in H2. destruct H2 as (n' & H2 & E). apply Z.eqb_eq in E. subst n'.
  assert (H3 : Forall (fun u => u <= n) (channel_times ts)) by (apply Forall_forall; intros u Hu; rewrite forallb_forall in H1; specialize (H1 u Hu); lia).
  split; [intros H; symmetry; eapply file_end_unique; [|exact H]; split; auto|intros ->; split; auto]. Qed.
Lemma plain_end t : file_end (tracks_of plain_file) t <-> t = 192.
Proof. apply end_at_b; vm_compute; reflexivity. Qed.
Lemma dressed_end t : file_end (tracks_of dressed_file) t <-> t = 192.
Proof. apply end_at_b; vm_compute; reflexivity. Qed.
Lemma dressed_music : Forall2 (fun t1 t2 => music (timed 0 t1) = music (timed 0 t2)) (tracks_of plain_file) (tracks_of dressed_file).
Proof. same_tracks. Qed.
Lemma dressed_ends t : file_end (tracks_of plain_file) t <-> file_end (tracks_of dressed_file) t.
Proof. rewrite plain_end, dressed_end. reflexivity. Qed.
Lemma swapped_permutes : Permutation (tracks_of tempo_later_file) (tracks_of swapped_file).
Proof.
  vm_compute. eapply perm_trans; [apply perm_swap|]. eapply perm_trans; [apply perm_skip, perm_swap|]. eapply perm_trans; [apply perm_swap|]. reflexivity.
Qed.
Lemma swapped_apart : ForallOrdPairs tracks_apart (tracks_of tempo_later_file).
Proof. change (tracks_of tempo_later_file) with (let l := tracks_of tempo_later_file in l). cbv zeta.
  assert (H : exists x y z, tracks_of tempo_later_file = [x; y; z] /\ apart_tracks_b x y = true /\ apart_tracks_b x z = true /\ apart_tracks_b y z = true)
    by (do 3 eexists; split; [vm_compute; reflexivity|]; repeat split; vm_compute; reflexivity).
  destruct H as (x & y & z & -> & H1 & H2 & H3). repeat constructor; now apply apart_tracks_b_ok.
Qed.
Lemma plain_song_size b : exists s, song_from_midi_file b (same_world plain_file) id_order true "song.mid"%string f32_0_3 = Ok s /\ (2 <= length (tracks s))%nat.
Proof. eexists. split; [destruct b; vm_compute; reflexivity|]. cbn. lia. Qed.

(** ** An ignored event after the last note *)
Definition long_file : list callback :=
  [head1; CTrackChange; midi 0 (NoteOn 0 60 100); midi 96 (NoteOff 0 60 0); midi 96 (PitchBendChange 0 8192)].
Definition stopped_file : list callback :=
  [head1; CTrackChange; midi 0 (NoteOn 0 60 100); midi 96 (NoteOff 0 60 0)].
Lemma late_bend b : accepted long_file /\ accepted stopped_file /\ beat_ticks long_file = beat_ticks stopped_file /\
  Forall2 (fun t1 t2 => music (timed 0 t1) = music (timed 0 t2)) (tracks_of long_file) (tracks_of stopped_file) /\
  song_from_midi_file b (same_world long_file) id_order false "song.mid"%string f32_0_3 <>
  song_from_midi_file b (same_world stopped_file) id_order false "song.mid"%string f32_0_3.
Proof.
  split; [split; [reflexivity|]; split; [repeat constructor; cbn; lia|]; apply file_ok_b_ok; vm_compute; reflexivity|].
  split; [split; [reflexivity|]; split; [repeat constructor; cbn; lia|]; apply file_ok_b_ok; vm_compute; reflexivity|].
  split; [reflexivity|]. split; [same_tracks|]. destruct b; vm_compute; intros H; discriminate H.
Qed.

(** ** Two tracks that set the volume of one channel at one tick *)
Definition loud_then_soft : list callback :=
  [head1; CTrackChange; midi 0 (ControlChange 0 7 100); CTrackChange; midi 0 (ControlChange 0 7 10); midi 0 (NoteOn 0 60 100); midi 96 (NoteOff 0 60 0)].
Definition soft_then_loud : list callback :=
  [head1; CTrackChange; midi 0 (ControlChange 0 7 10); midi 0 (NoteOn 0 60 100); midi 96 (NoteOff 0 60 0); CTrackChange; midi 0 (ControlChange 0 7 100)].
Lemma order_matters b : accepted loud_then_soft /\ accepted soft_then_loud /\ beat_ticks loud_then_soft = beat_ticks soft_then_loud /\
  Permutation (tracks_of loud_then_soft) (tracks_of soft_then_loud) /\
  song_from_midi_file b (same_world loud_then_soft) id_order false "song.mid"%string f32_0_3 <>
  song_from_midi_file b (same_world soft_then_loud) id_order false "song.mid"%string f32_0_3.
Proof.
  split; [split; [reflexivity|]; split; [repeat constructor; cbn; lia|]; apply file_ok_b_ok; vm_compute; reflexivity|].
  split; [split; [reflexivity|]; split; [repeat constructor; cbn; lia|]; apply file_ok_b_ok; vm_compute; reflexivity|].
  split; [reflexivity|]. split; [apply perm_swap|]. destruct b; vm_compute; intros H; discriminate H.
Qed.

(** FileHeard.v: from a MIDI file to the lengths and velocities the driver plays (C60). *)
From Coq Require Import ZArith List Bool Lia ZifyBool ZifyNat Permutation Sorted String.
From Verif Require Import Base ProofLib F32 Messages Command Track SeqTree Song Paths Manifest Midi Json Cli SpecMidi SpecNotes SpecVoices SpecVoice SpecNspc
  SpecLoop SpecRom SpecAram SpecSong SpecPlayback SpecFile SpecGate MidiExamples LoopExamples AramMore SongProofs PlaybackProofs FileProofs FileExamples HeardProofs.
Ltac Zify.zify_post_hook ::= Z.div_mod_to_equations.
Open Scope Z_scope.
Open Scope list_scope.

Lemma file_fully b w order opt p tf s s0 cbs mem a lp at_ :
  midi_file w p = (cbs, true) -> Forall callback_typed cbs -> (forall k, permutes (order k)) ->
  renderable (beat_ticks cbs) (tracks_of cbs) ->
  (forall notes n, file_notes (tracks_of cbs) notes -> In n notes -> 8 <= nt_vel n) ->
  song_from_midi_file b w order opt p tf = Ok s -> song_from_midi_file b w order false p tf = Ok s0 ->
  Forall seven_bit (tracks s0) ->
  (opt = true -> keeps_music (tracks s0) (tracks s) /\ Forall (velocity_safe (tracks s)) (tracks s)) ->
  song_in mem a lp s at_ -> mem 0 = None ->
  exists notes ns ess, file_notes (tracks_of cbs) notes /\ Permutation ns (filter ended (map drum notes)) /\ song_plays mem a ess /\
    Forall2 (fun x n => exists off, nt_off n = Some off /\
        heard_fully (beat_ticks cbs) (tolerance (beat_ticks cbs) (6 * file_size (tracks_of cbs))) x (nt_on n) off (nt_key n) (nt_vel n))
      (flat_map strikes ess) ns.
Proof.
  intros Ew Hty Ho Hrf Hvel Hs Hs0 Hsb Hopt Hin H0. unfold song_from_midi_file in Hs, Hs0. rewrite Ew in Hs, Hs0.
  inv_bind Hs0. rename a0 into h. rename Ha into Hh. rewrite Hh in Hs. cbn [bind] in Hs.
  unfold song_from_midi in Hs0. inv_bind Hs0. cbv zeta in Hs0. injection Hs0 as <-. cbn [tracks] in *. rename a0 into trs.
  apply convert_voices_spec in Ha. rename Ha into Htr.
  destruct (file_voices b cbs order h Hty Ho Hh Hrf) as (Etpb & Hv8 & Hvok & notes & ns & Hfn & Hperm & Hsame).
  rewrite Etpb in *.
  assert (Hv8' : (length (h_voices h) <= 8)%nat) by (rewrite Hv8; constructor).
  assert (Hn8 : forall n, In n ns -> 8 <= nt_vel n).
  { intros n Hn. apply (Permutation_in n Hperm) in Hn. apply filter_In in Hn. destruct Hn as [Hn _].
    apply in_map_iff in Hn. destruct Hn as (m & <- & Hm). exact (Hvel notes m Hfn Hm). }
  assert (Hv : forall v x, In v (h_voices h) -> In x (notes_of v) -> 8 <= n_vel x).
  { intros v x Hv Hx. assert (Hi : In x (flat_map notes_of (h_voices h))) by (apply in_flat_map; eauto).
    clear - Hi Hsame Hn8. revert Hi Hn8. induction Hsame as [|y n l1 l2 (E1 & E2 & E3 & E4) _ IH]; intros Hi Hn8; [destruct Hi|].
    destruct Hi as [->|Hi]; [rewrite E4; apply Hn8; now left|apply IH; [exact Hi|intros m Hm; apply Hn8; now right]]. }
  destruct (song_fully b _ _ _ _ _ _ _ _ _ _ _ _ Hs Hv8' (rf_beat _ _ Hrf) Hvok Htr Hsb Hv Hopt Hin H0) as (ess & Hess & Hheard).
  exists notes, ns, ess. split; [exact Hfn|]. split; [exact Hperm|]. split; [exact Hess|].
  clear -Hsame Hheard. revert ns Hsame. induction Hheard as [|x v l1 l2 Hx _ IH]; intros ns Hsame; inversion Hsame as [|? n ? ns' (E1 & E2 & E3 & E4) Hs']; subst; constructor; auto.
  exists (n_off v). split; [now symmetry|]. rewrite <- E1, <- E3, <- E4. exact Hx.
Qed.

(** ** Concrete files *)
Definition soft_file : list callback :=
  [head1; CTrackChange; midi 0 (NoteOn 0 60 127); midi 48 (NoteOff 0 60 0); midi 0 (NoteOn 0 62 4); midi 48 (NoteOff 0 62 0)].
Definition soft_world : world := mk_world (fun _ => (soft_file, true)) (fun _ => None).
Definition soft_song : song := Eval vm_compute in
  match song_from_midi_file Debug soft_world id_order false "song.mid"%string f32_0_3 with Ok s => s | _ => mk_song [] [] end.
Definition soft_at : list Z := Eval vm_compute in place 0xd000 soft_song.
Definition soft_bytes : list Z := Eval vm_compute in image_of 0xd000 soft_song.
Definition soft_mem : Z -> option Z := mem_of 0xd000 soft_bytes.
Definition soft_heard : list event := Eval vm_compute in
  match exec 50 soft_mem true (nth 0 soft_at 0) (None, None) with Some (es, _) => es | None => [] end.
Definition soft_notes : list note := [mk_note 0 60 0 (Some 48) 127; mk_note 0 62 48 (Some 96) 4].
Lemma soft_converts b : song_from_midi_file b soft_world id_order false "song.mid"%string f32_0_3 = Ok soft_song.
Proof. destruct b; vm_compute; reflexivity. Qed.
Lemma soft_in : song_in soft_mem 0xd000 false soft_song soft_at.
Proof. apply song_b_ok. vm_compute. reflexivity. Qed.
Lemma soft_plays : song_plays soft_mem 0xd000 (soft_heard :: repeat [] 7).
Proof.
  assert (Hw : forall a w, holds_b soft_mem a w = true -> holds soft_mem a w) by (intros; apply holds_b_ok; assumption).
  exists 0xd004. split; [apply Hw; vm_compute; reflexivity|]. split; [reflexivity|].
  intros k es Hk. destruct k as [|k].
  - injection Hk as <-. exists 0xd014. split; [apply Hw; vm_compute; reflexivity|]. eexists. apply (exec_ok soft_mem 50%nat). vm_compute. reflexivity.
  - exists 0. assert (Hk7 : (k < 7)%nat).
    { cbn [nth_error] in Hk. apply nth_error_lt in Hk. rewrite repeat_length in Hk. exact Hk. }
    split.
    + apply Hw. do 7 (destruct k as [|k]; [vm_compute; reflexivity|]). lia.
    + cbn [nth_error] in Hk. apply nth_error_In, repeat_spec in Hk. exact Hk.
Qed.
Lemma soft_wrong : forall b, exists w s mem at_ ess vs,
  midi_file w "song.mid"%string = (soft_file, true) /\ renderable (beat_ticks soft_file) (tracks_of soft_file) /\
  song_from_midi_file b w id_order false "song.mid"%string f32_0_3 = Ok s /\
  song_in mem 0xd000 false s at_ /\ mem 0 = None /\ song_plays mem 0xd000 ess /\
  (forall notes, file_notes (tracks_of soft_file) notes -> map nt_vel notes = [127; 4]) /\
  map (fun x => (k_pitch x, k_vs x)) (flat_map strikes ess) = [(driver_pitch 60, Some vs); (driver_pitch 62, Some vs)] /\ vs mod 16 = 15.
Proof.
  intros b. exists soft_world, soft_song, soft_mem, soft_at, (soft_heard :: repeat [] 7), 0x7f.
  split; [reflexivity|]. split; [apply renderable_b_ok; vm_compute; reflexivity|].
  split; [apply soft_converts|]. split; [exact soft_in|]. split; [reflexivity|]. split; [exact soft_plays|].
  split; [intros notes H; rewrite (file_notes_is _ _ H); vm_compute; reflexivity|]. split; vm_compute; reflexivity.
Qed.
Lemma good_loud notes n : file_notes (tracks_of good_file) notes -> In n notes -> 8 <= nt_vel n.
Proof.
  intros H Hn. rewrite (file_notes_is _ _ H) in Hn.
  assert (E : forallb (fun n => 8 <=? nt_vel n) (notes_in (tracks_of good_file)) = true) by (vm_compute; reflexivity).
  rewrite forallb_forall in E. specialize (E n Hn). lia.
Qed.
Lemma good_safe : Forall (velocity_safe good_tracks) good_tracks.
Proof.
  apply Forall_forall. intros tr Htr. apply free_safe.
  assert (E : forallb (forallb (fun pc => match cmd pc with CallLoop _ _ => false | _ => true end)) good_tracks = true) by (vm_compute; reflexivity).
  rewrite forallb_forall in E. specialize (E tr Htr). rewrite forallb_forall in E.
  apply Forall_forall. intros pc Hpc t k Ec. specialize (E pc Hpc). rewrite Ec in E. discriminate.
Qed.

(** FilePlay.v: from a MIDI file to what the driver plays (C53). *)
From Coq Require Import ZArith List Bool Lia ZifyBool ZifyNat Permutation Sorted.
From Verif Require Import Base ProofLib F32 Messages Command Track SeqTree Song Paths Manifest Midi Json Cli SpecMidi SpecNotes SpecVoices SpecVoice
  SpecLoop SpecRom SpecAram SpecSong SpecPlayback SpecFile AramMore SongProofs PlaybackProofs FileProofs.
Ltac Zify.zify_post_hook ::= Z.div_mod_to_equations.
Open Scope list_scope.

(** ** From the file to what the driver plays *)
Lemma file_plays b w order opt p tf s s0 cbs mem a lp at_ :
  midi_file w p = (cbs, true) -> Forall callback_typed cbs -> (forall k, permutes (order k)) ->
  renderable (beat_ticks cbs) (tracks_of cbs) ->
  song_from_midi_file b w order opt p tf = Ok s -> song_from_midi_file b w order false p tf = Ok s0 ->
  Forall seven_bit (tracks s0) -> (opt = true -> keeps_music (tracks s0) (tracks s)) ->
  song_in mem a lp s at_ -> mem 0 = None ->
  exists notes ns ess, file_notes (tracks_of cbs) notes /\ Permutation ns (filter ended (map drum notes)) /\ song_plays mem a ess /\
    Forall2 (fun x n => heard_at (beat_ticks cbs) (tolerance (beat_ticks cbs) (6 * file_size (tracks_of cbs))) x (nt_on n) (nt_key n))
      (flat_map attacks ess) ns.
Proof.
  intros Ew Hty Ho Hrf Hs Hs0 Hsb Hopt Hin H0. unfold song_from_midi_file in Hs, Hs0. rewrite Ew in Hs, Hs0.
  inv_bind Hs0. rename a0 into h. rename Ha into Hh. rewrite Hh in Hs. cbn [bind] in Hs.
  unfold song_from_midi in Hs0. inv_bind Hs0. cbv zeta in Hs0. injection Hs0 as <-. cbn [tracks] in *. rename a0 into trs.
  apply convert_voices_spec in Ha. rename Ha into Htr.
  destruct (file_voices b cbs order h Hty Ho Hh Hrf) as (Etpb & Hv8 & Hvok & notes & ns & Hfn & Hperm & Hsame).
  rewrite Etpb in *.
  assert (Hv8' : (length (h_voices h) <= 8)%nat) by (rewrite Hv8; constructor).
  destruct (song_sounds b _ _ _ _ _ _ _ _ _ _ _ _ Hs Hv8' (rf_beat _ _ Hrf) Hvok Htr Hsb Hopt Hin H0) as (ess & Hess & Hheard).
  exists notes, ns, ess. split; [exact Hfn|]. split; [exact Hperm|]. split; [exact Hess|].
  clear -Hsame Hheard. revert ns Hsame. induction Hheard as [|x v l1 l2 Hx _ IH]; intros ns Hsame; inversion Hsame as [|? n ? ns' (E1 & E2 & E3 & E4) Hs']; subst; constructor; auto.
  rewrite <- E1, <- E3. exact Hx.
Qed.

Lemma holds_det mem a w1 w2 : holds mem a w1 -> holds mem a w2 -> w1 = w2.
Proof. unfold holds. intros (H1 & H2 & H3) (H4 & H5 & H6). rewrite H1 in H4. rewrite H2 in H5. injection H4 as H4. injection H5 as H5. lia. Qed.
Lemma song_plays_det mem a e1 e2 : song_plays mem a e1 -> song_plays mem a e2 -> e1 = e2.
Proof.
  intros (p1 & Hp1 & L1 & H1) (p2 & Hp2 & L2 & H2). assert (p2 = p1) by (eapply holds_det; eauto). subst p2.
  apply nth_ext with (d := []) (d' := []); [lia|]. intros k Hk.
  assert (Hk2 : (k < length e2)%nat) by (rewrite L2, <- L1; exact Hk).
  destruct (H1 k (nth k e1 []) (nth_error_nth' _ _ Hk)) as (w1 & Hw1 & Hv1).
  destruct (H2 k (nth k e2 []) (nth_error_nth' _ _ Hk2)) as (w2 & Hw2 & Hv2).
  assert (w2 = w1) by (eapply holds_det; eauto). subst w2. unfold voice_plays in *. destruct (w1 =? 0); [congruence|].
  destruct Hv1 as (s1 & R1). destruct Hv2 as (s2 & R2). destruct (run_det _ _ _ _ _ _ _ _ R1 R2). assumption.
Qed.

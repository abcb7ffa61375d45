(** CheckedProofs.v: when a checked build aborts on a MIDI file (C10). *)
From Coq Require Import ZArith List Bool Lia ZifyBool ZifyNat Permutation.
From Verif Require Import Base F32 ProofLib Messages Command Track SeqTree Song Midi Cli SpecTime SpecVoice SpecExact SpecMidi SpecNotes SpecVoices SpecFile
  SplitProofs MergeProofs LoopProofs VoiceProofs DistributeProofs ReadProofs ReadProofs2 FileProofs TotalProofs SongProofs OptProofs OptExpand ExactProofs ClockProofs NoCrash.
Import ListNotations.
Open Scope Z_scope.
Open Scope list_scope.

Lemma voices_timed b cbs order h T : Forall callback_typed cbs -> (forall k, permutes (order k)) -> file_ok (tracks_of cbs) ->
  Forall (Forall midi_valid) (tracks_of cbs) -> 0 <= T -> (forall x, In x (flat_map (timed 0) (tracks_of cbs)) -> snd x <= T) ->
  midi_read b cbs true order = Ok h ->
  h_ticks_per_beat h = beat_ticks cbs /\ h_max_time h <= T /\ Forall (Forall (fun x => midi_valid (fst x) /\ 0 <= snd x <= T)) (h_voices h).
Proof.
  intros Hty Ho Hfo Hmv HT0 HT H.
  destruct (midi_read_inv _ _ _ _ _ H Hty) as (r & chs & ivs & mx & base & Hr & _ & Hc & Hok & Hiv & Hfb & Hb & Hv & Htpb & Hmx).
  destruct (read_ok_tracks _ _ _ _ _ H) as (_ & _ & tpb' & Hr'). rewrite Hr in Hr'. injection Hr' as ->. cbn [r_tracks r_tpb] in *.
  pose proof (callbacks_ticks _ _ _ Hr) as Eb. cbn [r_tpb] in Eb. change (tpb' = beat_ticks cbs) in Eb. subst tpb'.
  set (ts := tracks_of cbs) in *.
  destruct (merge_ok b ts Hfo) as (chs' & Hc' & HL & Hs). rewrite Hc in Hc'. injection Hc' as <-.
  destruct (channels_merge chs Hok) as (m & Hm & Hsm & Htm & _ & Hrun).
  rewrite Hrun in Hv by exact Ho. inv_bind Hv. injection Hv as Hv.
  assert (Hfile : forall ch x, In ch chs -> In x ch -> In x (flat_map (timed 0) ts)).
  { intros ch x Hch Hx. apply In_nth with (d := []) in Hch. destruct Hch as (c & _ & <-). destruct (Hs c) as [Hp _].
    apply (Permutation_in x (Permutation_sym Hp)) in Hx. apply filter_In in Hx. apply Hx. }
  assert (Hmf : forall x, In x m -> In x (flat_map (timed 0) ts)).
  { intros x Hx. apply (Permutation_in x (interleave_perm _ _ (ordered_interleave _ _ Hm))) in Hx. apply in_concat in Hx. destruct Hx as (ch & Hch & Hx). eauto. }
  assert (Hval : Forall (fun x => midi_valid (fst x)) m) by (apply Forall_forall; intros x Hx; apply (timed_valid ts); auto).
  destruct (intervals_max _ _ _ _ _ Hiv) as (_ & _ & Hmx'). cbn [snd] in Hmx'.
  split; [exact Eb|]. split.
  { rewrite Hmx. destruct Hmx' as [->|(x & ch & Hch & Hx & ->)]; [exact HT0|]. apply HT. eauto. }
  destruct (kept_run base m a Hb Htm Ha Hval) as (Hmsgs & _).
  apply Forall_forall. intros v Hin. apply Forall_forall. intros x Hx. rewrite <- Hv in Hin. apply In_nth with (d := []) in Hin. destruct Hin as (i & _ & Ei).
  destruct (Hmsgs i x) as (H1 & y & Hy & Hy2 & _); [unfold vv in *; rewrite <- Ei in Hx; exact Hx|]. split; [exact H1|].
  rewrite Forall_forall in Htm. destruct (Htm y Hy) as (_ & Hyt & _). specialize (HT y (Hmf y Hy)). lia.
Qed.
Lemma fate_alternates tpb v : forall clock open start, alternates open v -> (open = None <-> start = None) -> fate tpb clock start v <> TwoNotes.
Proof.
  induction v as [|[m t] v IH]; intros clock open start H Hos; cbn [fate]; [discriminate|].
  destruct m as [|d []| |]; cbn [alternates] in H; try (destruct start; eapply IH; eassumption).
  - destruct H as [Ho H]. destruct start as [s|]; [|eapply (IH _ None None); [exact H|tauto]]. destruct (t <? s); [discriminate|]. eapply (IH _ None None); [exact H|tauto].
  - destruct H as (-> & _ & H). destruct start as [s|]; [exfalso; destruct Hos as [Hos _]; discriminate (Hos eq_refl)|]. eapply IH; [exact H|]. split; discriminate.
Qed.
Lemma convert_checked vs tpb mt tf T : 1 <= tpb <= 65535 -> 24 * T < 2 ^ 23 -> mt <= T -> Forall (Forall (fun x => midi_valid (fst x) /\ 0 <= snd x <= T)) vs ->
  Forall (alternates None) vs ->
  Forall (fun v => fate tpb 0 None v = Converts) vs /\ (exists trs, convert_voices Debug vs tpb mt tf = Ok trs) \/
  Exists (fun v => fate tpb 0 None v = Crashes) vs /\ convert_voices Debug vs tpb mt tf = Panic POverflow.
Proof.
  intros Ht HT Hm. induction vs as [|v vs IH]; intros H1 H2; cbn [convert_voices]; [left; split; [constructor|eauto]|]. inversion H1; subst. inversion H2; subst.
  pose proof (checked_exact tpb tf v mt T Ht HT Hm H3) as K. destruct (fate tpb 0 None v) eqn:Ef.
  - destruct K as [tr ->]. cbn [bind]. destruct (IH H4 H6) as [(A1 & trs & ->)|[A1 ->]]; cbn [bind].
    + left. split; [constructor; assumption|]. destruct tr; eauto.
    + right. split; [apply Exists_cons_tl; exact A1|reflexivity].
  - exfalso. apply (fate_alternates tpb v 0 None None H5); [tauto|exact Ef].
  - rewrite K. right. split; [apply Exists_cons_hd; exact Ef|reflexivity].
Qed.
Lemma file_checked w order p tf cbs h T : midi_file w p = (cbs, true) -> Forall callback_typed cbs -> (forall k, permutes (order k)) ->
  file_ok (tracks_of cbs) -> Forall (Forall midi_valid) (tracks_of cbs) -> 1 <= beat_ticks cbs <= 65535 ->
  0 <= T -> 24 * T < 2 ^ 23 -> (forall x, In x (flat_map (timed 0) (tracks_of cbs)) -> snd x <= T) ->
  midi_read Debug cbs true order = Ok h ->
  Forall (fun v => fate (beat_ticks cbs) 0 None v = Converts) (h_voices h) /\ (exists s, song_from_midi_file Debug w order false p tf = Ok s) \/
  Exists (fun v => fate (beat_ticks cbs) 0 None v = Crashes) (h_voices h) /\ song_from_midi_file Debug w order false p tf = Panic POverflow.
Proof.
  intros Hw Hty Ho Hfo Hmv Htb HT0 HT Hlen H. destruct (voices_timed _ _ _ _ T Hty Ho Hfo Hmv HT0 Hlen H) as (E & Hm & Hv). unfold song_from_midi_file. rewrite Hw, H. cbn [bind].
  unfold song_from_midi. rewrite E. destruct (convert_checked (h_voices h) (beat_ticks cbs) (h_max_time h) tf T Htb HT Hm Hv (proj1 (proj2 (read_voices _ _ _ _ _ Hty Ho H)))) as [(A1 & trs & ->)|[A1 ->]]; cbn [bind].
  - left. split; [exact A1|]. eauto.
  - right. split; [exact A1|reflexivity].
Qed.

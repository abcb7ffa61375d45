(** NoCrash.v: in a release build, converting a MIDI file never crashes (C75). *)
From Coq Require Import ZArith List Bool Lia ZifyBool ZifyNat Permutation.
From Verif Require Import Base F32 ProofLib Messages Command Track SeqTree Song Midi Cli SpecTime SpecVoice SpecExact SpecMidi SpecNotes SpecVoices
  SplitProofs MergeProofs LoopProofs VoiceProofs DistributeProofs ReadProofs ReadProofs2 FileProofs TotalProofs SongProofs OptProofs OptExpand ExactProofs.
Open Scope list_scope.

(** ** The messages of the channels are those of the tracks, whatever their times. *)
Lemma sort_in l x : In x (sort_msgs l) -> In x l.
Proof. intros H. eapply Permutation_in; [|exact H]. apply Permutation_sym. apply sort_stable. Qed.
Lemma channel_messages b (P : message -> Prop) ts chs : Forall (Forall P) ts -> tracks_to_channels b ts = Ok chs -> Forall (Forall (fun x => P (fst x))) chs.
Proof.
  intros HF H. unfold tracks_to_channels in H. inv_bind H. injection H as <-.
  assert (K : Forall (Forall (fun x : tmsg => P (fst x))) a).
  { assert (H0 : Forall (Forall (fun x : tmsg => P (fst x))) (repeat [] 16)) by (apply Forall_forall; intros x Hx; apply repeat_spec in Hx; subst x; constructor).
    revert Ha H0. generalize (repeat (@nil tmsg) 16). induction HF as [|tr ts Htr _ IH]; intros chs Ha H0; cbn [ofold] in Ha; [injection Ha as <-; exact H0|].
    inv_bind Ha. apply (IH _ Ha). clear IH Ha. unfold distribute_track in Ha0. inv_bind Ha0. injection Ha0 as <-. rename a1 into st.
    revert Ha H0. generalize 0%Z. revert chs st. induction Htr as [|m tr Hm _ IH]; intros chs st t Ha H0; cbn [ofold] in Ha; [injection Ha as <-; exact H0|].
    inv_bind Ha. destruct a0 as [c2 t2]. apply (IH _ _ _ Ha). rewrite distribute_message_eq in Ha0. destruct (addr_nat m) as [c|]; [|injection Ha0 as <- _; exact H0].
    inv_bind Ha0. inv_bind Ha0. injection Ha0 as -> ->. destruct (push_at_ok _ _ _ _ Ha2) as (_ & _ & Hn).
    apply Forall_forall. intros l Hl. apply In_nth with (d := []) in Hl. destruct Hl as (j & _ & <-). rewrite Hn.
    assert (Hj : Forall (fun x : tmsg => P (fst x)) (nth j chs [])).
    { destruct (nth_in_or_default j chs []) as [Hin|E]; [rewrite Forall_forall in H0; apply H0; exact Hin|rewrite E; constructor]. }
    destruct (Nat.eqb j c); [|exact Hj]. apply Forall_app. split; [exact Hj|]. constructor; [exact Hm|constructor]. }
  apply Forall_map. eapply Forall_impl; [|exact K]. intros l Hl. apply Forall_forall. intros x Hx. rewrite Forall_forall in Hl. apply Hl. apply sort_in. exact Hx.
Qed.
Lemma voices_valid b cbs complete order h : Forall callback_typed cbs -> (forall k, permutes (order k)) ->
  Forall (Forall midi_valid) (tracks_of cbs) -> midi_read b cbs complete order = Ok h ->
  Forall (Forall (fun x => midi_valid (fst x))) (h_voices h).
Proof.
  intros Hty Ho Hmv H.
  destruct (midi_read_inv _ _ _ _ _ H Hty) as (r & chs & ivs & mx & base & Hr & _ & Hc & Hok & _ & _ & Hb & Hv & _).
  destruct (read_ok_tracks _ _ _ _ _ H) as (_ & _ & tpb' & Hr'). rewrite Hr in Hr'. injection Hr' as ->. cbn [r_tracks] in *.
  pose proof (channel_messages _ _ _ _ Hmv Hc) as Hmsg.
  destruct (channels_merge chs Hok) as (m & Hm & Hsm & Htm & _ & Hrun).
  rewrite Hrun in Hv by exact Ho. inv_bind Hv. injection Hv as <-.
  assert (Hval : Forall (fun x => midi_valid (fst x)) m).
  { apply Forall_forall. intros x Hx.
    apply (Permutation_in x (interleave_perm _ _ (ordered_interleave _ _ Hm))) in Hx. apply in_concat in Hx. destruct Hx as (ch & Hch & Hx).
    rewrite Forall_forall in Hmsg. specialize (Hmsg ch Hch). rewrite Forall_forall in Hmsg. apply Hmsg. exact Hx. }
  destruct (kept_run base m a Hb Htm Ha Hval) as (Hmsgs & _).
  apply Forall_forall. intros v Hin. apply Forall_forall. intros x Hx. apply In_nth with (d := []) in Hin. destruct Hin as (i & _ & Ei).
  apply (Hmsgs i x). unfold vv in *. rewrite <- Ei in Hx. exact Hx.
Qed.
Lemma alternates_single v : forall open, alternates open v -> single_notes (match open with Some _ => true | None => false end) v = true.
Proof.
  induction v as [|[m t] v IH]; intros open H; cbn [single_notes]; [reflexivity|].
  destruct m as [|d []| |]; cbn [alternates] in H; unfold one_note_on, now_on; cbn [fst andb]; try (apply IH; exact H).
  - destruct H as [_ H]. exact (IH None H).
  - destruct H as (-> & _ & H). exact (IH _ H).
Qed.
Lemma convert_release vs tpb mt tf : Forall (Forall (fun x => midi_valid (fst x))) vs -> Forall (alternates None) vs ->
  exists trs, convert_voices Release vs tpb mt tf = Ok trs.
Proof.
  induction vs as [|v vs IH]; intros H1 H2; cbn [convert_voices]; [eauto|]. inversion H1; subst. inversion H2; subst.
  pose proof (release_exact tpb tf v mt H3) as K. rewrite (alternates_single v None H5) in K. destruct K as [tr ->]. cbn [bind].
  destruct (IH H4 H6) as [trs ->]. cbn [bind]. destruct tr; eauto.
Qed.
Lemma song_release vs tpb mt tf opt : Forall (Forall (fun x => midi_valid (fst x))) vs -> Forall (alternates None) vs ->
  exists s, song_from_midi Release vs tpb mt tf opt = Ok s.
Proof.
  intros H1 H2. unfold song_from_midi. destruct (convert_release vs tpb mt tf H1 H2) as [trs ->]. cbn [bind]. destruct opt; [|eauto].
  destruct (optimize_ends trs (length trs) (Nat.le_refl _)) as ((r & ->) & _). cbn [bind]. eauto.
Qed.
Lemma file_release w order opt p tf cbs complete : midi_file w p = (cbs, complete) ->
  Forall callback_typed cbs -> (forall k, permutes (order k)) ->
  Forall (Forall channel_ok) (tracks_of cbs) -> Forall (Forall midi_valid) (tracks_of cbs) ->
  (exists s, song_from_midi_file Release w order opt p tf = Ok s) /\ format1 false cbs = true /\ complete = true \/
  song_from_midi_file Release w order opt p tf = Err ECouldntFit /\ format1 false cbs = true /\ complete = true \/
  song_from_midi_file Release w order opt p tf = Err EMidiRead /\ format1 false cbs = true /\ complete = false \/
  (exists c, song_from_midi_file Release w order opt p tf = Panic c) /\ format1 false cbs = false.
Proof.
  intros Hw Hty Ho Hch Hmv. unfold song_from_midi_file. rewrite Hw. destruct (format1 false cbs) eqn:Ef.
  2:{ right; right; right. split; [|reflexivity]. unfold midi_read. destruct (callbacks_bad cbs [] 0 Ef) as [q ->]. cbn [bind]. eauto. }
  destruct complete.
  2:{ right; right; left. split; [|auto]. unfold midi_read. destruct (callbacks_ok cbs 0 Ef) as [tpb ->]. reflexivity. }
  destruct (read_total_release cbs order Hty Ho Ef Hch) as [(h & Hr)|Hr].
  - left. split; [|auto]. rewrite Hr. cbn [bind]. apply song_release; [eapply voices_valid; eassumption|]. apply (read_voices _ _ _ _ _ Hty Ho Hr).
  - right; left. split; [|auto]. rewrite Hr. reflexivity.
Qed.

(** EndProofs.v: proofs for C64 (the end of a song). *)
From Coq Require Import ZArith List Bool Lia ZifyBool ZifyNat Permutation Sorted.
From Verif Require Import Base ProofLib F32 Messages Command Track SeqTree Song Paths Manifest Midi Json Cli SpecMidi SpecNotes SpecVoices SpecVoice SpecTime SpecNspc
  SpecLoop SpecRom SpecAram SpecSong SpecPlayback SpecFile SpecHeard MergeProofs ReadProofs ReadProofs2 VoiceProofs DistributeProofs TotalProofs LoopProofs
  InstrProofs TrackProofs SplitProofs SlideProofs CodecProofs AramMore SongProofs PlaybackProofs GateProofs HeardProofs FileProofs SettingProofs FileSettings.
Ltac Zify.zify_post_hook ::= Z.div_mod_to_equations.
Open Scope Z_scope.
Open Scope list_scope.

(** ** The end of the file *)
Lemma interval_end b i ch : forall s s', ofold (interval_step b i) ch s = Ok s' ->
  is_max s' = is_max s \/ exists d e, In (MidiEvent d e, is_max s') ch.
Proof.
  induction ch as [|[m t] ch IH]; intros s s' H; [injection H as <-; auto|].
  cbn [ofold] in H. inv_bind H.
  assert (H1 : is_max a = is_max s \/ exists d e, m = MidiEvent d e /\ is_max a = t).
  { destruct m as [|d e| |]; cbn [interval_step] in Ha; try (injection Ha as <-; auto).
    destruct e; try inv_bind Ha; injection Ha as <-; cbn [is_max]; (destruct (is_max s <? t)); eauto. }
  destruct (IH _ _ H) as [E|(d & e & Hin)]; [|right; exists d, e; now right].
  destruct H1 as [H1|(d & e & -> & H1)]; [left; congruence|]. right. exists d, e. left. congruence.
Qed.
Lemma intervals_end b chs : forall i mx r, all_intervals b chs i mx = Ok r ->
  snd r = mx \/ exists d e ch, In ch chs /\ In (MidiEvent d e, snd r) ch.
Proof.
  induction chs as [|ch chs IH]; intros i mx r H; cbn [all_intervals] in H.
  - injection H as <-. auto.
  - inv_bind H. inv_bind H. injection H as <-. cbn [snd]. pose proof (interval_end _ _ _ _ _ Ha) as H1. cbn [is_max] in H1.
    destruct (IH _ _ _ Ha0) as [E|(d & e & ch' & Hc & Hi)].
    + destruct H1 as [H1|(d & e & H1)]; [left; congruence|]. right. exists d, e, ch. split; [now left|]. now rewrite E.
    + right. exists d, e, ch'. split; [now right|exact Hi].
Qed.
Lemma intervals_file_end b ts chs mx ivs : length chs = 16%nat -> (forall c, stable_sort_of (file_order ts c) (nth c chs [])) -> file_ok ts ->
  all_intervals b chs 0 0 = Ok (ivs, mx) -> file_end ts mx.
Proof.
  intros HL Hs Hty Hiv. destruct (intervals_max _ _ _ _ _ Hiv) as (H0 & Hmax & _). cbn [snd] in H0, Hmax.
  assert (Hx : forall x, In x (flat_map (timed 0) ts) -> channel_ok (fst x) /\ 0 <= snd x).
  { intros x Hin. apply in_flat_map in Hin. destruct Hin as (tr & Htr & Hin). unfold file_ok in Hty. rewrite Forall_forall in Hty.
    specialize (Hty tr Htr). unfold track_ok in Hty. rewrite Forall_forall in Hty. destruct (Hty x Hin) as (H1 & _ & H2). split; [exact H1|lia]. }
  assert (Hle : forall d e t, In (MidiEvent d e, t) (flat_map (timed 0) ts) -> t <= mx).
  { intros d e t Hin. destruct (Hx _ Hin) as [Hch _]. unfold channel_ok in Hch. cbn [fst addressee] in Hch.
    apply (Hmax d e t (nth (Z.to_nat (event_channel e)) chs [])).
    - apply nth_In. lia.
    - destruct (Hs (Z.to_nat (event_channel e))) as [Hp _]. apply (Permutation_in _ Hp). apply filter_In. split; [exact Hin|].
      unfold for_channel. cbn [fst addressee]. lia. }
  assert (Hct : forall u, In u (channel_times ts) -> 0 <= u <= mx).
  { intros u Hu. apply in_map_iff in Hu. destruct Hu as ([msg t] & <- & Hi). apply filter_In in Hi. destruct Hi as [Hi Hf].
    cbn [fst] in Hf. destruct msg; try discriminate. split; [exact (proj2 (Hx _ Hi))|exact (Hle _ _ _ Hi)]. }
  split; [apply Forall_forall; intros u Hu; apply Hct; exact Hu|].
  destruct (intervals_end _ _ _ _ _ Hiv) as [E|(d & e & ch & Hc & Hi)]; cbn [snd] in *.
  - destruct (channel_times ts) as [|u l] eqn:Eu; [right; auto|]. left. specialize (Hct u (or_introl eq_refl)). left. lia.
  - left. apply in_map_iff. exists (MidiEvent d e, mx). split; [reflexivity|]. apply filter_In. split; [|reflexivity].
    apply In_nth with (d := []) in Hc. destruct Hc as (c & _ & <-). destruct (Hs c) as [Hp _]. apply (Permutation_in _ (Permutation_sym Hp)) in Hi. apply filter_In in Hi. apply Hi.
Qed.
Lemma reading_end b ts voices chs base m s mx ivs : reading ts voices chs base m s -> file_ok ts ->
  all_intervals b chs 0 0 = Ok (ivs, mx) -> file_end ts mx.
Proof. intros [Hok _ Hs _ _ _ _ _ _ _ _]. apply intervals_file_end; [apply Hok|exact Hs]. Qed.

(** ** The steps of a voice *)
Lemma event_steps_heard es es' : map (heard false) es = map (heard false) es' -> map event_steps es = map event_steps es'.
Proof.
  revert es'. induction es as [|e es IH]; intros [|e' es'] H; try discriminate; [reflexivity|]. cbn [map] in *. injection H as E1 E2 H.
  rewrite (IH _ H). f_equal. unfold event_steps. rewrite <- E1 in E2. rewrite <- E1. destruct (SpecAram.sounding (ev_token e)); [now rewrite E2|reflexivity].
Qed.
Lemma prescribed_steps tr : Forall lasting tr -> forall dur vs, map event_steps (prescribed tr dur vs) = map steps tr.
Proof.
  induction 1 as [|pc tr Hpc _ IH]; intros dur vs; [reflexivity|]. cbn [prescribed map]. rewrite IH. f_equal.
  unfold event_steps. cbn [ev_token ev_dur]. now apply lasting_steps.
Qed.
Lemma control_steps l : zsum (map event_steps (control_events l)) = 0.
Proof.
  induction l as [|[op ps] l IH]; [reflexivity|]. change (0 + zsum (map event_steps (control_events l)) = 0). lia.
Qed.
Definition steps_of (es : list event) : list Z := match es with [] => [] | _ => [played_steps es] end.
Lemma song_ends b voices tpb mt n tf opt s trs mem a lp at_ :
  song_from_midi b voices tpb mt tf opt = Ok s -> (length voices <= 8)%nat -> 1 <= tpb <= 65535 -> voices_ok tpb mt n voices ->
  voice_tracks b voices tpb mt tf trs -> Forall seven_bit trs -> (opt = true -> keeps_music trs (tracks s)) ->
  song_in mem a lp s at_ -> mem 0 = None ->
  exists ess, song_plays mem a ess /\ forall es, In es ess -> es <> [] -> Z.abs (played_steps es * tpb - 24 * mt) < tolerance tpb (S n).
Proof.
  intros H Hv8 Hg HV Htr Hsh Hopt Hin H0.
  destruct (song_each steps_of (fun v => match track_new b v tpb mt tf with Ok (_ :: _) => [tt] | _ => [] end)
    (fun x _ => Z.abs (x * tpb - 24 * mt) < tolerance tpb (S n)) b voices tpb mt n tf opt s trs mem a lp at_) as (ess & Hp & HF); try assumption; [reflexivity| |].
  - intros v t Hi Hok Hn Ht. rewrite Ht. split; [now intros ->|]. intros Ht0 m i pre es Hm Hi' Hf E.
    destruct t as [|c t]; [congruence|]. clear Ht0.
    + assert (Hne : exists e es', control_events pre ++ es = e :: es').
      { destruct es as [|e es]; [discriminate|]. destruct (control_events pre); cbn [app]; eauto. }
      destruct Hne as (e & es' & Ee). unfold steps_of. rewrite Ee, <- Ee. constructor; [|constructor].
      unfold played_steps. rewrite map_app, zsum_app, control_steps, (event_steps_heard _ _ E).
      rewrite (prescribed_steps (c :: t)) by (eapply converted_lasting; eassumption).
      assert (Ht' : c :: t <> []) by discriminate.
      pose proof (conversion_end b tpb tf v mt (c :: t) Hg Hok Ht Ht') as HC. unfold total_steps in HC.
      pose proof (tolerance_mono tpb (S (length v)) (S n) ltac:(lia)). lia.
  - exists ess. split; [exact Hp|]. intros es He Hne.
    assert (Hin' : In (played_steps es) (flat_map steps_of ess)).
    { apply in_flat_map. exists es. split; [exact He|]. destruct es; [congruence|now left]. }
    clear - HF Hin'. induction HF as [|x y l l' Hx _ IH]; [contradiction|]. destruct Hin' as [<-|Hi]; auto.
Qed.
Lemma file_ending b w order opt p tf s s0 cbs mem a lp at_ :
  midi_file w p = (cbs, true) -> Forall callback_typed cbs -> (forall k, permutes (order k)) ->
  renderable (beat_ticks cbs) (tracks_of cbs) ->
  song_from_midi_file b w order opt p tf = Ok s -> song_from_midi_file b w order false p tf = Ok s0 ->
  Forall seven_bit (tracks s0) -> (opt = true -> keeps_music (tracks s0) (tracks s)) ->
  song_in mem a lp s at_ -> mem 0 = None ->
  exists ess end_, song_plays mem a ess /\ file_end (tracks_of cbs) end_ /\
    forall es, In es ess -> es <> [] ->
      Z.abs (played_steps es * beat_ticks cbs - 24 * end_) < tolerance (beat_ticks cbs) (S (6 * file_size (tracks_of cbs))).
Proof.
  intros Ew Hty Ho Hrf Hs Hs0 Hsb Hopt Hin H0. unfold song_from_midi_file in Hs, Hs0. rewrite Ew in Hs, Hs0.
  inv_bind Hs0. rename a0 into h. rename Ha into Hh. rewrite Hh in Hs. cbn [bind] in Hs.
  unfold song_from_midi in Hs0. inv_bind Hs0. cbv zeta in Hs0. injection Hs0 as <-. cbn [tracks] in *. rename a0 into trs.
  apply convert_voices_spec in Ha. rename Ha into Htr.
  destruct (file_voices_calm b cbs order h Hty Ho Hh Hrf) as (Etpb & Hv8 & Hvok & _ & _).
  destruct (file_reading b cbs order h Hty Ho Hh Hrf) as (chs & base & m & st & Hrd & _ & mx & ivs & Hiv & Hmx & _). rewrite Etpb in *.
  assert (Hv8' : (length (h_voices h) <= 8)%nat) by (rewrite Hv8; constructor).
  destruct (song_ends b _ _ _ _ _ _ _ _ _ _ _ _ Hs Hv8' (rf_beat _ _ Hrf) Hvok Htr Hsb Hopt Hin H0) as (ess & Hess & HF).
  exists ess, (h_max_time h). split; [exact Hess|]. split; [|exact HF]. rewrite Hmx. exact (reading_end b _ _ _ _ _ _ _ _ Hrd (rf_ok _ _ Hrf) Hiv).
Qed.

(** SlideFile.v: files that never switch portamento on have no slides (C82). *)
From Coq Require Import ZArith List Bool Lia ZifyBool ZifyNat Permutation Sorted.
From Verif Require Import Base ProofLib F32 Messages Command Track SeqTree Song Paths Manifest Midi Json Cli SpecMidi SpecNotes SpecVoices SpecVoice
  SpecLoop SpecRom SpecAram SpecSong SpecPlayback SpecFile SpecSlide MergeProofs LoopProofs VoiceProofs DistributeProofs ReadProofs ReadProofs2
  TrackProofs InstrProofs TotalProofs AramMore SongProofs PlaybackProofs FileProofs HeardProofs SpecNspc SpecConsole.
Import ListNotations.
Open Scope Z_scope.

Definition ns (pc : pcmd) : Prop := forall d t k, cmd pc <> PitchSlide d t k.

(** ** One voice *)
Lemma ns_step b tpb tf s ev s' : Forall ns (commands s) -> portamento s = false -> switches_on (fst ev) = false ->
  track_step b tpb tf s ev = Ok s' -> Forall ns (commands s') /\ portamento s' = false.
Proof.
  intros HI HP Hev H. destruct ev as [m t]. cbn [track_step fst] in *.
  assert (Hplain : forall c, (forall d t' k, c <> PitchSlide d t' k) -> Forall ns (commands s ++ [plain_cmd c])).
  { intros c Hc. apply Forall_app. split; [assumption|]. constructor; [exact Hc|constructor]. }
  assert (Hrests : forall l, Forall (fun c => cmd c = Rest /\ velocity c = None) l -> Forall ns l).
  { intros l Hl. eapply Forall_impl; [|exact Hl]. intros c (E & _) d t' k. rewrite E. discriminate. }
  destruct m as [dt ev data|dt ev|dt ev data|].
  - destruct ev as [|kd]; cbn [on_meta] in H; [|injection H as <-; auto].
    inv_bind H. injection H as <-. cbn [set_commands commands portamento]. split; [apply Hplain; discriminate|exact HP].
  - destruct ev as [ch k v|ch k v|ch k v|ch ctl d|ch p|ch p|ch d|ch]; try (injection H as <-; auto; fail).
    + unfold on_note_off in H. destruct (note_start s) as [st|]; [|injection H as <-; auto].
      inv_bind H. inv_bind H. inv_bind H. inv_bind H. injection H as <-. cbn [commands portamento].
      split; [|exact HP]. apply Forall_app. split; [assumption|]. constructor.
      * intros d t' k'. cbn [cmd]. destruct (match last_opt (commands s) with Some c => is_slide c | None => false end).
        -- injection Ha1 as <-. discriminate.
        -- inv_bind Ha1. injection Ha1 as <-. discriminate.
      * unfold overflow_ties. destruct (0 <? overflow_count a0); [|constructor]. apply Forall_app. split.
        -- apply Forall_forall. intros x Hx. apply repeat_spec in Hx. subst x. intros ? ? ?. discriminate.
        -- constructor; [intros ? ? ?; discriminate|constructor].
    + unfold on_note_on in H. inv_bind H. destruct a as [c1 e]. inv_bind H. destruct (note_start s); [discriminate|].
      injection H as <-. cbn [commands portamento]. apply insert_rest_rests in Ha. destruct Ha as (l1 & -> & H1).
      unfold push_slide in Ha0. rewrite HP in Ha0. injection Ha0 as <-. split; [|exact HP]. apply Forall_app. auto.
    + unfold on_control_change in H.
      destruct (ctl =? 5); [injection H as <-; auto|].
      destruct (ctl =? 7); [inv_bind H; injection H as <-; cbn [set_commands commands portamento]; split; [apply Hplain; discriminate|exact HP]|].
      destruct (ctl =? 37); [injection H as <-; auto|].
      cbn [switches_on] in Hev.
      destruct (ctl =? 65); injection H as <-; auto.
    + unfold on_program_change in H. inv_bind H. destruct a as [c1 e]. inv_bind H. injection H as <-. cbn [commands portamento].
      apply insert_rest_rests in Ha. destruct Ha as (l1 & -> & H1). split; [|exact HP]. apply Forall_app. split.
      * apply Forall_app. auto.
      * constructor; [intros ? ? ?; discriminate|constructor].
  - injection H as <-. auto.
  - injection H as <-. auto.
Qed.

Lemma ns_sustain n : forall l l', (length l <= n)%nat -> Forall ns l -> sustain_pass l = Ok l' -> Forall ns l'.
Proof.
  induction n as [|n IH]; intros l l' Hn Hl H.
  { destruct l; [|cbn in Hn; lia]. injection H as <-. exact Hl. }
  destruct l as [|c [|next l]]; [injection H as <-; exact Hl|injection H as <-; exact Hl|].
  rewrite sustain_pass_cons in H. inv_bind H. destruct a as [skip c']. inv_bind H. injection H as <-.
  assert (Hc : cmd c' = cmd c).
  { unfold set_sustain in Ha. destruct (cmd c) eqn:Ec; try (injection Ha as <- <-; auto; fail).
    destruct (cmd next); try (injection Ha as <- <-; auto; fail).
    inv_bind Ha. inv_bind Ha. destruct (_ =? 0); [discriminate|]. destruct (_ || _); injection Ha as <- <-; auto. }
  inversion Hl as [|? ? H1 H2]; subst. inversion H2 as [|? ? H3 H4]; subst. constructor.
  - unfold ns in *. rewrite Hc. exact H1.
  - cbn in Hn. destruct skip; [eapply (IH l)|eapply (IH (next :: l))]; try exact Ha0; try assumption; cbn; lia.
Qed.

Lemma ns_track b events tpb mt tf tr : Forall (fun x => switches_on (fst x) = false) events ->
  track_new b events tpb mt tf = Ok tr -> no_slides tr.
Proof.
  intros Hev. unfold track_new. intros H. inv_bind H.
  assert (A : Forall ns (commands a) /\ portamento a = false).
  { refine (ofold_inv (fun s => Forall ns (commands s) /\ portamento s = false) _ _ _ _ _ _ Ha); [|split; [constructor|reflexivity]].
    intros s x s' Hin [Hs1 Hs2] Hx. rewrite Forall_forall in Hev. eapply ns_step; eauto. }
  destruct A as [A _]. destruct (commands a) as [|c0 cs] eqn:Ec; [injection H as <-; constructor|]. rewrite <- Ec in *.
  inv_bind H. refine (ns_sustain _ _ _ (le_n _) _ H).
  destruct (last_note_end a <? mt).
  - destruct a0 as [c1 e]. apply insert_rest_rests in Ha0. destruct Ha0 as (l & -> & Hl). cbn [fst].
    apply Forall_app. split; [exact A|]. eapply Forall_impl; [|exact Hl]. intros c (E & _) d t' k. rewrite E. discriminate.
  - injection Ha0 as <-. exact A.
Qed.

(** ** From the tracks of a file to its channels *)
Definition off_row (l : list tmsg) : Prop := Forall (fun x : tmsg => switches_on (fst x) = false) l.
Lemma off_message b chs t m r : Forall off_row chs -> switches_on m = false ->
  distribute_message b (chs, t) m = Ok r -> Forall off_row (fst r).
Proof.
  intros Hc Hm H. rewrite distribute_message_eq in H. destruct (addr_nat m) as [c|].
  - inv_bind H. inv_bind H. injection H as <-. cbn [fst]. destruct (push_at_ok _ _ _ _ Ha0) as (H1 & H2 & H3).
    apply Forall_forall. intros x Hx. apply In_nth_error in Hx. destruct Hx as [j Hx].
    assert (Hj : (j < length a0)%nat) by (eapply nth_error_lt; exact Hx).
    assert (Hn : off_row (nth j chs [])).
    { rewrite Forall_forall in Hc. apply Hc, nth_In. lia. }
    specialize (H3 j). rewrite (nth_error_nth _ _ _ Hx) in H3. subst x.
    destruct (Nat.eqb j c); [|exact Hn]. apply Forall_app. split; [exact Hn|]. constructor; [exact Hm|constructor].
  - injection H as <-. exact Hc.
Qed.
Lemma off_channels b ts chs : never_on ts -> tracks_to_channels b ts = Ok chs -> Forall off_row chs.
Proof.
  intros HF H. unfold tracks_to_channels in H. inv_bind H. injection H as <-.
  assert (Hraw : Forall off_row a).
  { apply (ofold_inv (fun c => Forall off_row c)) in Ha; [exact Ha| |].
    - intros s x s' Hin Hs Hx. unfold distribute_track in Hx. inv_bind Hx. injection Hx as <-.
      apply (ofold_inv (fun r => Forall off_row (fst r))) in Ha0; [exact Ha0| |exact Hs].
      intros [c t] y [c' t'] Hy Hc He. unfold never_on in HF. rewrite Forall_forall in HF. specialize (HF x Hin). rewrite Forall_forall in HF.
      exact (off_message _ _ _ _ _ Hc (HF y Hy) He).
    - apply Forall_forall. intros l Hl. apply repeat_spec in Hl. subst. constructor. }
  apply Forall_forall. intros l Hl. apply in_map_iff in Hl. destruct Hl as (l' & <- & Hl').
  eapply Permutation_Forall; [apply sort_stable|]. rewrite Forall_forall in Hraw. exact (Hraw _ Hl').
Qed.

(** ** From the channels to the voices *)
Definition off_opt (o : option message) : Prop := match o with Some m => switches_on m = false | None => True end.
Definition off_state (p : list tmsg) (s : vstate) : Prop :=
  off_row p -> (forall v, off_row (vv s v)) /\ Forall off_opt (v_ctrl s) /\ Forall off_opt (v_prog s) /\ Forall off_opt (v_pitch s).
Lemma off_nth l c : Forall off_opt l -> off_opt (nth c l None).
Proof.
  intros H. destruct (Nat.lt_ge_cases c (length l)) as [Hc|Hc].
  - rewrite Forall_forall in H. apply H, nth_In, Hc.
  - rewrite nth_overflow by exact Hc. exact I.
Qed.
Lemma off_prelude s c k d t voice x : Forall off_opt (v_ctrl s) -> Forall off_opt (v_prog s) -> Forall off_opt (v_pitch s) ->
  In x (prelude s c k d t voice) -> switches_on (fst x) = false.
Proof.
  intros H1 H2 H3 Hin. unfold prelude in Hin. apply in_app_or in Hin. destruct Hin as [Hin|Hin].
  - destruct (match nth voice (v_chan s) None with Some c' => Z.of_nat c' =? c | None => false end); [destruct Hin|].
    apply in_app_or in Hin. destruct Hin as [Hin|Hin]; [|apply in_app_or in Hin; destruct Hin as [Hin|Hin]];
      apply in_opt_msg in Hin; destruct Hin as (m & E & ->); cbn [fst].
    + pose proof (off_nth _ (Z.to_nat c) H1) as H. rewrite E in H. exact H.
    + pose proof (off_nth _ (Z.to_nat c) H2) as H. rewrite E in H. exact H.
    + pose proof (off_nth _ (Z.to_nat c) H3) as H. rewrite E in H. exact H.
  - destruct (_ && _); [|destruct Hin]. destruct Hin as [<-|[]]. reflexivity.
Qed.
Lemma off_run base p s : base_ok base -> Forall typed p -> ofold (vstep base) p (vstate0 base) = Ok s -> off_state p s.
Proof.
  intros Hb. apply (run_ind base off_state Hb).
  - intros _. unfold vstate0, vv. cbn [v_voices v_ctrl v_prog v_pitch]. split; [|split; [|split]].
    + intros v. rewrite nth_repeat. constructor.
    + apply Forall_forall. intros o Ho. apply repeat_spec in Ho. subst. exact I.
    + apply Forall_forall. intros o Ho. apply repeat_spec in Ho. subst. exact I.
    + apply Forall_forall. intros o Ho. apply repeat_spec in Ho. subst. exact I.
  - clear p s. intros p m t s s1 IH Hv Hr _ Hty (px & Hpx & Hstep) Hval.
    apply Forall_app in Hval. destruct Hval as [Hval Hm]. inversion Hm as [|? ? Hm' _]; subst. cbn [fst] in Hm'.
    destruct (IH Hval) as (H1 & H2 & H3 & H4). clear IH Hm Hval.
    assert (Hgo : (forall v x, In x (px v) -> switches_on (fst x) = false) -> forall v, off_row (vv s1 v)).
    { intros Hp v. rewrite Hpx. apply Forall_app. split; [apply H1|]. apply Forall_forall. apply Hp. }
    assert (Hone : forall b : bool, forall x, In x (if b then [(m, t)] else []) -> switches_on (fst x) = false).
    { intros [] x Hx; [|destruct Hx]. destruct Hx as [<-|[]]. exact Hm'. }
    destruct m as [? [] ?|d [c k vel|c k vel|c k vel|c ctl dat|c pr|c pr|c dat|c]|? ? ?|].
    all: try (destruct Hstep as (_ & _ & _ & Hp & E1 & E2 & E3); rewrite E1, E2, E3; split; [|auto]; apply Hgo;
      intros v x Hx; destruct (Hp v) as [Hp'|Hp']; rewrite Hp' in Hx; [apply (Hone false x Hx)|apply (Hone true x Hx)]; fail).
    + destruct Hstep as (Hp & _ & E1 & E2 & E3 & _). rewrite E1, E2, E3. split; [|auto]. apply Hgo.
      intros v x Hx. rewrite Hp in Hx. apply in_on_voice in Hx. subst x. reflexivity.
    + destruct Hstep as (E1 & E3 & Hstep). rewrite E1, E3.
      assert (Hoff : forall v x, In x (on_voice (lookup (v_active s) c k) (MidiEvent d (NoteOff c k vel), t) v) -> switches_on (fst x) = false).
      { intros v x Hx. apply in_on_voice in Hx. subst x. reflexivity. }
      destruct (0 <? vel).
      * destruct Hstep as (voice & _ & Hp & _ & _ & Hpe). split; [|split; [exact H2|split; [|exact H4]]].
        -- apply Hgo. intros v x Hx. rewrite Hp in Hx. apply in_app_or in Hx. destruct Hx as [Hx|Hx]; [eauto|].
           destruct (Nat.eqb v voice); [|destruct Hx]. apply in_app_or in Hx. destruct Hx as [Hx|[<-|[]]]; [|reflexivity].
           eapply off_prelude; [| | |exact Hx]; assumption.
        -- destruct (_ && _); [|destruct Hpe as (_ & ->); exact H3]. destruct Hpe as (_ & Hs).
           eapply forall_set_nth; [exact H3| |exact Hs]. reflexivity.
      * destruct Hstep as (Hp & _ & E2 & _). rewrite E2. split; [|auto]. apply Hgo. intros v x Hx. rewrite Hp in Hx. eauto.
    + destruct Hstep as (_ & _ & _ & Hp & E2 & E3 & Hc). rewrite E2, E3. split; [apply Hgo; intros v x Hx; rewrite Hp in Hx; eapply Hone; exact Hx|].
      split; [|auto]. destruct Hc as [->|Hs]; [exact H2|]. eapply forall_set_nth; [exact H2| |exact Hs]. exact Hm'.
    + destruct Hstep as (_ & _ & _ & Hp & Hs & E1 & E3). rewrite E1, E3. split; [apply Hgo; intros v x Hx; rewrite Hp in Hx; eapply Hone; exact Hx|].
      split; [exact H2|]. split; [|exact H4]. eapply forall_set_nth; [exact H3| |exact Hs]. reflexivity.
    + destruct Hstep as (_ & _ & _ & Hp & E2 & E1 & Hs). rewrite E1, E2. split; [apply Hgo; intros v x Hx; rewrite Hp in Hx; eapply Hone; exact Hx|].
      split; [exact H2|]. split; [exact H3|]. eapply forall_set_nth; [exact H4| |exact Hs]. reflexivity.
Qed.

Lemma off_voices b cbs complete order h : Forall callback_typed cbs -> (forall k, permutes (order k)) -> never_on (tracks_of cbs) ->
  midi_read b cbs complete order = Ok h -> Forall off_row (h_voices h).
Proof.
  intros HF Ho Hn H. destruct (read_ok_tracks _ _ _ _ _ H) as (_ & _ & tpb & Er).
  destruct (midi_read_inv _ _ _ _ _ H HF) as (r & chs & ivs & mx & base & Er' & _ & Hch & Hok & _ & _ & Hb & Hv & _).
  rewrite Er in Er'. injection Er' as <-. cbn [r_tracks] in Hch.
  pose proof (off_channels _ _ _ Hn Hch) as Hoff.
  destruct (channels_merge chs Hok) as (m & Hm & _ & Hty & _ & Hrun). rewrite (Hrun base order Ho) in Hv. inv_bind Hv. injection Hv as Hv.
  assert (Hmo : off_row m).
  { apply Forall_forall. intros x Hx. apply (Permutation_in x (interleave_perm _ _ (ordered_interleave _ _ Hm))) in Hx. apply in_concat in Hx.
    destruct Hx as (l & Hl & Hx). rewrite Forall_forall in Hoff. specialize (Hoff l Hl). unfold off_row in Hoff. rewrite Forall_forall in Hoff. auto. }
  destruct (off_run _ _ _ Hb Hty Ha Hmo) as (Hvo & _). rewrite <- Hv.
  apply Forall_forall. intros l Hl. apply In_nth_error in Hl. destruct Hl as [j Hj]. specialize (Hvo j). unfold vv in Hvo.
  rewrite (nth_error_nth _ _ _ Hj) in Hvo. exact Hvo.
Qed.

(** ** The song *)
Lemma file_no_slides b w order opt p tf s cbs :
  midi_file w p = (cbs, true) -> Forall callback_typed cbs -> (forall k, permutes (order k)) -> never_on (tracks_of cbs) ->
  song_from_midi_file b w order opt p tf = Ok s -> Forall no_slides (tracks s).
Proof.
  intros Ew Hty Ho Hn Hs. unfold song_from_midi_file in Hs. rewrite Ew in Hs. inv_bind Hs.
  pose proof (off_voices _ _ _ _ _ Hty Ho Hn Ha) as Hv.
  unfold song_from_midi in Hs. inv_bind Hs. cbv zeta in Hs. apply convert_voices_spec in Ha0.
  assert (Htr : Forall no_slides a0).
  { destruct Ha0 as (ts & HF & ->). apply Forall_forall. intros tr Hin. apply filter_In in Hin. destruct Hin as [Hin _].
    clear -HF Hv Hin. revert Hv Hin. induction HF as [|ev t vs ts' E _ IH]; intros Hv Hin; [destruct Hin|]. inversion Hv; subst.
    destruct Hin as [<-|Hin]; [eapply ns_track; eauto|auto]. }
  destruct opt; [|injection Hs as <-; exact Htr].
  inv_bind Hs. injection Hs as <-. cbn [tracks]. eapply Forall_impl; [|exact (optimize_from _ _ _ Ha1)].
  intros tr Hfs. eapply Forall_impl; [|exact Hfs]. intros pc [(tr0 & H1 & H2)|(t & k & _ & ->)]; [|discriminate].
  rewrite Forall_forall in Htr. specialize (Htr tr0 H1). unfold no_slides in Htr. rewrite Forall_forall in Htr. auto.
Qed.

(** ** What the driver plays *)
Lemma slide_token c : (forall d t k, c <> PitchSlide d t k) -> forall args, token_of c <> TControl 0xf9 args.
Proof. intros Hc args E. destruct c; cbn in E; try discriminate; try (injection E as E; lia). eapply Hc. reflexivity. Qed.
Lemma prescribed_no_slides tr : no_slides tr -> forall dur vs, Forall (fun e => forall args, ev_token e <> TControl 0xf9 args) (prescribed tr dur vs).
Proof.
  induction 1 as [|pc tr Hpc _ IH]; intros dur vs; [constructor|]. cbn [prescribed]. constructor; [|apply IH].
  intros args. cbn [ev_token]. apply slide_token. exact Hpc.
Qed.
Lemma heard_no_slides es1 : forall es2, map (heard false) es1 = map (heard false) es2 ->
  Forall (fun e => forall args, ev_token e <> TControl 0xf9 args) es2 -> Forall (fun e => forall args, ev_token e <> TControl 0xf9 args) es1.
Proof.
  induction es1 as [|e1 es1 IH]; intros [|e2 es2] H H2; try discriminate; [constructor|].
  cbn [map] in H. injection H as H1 _ H3. inversion H2; subst. constructor; [rewrite H1; assumption|eauto].
Qed.
Lemma forall2_imp {A B} (P Q : A -> B -> Prop) l1 l2 : (forall x y, P x y -> Q x y) -> Forall2 P l1 l2 -> Forall2 Q l1 l2.
Proof. intros H. induction 1; constructor; auto. Qed.
Lemma file_slides_heard b w order opt p tf cbs s mem a lp at_ :
  (forall k, permutes (order k)) -> good_midi b w order opt p tf cbs -> never_on (tracks_of cbs) ->
  song_from_midi_file b w order opt p tf = Ok s -> song_in mem a lp s at_ -> mem 0 = None ->
  exists ess, song_plays mem a ess /\ Forall (Forall (fun e => forall args, ev_token e <> TControl 0xf9 args)) ess.
Proof.
  intros Ho (Ew & Hty & Hrf & s0 & Hs0 & Hsb & Hopt) Hn Hs Hin H0.
  assert (Hkeep : opt = true -> keeps_music (tracks s0) (tracks s)) by (intros ->; now apply Hopt).
  clear Hopt. pose proof (file_no_slides _ _ _ _ _ _ _ _ Ew Hty Ho Hn Hs0) as Hns.
  unfold song_from_midi_file in Hs, Hs0. rewrite Ew in Hs, Hs0. inv_bind Hs0. rename a0 into h. rename Ha into Hh. rewrite Hh in Hs. cbn [bind] in Hs.
  unfold song_from_midi in Hs0. inv_bind Hs0. cbv zeta in Hs0. injection Hs0 as <-. cbn [tracks] in *. rename a0 into trs.
  apply convert_voices_spec in Ha. rename Ha into Htr.
  destruct (file_voices b cbs order h Hty Ho Hh Hrf) as (Etpb & Hv8 & Hvok & _). rewrite Etpb in *.
  assert (Hv8' : (length (h_voices h) <= 8)%nat) by (rewrite Hv8; constructor).
  assert (Hl : loud_ok false opt s trs) by discriminate.
  destruct (song_events false b _ _ _ _ _ _ _ _ _ _ _ _ Hs Hv8' (rf_beat _ _ Hrf) Hvok Htr Hsb Hkeep Hl Hin H0) as (ess & Hess & Hpart & Hall).
  eexists. split; [exact Hess|]. apply Forall_app. split.
  - assert (Hframe : forall i pre, (i < length trs)%nat -> frame_cmds s i pre ->
      Forall (fun e => forall args, ev_token e <> TControl 0xf9 args) (control_events pre)).
    { intros i pre Hi (F1 & F2 & _). rewrite Hpart in F1, F2. destruct i as [|i].
      - destruct (length trs) as [|n]; [lia|]. rewrite F1 by (exists (seq 1 n); left; reflexivity).
        repeat constructor; intros args; discriminate.
      - rewrite F2.
        + repeat constructor; intros args; discriminate.
        + intros q [Hq|[]]. destruct (length trs); discriminate.
        + exists (seq 0 (length trs)). split; [left; reflexivity|]. apply in_seq. lia. }
    assert (Hall' : Forall2 (fun es tr => exists es1 es2, Forall (fun e => forall args, ev_token e <> TControl 0xf9 args) es1 /\ es = es1 ++ es2 /\
      map (heard false) es2 = map (heard false) (prescribed tr None None)) ess trs).
    { eapply forall2_imp; [|exact Hall]. intros es tr (i & pre & es' & Hi & Hpre & -> & Hm). exists (control_events pre), es'.
      split; [exact (Hframe i pre Hi Hpre)|]. auto. }
    clear -Hall' Hns. induction Hall' as [|es tr ess trs (es1 & es2 & H1 & -> & Hm) _ IH]; [constructor|]. inversion Hns; subst. constructor; [|auto].
    apply Forall_app. split; [exact H1|]. eapply heard_no_slides; [exact Hm|]. now apply prescribed_no_slides.
  - apply Forall_forall. intros es Hes. apply repeat_spec in Hes. subst. constructor.
Qed.

(** FileSettings.v: from a MIDI file to the tempo and the instruments of the driver (C61, C62). *)
From Coq Require Import ZArith List Bool Lia ZifyBool ZifyNat Permutation Sorted String.
From Verif Require Import Base ProofLib F32 Messages Command Track SeqTree Song Paths Manifest Midi Json Cli SpecMidi SpecNotes SpecVoices SpecVoice SpecNspc
  SpecLoop SpecRom SpecAram SpecSong SpecPlayback SpecFile SpecControl SpecHeard MergeProofs LoopProofs VoiceProofs DistributeProofs ReadProofs ReadProofs2 InstrProofs
  TotalProofs AramMore SongProofs PlaybackProofs FileProofs FileExamples HeardProofs SettingProofs.
Ltac Zify.zify_post_hook ::= Z.div_mod_to_equations.
Open Scope Z_scope.
Open Scope list_scope.

(** ** Tempo changes go to voice 0 *)
Lemma run_ind3 base (P : list tmsg -> vstate -> Prop) : base_ok base -> P [] (vstate0 base) ->
  (forall p m t s s1, P p s -> vinv s -> typed (m, t) -> vstep base s (m, t) = Ok s1 -> step_spec base s m t s1 -> P (p ++ [(m, t)]) s1) ->
  forall p s, Forall typed p -> ofold (vstep base) p (vstate0 base) = Ok s -> P p s.
Proof.
  intros Hb H0 Hstep p. induction p as [|[m t] p IH] using rev_ind; intros s Ht E.
  - injection E as <-. exact H0.
  - rewrite ofold_app in E. inv_bind E. apply Forall_app in Ht. destruct Ht as [Ht1 Ht2]. inversion Ht2 as [|? ? Hx _]; subst.
    destruct (sound_run base p Hb _ _ (vinv0 base) (remembered0 base) Ht1 (sound_inv0 base) Ha) as (Hv & Hr & Hs).
    cbn [ofold] in E. destruct (step_result base a m t Hv Hb (proj1 Hx)) as [(s1 & E1 & _ & Hsp)|[E1 _]]; [|rewrite E1 in E; discriminate].
    pose proof E1 as E1'. rewrite E1 in E. injection E as <-. exact (Hstep p m t a s1 (IH a Ht1 Ha) Hv Hx E1' Hsp).
Qed.
Definition not_tempo (o : option message) : Prop := match o with Some m => is_tempo (m, 0) = false | None => True end.
Definition tempo_inv (p : list tmsg) (s : vstate) : Prop :=
  (forall v, filter is_tempo (vv s v) = if Nat.eqb v 0 then filter is_tempo p else []) /\
  Forall not_tempo (v_ctrl s) /\ Forall not_tempo (v_prog s) /\ Forall not_tempo (v_pitch s).
Lemma tempo_opt l c t : Forall not_tempo l -> filter is_tempo (opt_msg (nth c l None) t) = [].
Proof.
  intros H. assert (Hn : not_tempo (nth c l None)).
  { destruct (Nat.lt_ge_cases c (length l)); [rewrite Forall_forall in H; apply H, nth_In; assumption|rewrite nth_overflow by assumption; exact I]. }
  destruct (nth c l None) as [m|]; [|reflexivity]. cbn [opt_msg filter]. change (is_tempo (m, t)) with (is_tempo (m, 0)). cbn in Hn. now rewrite Hn.
Qed.
Lemma tempo_off o d c k vel t v : filter is_tempo (on_voice o (MidiEvent d (NoteOff c k vel), t) v) = [].
Proof. unfold on_voice. destruct o as [w|]; [|reflexivity]. destruct (Nat.eqb v w); reflexivity. Qed.
Lemma tempo_prelude s c k d t voice : Forall not_tempo (v_ctrl s) -> Forall not_tempo (v_prog s) -> Forall not_tempo (v_pitch s) ->
  filter is_tempo (prelude s c k d t voice) = [].
Proof.
  intros H1 H2 H3. unfold prelude. rewrite filter_app.
  destruct (match nth voice (v_chan s) None with Some c' => Z.of_nat c' =? c | None => false end).
  - destruct (_ && _); reflexivity.
  - rewrite !filter_app, !tempo_opt by assumption. destruct (_ && _); reflexivity.
Qed.
Lemma tempo_run base p s : base_ok base -> Forall typed p -> ofold (vstep base) p (vstate0 base) = Ok s -> tempo_inv p s.
Proof.
  intros Hb. apply (run_ind3 base tempo_inv Hb).
  - unfold vstate0, tempo_inv, vv. cbn [v_voices v_ctrl v_prog v_pitch]. split; [|split; [|split]].
    + intros v. rewrite nth_repeat. destruct (Nat.eqb v 0); reflexivity.
    + apply Forall_forall. intros o Ho. apply repeat_spec in Ho. subst. exact I.
    + apply Forall_forall. intros o Ho. apply repeat_spec in Ho. subst. exact I.
    + apply Forall_forall. intros o Ho. apply repeat_spec in Ho. subst. exact I.
  - clear p s. intros p m t s s1 (H1 & H2 & H3 & H4) Hv Hty E Hstep.
    destruct (is_tempo (m, t)) eqn:Et.
    + destruct m as [d [|kind] data|d e|d e data|]; try discriminate. unfold vstep, voice_step in E. cbn [fst] in E. inv_bind E. injection E as <-.
      destruct (push_one (v_voices s) 0 (MetaEvent d SetTempo data, t)) as (vs & E' & HL & Hn); [rewrite (vi_voices _ Hv); lia|].
      assert (Hvs : a = vs) by (rewrite E' in Ha; injection Ha as <-; reflexivity). subst a. clear Ha.
      split; [|split; [exact H2|split; [exact H3|exact H4]]]. intros v.
      change (vv (set_voices s vs) v) with (nth v vs []). rewrite Hn, filter_app. change (nth v (v_voices s) []) with (vv s v). rewrite H1, filter_app.
      destruct (Nat.eqb v 0); reflexivity.
    + assert (Hp : filter is_tempo (p ++ [(m, t)]) = filter is_tempo p) by (rewrite filter_app; cbn [filter]; rewrite Et; apply app_nil_r).
      destruct Hstep as (px & Hpx & Hstep).
      assert (Hgo : (forall v, filter is_tempo (px v) = []) -> forall v, filter is_tempo (vv s1 v) = if Nat.eqb v 0 then filter is_tempo (p ++ [(m, t)]) else []).
      { intros Hx v. rewrite Hpx, filter_app, Hx, app_nil_r, Hp. apply H1. }
      assert (Hone : forall bb : bool, filter is_tempo (if bb then [(m, t)] else []) = []) by (intros []; [cbn [filter]; now rewrite Et|reflexivity]).
      assert (Hm : not_tempo (Some m)) by exact Et. unfold tempo_inv.
      destruct m as [? [] ?|d [c k vel|c k vel|c k vel|c ctl dat|c pr|c pr|c dat|c]|? ? ?|].
      all: try (destruct Hstep as (_ & _ & _ & Hq & E1 & E2 & E3); rewrite E1, E2, E3;
        split; [apply Hgo; intros v; destruct (Hq v) as [-> | ->]; [apply (Hone false)|apply (Hone true)]|split; [exact H2|split; [exact H3|exact H4]]]; fail).
      * destruct Hstep as (Hq & _ & E1 & E2 & E3 & _). rewrite E1, E2, E3.
        split; [apply Hgo; intros v; rewrite Hq; apply tempo_off|split; [exact H2|split; [exact H3|exact H4]]].
      * destruct Hstep as (E1 & E3 & Hstep). rewrite E1, E3. destruct (0 <? vel).
        -- destruct Hstep as (voice & _ & Hq & _ & _ & Hpe). split; [|split; [exact H2|split; [|exact H4]]].
           ++ apply Hgo. intros v. rewrite Hq, filter_app, tempo_off. destruct (Nat.eqb v voice); [|reflexivity].
              rewrite filter_app, tempo_prelude by assumption. reflexivity.
           ++ destruct (_ && _); [|destruct Hpe as [_ ->]; exact H3]. destruct Hpe as [_ Hset]. eapply forall_set_nth; [exact H3| |exact Hset]. reflexivity.
        -- destruct Hstep as (Hq & _ & E2 & _). rewrite E2.
           split; [apply Hgo; intros v; rewrite Hq; apply tempo_off|split; [exact H2|split; [exact H3|exact H4]]].
      * destruct Hstep as (_ & _ & _ & Hq & E2 & E3 & E1). rewrite E2, E3.
        split; [apply Hgo; intros v; rewrite Hq; apply Hone|]. split; [|split; [exact H3|exact H4]].
        destruct E1 as [->|E1]; [exact H2|]. eapply forall_set_nth; [exact H2|exact Hm|exact E1].
      * destruct Hstep as (_ & _ & _ & Hq & E2 & E1 & E3). rewrite E1, E3.
        split; [apply Hgo; intros v; rewrite Hq; apply Hone|]. split; [exact H2|]. split; [|exact H4]. eapply forall_set_nth; [exact H3|exact Hm|exact E2].
      * destruct Hstep as (_ & _ & _ & Hq & E2 & E1 & E3). rewrite E1, E2.
        split; [apply Hgo; intros v; rewrite Hq; apply Hone|]. split; [exact H2|]. split; [exact H3|]. eapply forall_set_nth; [exact H4|exact Hm|exact E3].
Qed.

(** ** The tempo changes of the voices are those of the file *)
Lemma perm_filter {A} (f : A -> bool) l l' : Permutation l l' -> Permutation (filter f l) (filter f l').
Proof. apply filter_perm. Qed.
Lemma filter_comm {A} (f g : A -> bool) l : filter f (filter g l) = filter g (filter f l).
Proof. induction l as [|x l IH]; [reflexivity|]. cbn [filter]. destruct (f x) eqn:Ef, (g x) eqn:Eg; cbn [filter]; rewrite ?Ef, ?Eg, ?IH; reflexivity. Qed.
Lemma stable_filter f l l' : stable_sort_of l l' -> stable_sort_of (filter f l) (filter f l').
Proof.
  intros (H1 & H2 & H3). split; [now apply perm_filter|]. split; [now apply sorted_filter|]. intros x.
  rewrite (filter_comm (same_place x) f), H3, (filter_comm f (same_place x)). reflexivity.
Qed.
Lemma tempo_channel l : filter is_tempo (filter (for_channel 0) l) = filter is_tempo l.
Proof.
  induction l as [|x l IH]; [reflexivity|]. cbn [filter]. destruct (is_tempo x) eqn:E.
  - assert (Hf : for_channel 0 x = true) by (unfold for_channel; destruct x as [[] ?]; try discriminate; reflexivity).
    rewrite Hf. cbn [filter]. rewrite E, IH. reflexivity.
  - destruct (for_channel 0 x); [cbn [filter]; rewrite E|]; exact IH.
Qed.
Lemma flat_map_zero {A B} (f : list A -> list B) (l : list (list A)) (x : list B) : (0 < length l)%nat ->
  (forall v, f (nth v l []) = if Nat.eqb v 0 then x else []) -> flat_map f l = x.
Proof.
  intros Hl H. destruct l as [|a l]; [cbn in Hl; lia|]. cbn [flat_map]. rewrite (H 0%nat : f a = x).
  assert (E : flat_map f l = []); [|now rewrite E, app_nil_r].
  assert (H' : forall v, (v < length l)%nat -> f (nth v l []) = []) by (intros v _; exact (H (S v))).
  clear - H'. induction l as [|b l IH]; [reflexivity|]. cbn [flat_map]. rewrite (H' 0%nat ltac:(cbn; lia) : f b = []).
  apply IH. intros v Hv. exact (H' (S v) ltac:(cbn; lia)).
Qed.
Lemma voice_tempos b cbs order h l : Forall callback_typed cbs -> (forall k, permutes (order k)) ->
  midi_read b cbs true order = Ok h -> renderable (beat_ticks cbs) (tracks_of cbs) -> file_tempos (tracks_of cbs) l ->
  flat_map (filter is_tempo) (h_voices h) = l.
Proof.
  intros Hty Ho H Hrf Hl.
  destruct (midi_read_inv _ _ _ _ _ H Hty) as (r & chs & ivs & mx & base & Hr & _ & Hc & Hok & Hiv & Hfb & Hb & Hv & Htpb & Hmx).
  destruct (read_ok_tracks _ _ _ _ _ H) as (_ & _ & tpb' & Hr'). rewrite Hr in Hr'. injection Hr' as ->. cbn [r_tracks r_tpb] in *.
  set (ts := tracks_of cbs) in *.
  destruct (merge_ok b ts (rf_ok _ _ Hrf)) as (chs' & Hc' & HL & Hs). rewrite Hc in Hc'. injection Hc' as <-.
  destruct (distribution _ _ _ _ Hok Hb Ho Hv) as (Hv8 & _).
  destruct (channels_merge chs Hok) as (m & Hm & _ & Htm & _ & Hrun).
  rewrite Hrun in Hv by exact Ho. inv_bind Hv. injection Hv as Hv.
  destruct (tempo_run base m a Hb Htm Ha) as (Ht & _).
  rewrite (flat_map_zero (filter is_tempo) (h_voices h) (filter is_tempo m)).
  - rewrite <- (tempo_channel m), (channel_of_merge chs m 0 Hok (ordered_interleave _ _ Hm)) by lia.
    eapply stable_sort_unique; [|exact Hl]. unfold file_tempos in *. rewrite <- tempo_channel. apply stable_filter. exact (Hs 0%nat).
  - rewrite Hv8. lia.
  - intros v. rewrite <- Hv. apply Ht.
Qed.
Lemma tempo_changes tf v : Forall (fun x => midi_valid (fst x)) v -> forall an so,
  Forall2 (fun c x => control_of tf (fst x) = Some (ch_cmd c) /\ ch_time c = snd x)
    (filter (picked TEMPO) (changes_from tf an so v)) (filter is_tempo v).
Proof.
  induction 1 as [|[m t] v Hm _ IH]; intros an so; [constructor|]. cbn [changes_from filter fst] in *. rewrite filter_app.
  specialize (IH (if anchors so m then t else an) (still_sounding so m)).
  destruct (is_tempo (m, t)) eqn:Et.
  - destruct m as [d [|kind] data|d e|d e data|]; try discriminate. cbn [midi_valid] in Hm.
    destruct data as [|x [|y [|z data]]]; cbn [List.length] in Hm; try lia. cbn [control_of filter]. cbn [app].
    replace (picked TEMPO _) with true by reflexivity. cbn [app]. constructor; [split; reflexivity|exact IH].
  - assert (Hn : filter (picked TEMPO) match control_of tf m with Some c => [mk_change t (if anchors so m then t else an) c] | None => [] end = []).
    { destruct m as [d [|kind] data|d e|d e data|]; try discriminate; try reflexivity. destruct e; try reflexivity. cbn [control_of]. destruct (_ =? 7); reflexivity. }
    rewrite Hn. exact IH.
Qed.

(** ** The song *)
Lemma file_tempo b w order opt p tf s s0 cbs mem a lp at_ :
  midi_file w p = (cbs, true) -> Forall callback_typed cbs -> (forall k, permutes (order k)) ->
  renderable (beat_ticks cbs) (tracks_of cbs) ->
  song_from_midi_file b w order opt p tf = Ok s -> song_from_midi_file b w order false p tf = Ok s0 ->
  Forall seven_bit (tracks s0) -> (opt = true -> keeps_music (tracks s0) (tracks s)) ->
  song_in mem a lp s at_ -> mem 0 = None ->
  exists ess, song_plays mem a ess /\ forall l, file_tempos (tracks_of cbs) l ->
    Forall2 (fun x m => control_of tf (fst m) = Some (Tempo (snd x)) /\
        fst x * beat_ticks cbs - 24 * snd m < tolerance (beat_ticks cbs) (6 * file_size (tracks_of cbs)))
      (flat_map (told TEMPO) ess) l.
Proof.
  intros Ew Hty Ho Hrf Hs Hs0 Hsb Hopt Hin H0. unfold song_from_midi_file in Hs, Hs0. rewrite Ew in Hs, Hs0.
  inv_bind Hs0. rename a0 into h. rename Ha into Hh. rewrite Hh in Hs. cbn [bind] in Hs.
  unfold song_from_midi in Hs0. inv_bind Hs0. cbv zeta in Hs0. injection Hs0 as <-. cbn [tracks] in *. rename a0 into trs.
  apply convert_voices_spec in Ha. rename Ha into Htr.
  destruct (file_voices_calm b cbs order h Hty Ho Hh Hrf) as (Etpb & Hv8 & Hvok & Hcalm & _). rewrite Etpb in *.
  assert (Hso : Forall in_order (h_voices h)) by (eapply Forall_impl; [|exact Hcalm]; intros v (_ & Hv & _); exact Hv).
  assert (Hv8' : (length (h_voices h) <= 8)%nat) by (rewrite Hv8; constructor).
  destruct (song_tempos b _ _ _ _ _ _ _ _ _ _ _ _ Hs Hv8' (rf_beat _ _ Hrf) Hvok Hso Htr Hsb Hopt Hin H0) as (ess & Hess & HF).
  exists ess. split; [exact Hess|]. intros l Hl. rewrite <- (voice_tempos b cbs order h l Hty Ho Hh Hrf Hl).
  assert (HG : Forall2 (fun c x => control_of tf (fst x) = Some (ch_cmd c) /\ ch_time c = snd x)
    (flat_map (fun v => filter (picked TEMPO) (changes_of tf v)) (h_voices h)) (flat_map (filter is_tempo) (h_voices h))).
  { clear - Hvok. induction Hvok as [|v l (Hv & _) _ IH]; [constructor|]. cbn [flat_map]. apply Forall2_app; [|exact IH].
    apply tempo_changes. exact (voice_valid _ _ _ Hv). }
  clear - HF HG. revert HG. generalize (flat_map (filter is_tempo) (h_voices h)).
  induction HF as [|x c l1 l2 (E1 & E2 & _) _ IH]; intros l HG; inversion HG as [|? m ? l' (G1 & G2) HG']; subst; constructor; [|now apply IH].
  rewrite <- G2. split; [|exact E2]. rewrite G1. f_equal. unfold arg in E1. destruct (ch_cmd c); try discriminate E1.
  cbn in E1. injection E1 as ->. reflexivity.
Qed.

(** ** Notes of a voice with their programs *)
Fixpoint struck (cur : option (Z * Z)) (l : list tmsg) : list (note * option (Z * Z)) :=
  match l with
  | [] => []
  | (MidiEvent _ (ProgramChange c p), _) :: r => struck (Some (c, p)) r
  | (MidiEvent _ (NoteOn c k v), t) :: r => (mk_note c k t (voice_end r) v, cur) :: struck cur r
  | _ :: r => struck cur r
  end.
Lemma struck_notes l : forall cur, map fst (struck cur l) = voice_notes l.
Proof.
  induction l as [|[m t] l IH]; intros cur; [reflexivity|].
  destruct m as [|d [c k vel|c k vel|c k vel|c ctl dat|c pr|c pr|c dat|c]| |]; cbn [struck voice_notes map fst]; try apply IH. f_equal. apply IH.
Qed.
Lemma struck_in l : forall cur n q, In (n, q) (struck cur l) ->
  exists l1 d l2, l = l1 ++ (MidiEvent d (NoteOn (nt_ch n) (nt_key n) (nt_vel n)), nt_on n) :: l2 /\ q = over (last_program l1) cur.
Proof.
  induction l as [|[m t] l IH]; intros cur n q Hin; [destruct Hin|].
  assert (Hskip : forall cur', (forall l1, over (last_program ((m, t) :: l1)) cur = over (last_program l1) cur') -> In (n, q) (struck cur' l) ->
    exists l1 d l2, (m, t) :: l = l1 ++ (MidiEvent d (NoteOn (nt_ch n) (nt_key n) (nt_vel n)), nt_on n) :: l2 /\ q = over (last_program l1) cur).
  { intros cur' Hc Hi. destruct (IH cur' n q Hi) as (l1 & d & l2 & -> & ->). exists ((m, t) :: l1), d, l2. split; [reflexivity|]. now rewrite Hc. }
  destruct m as [|d [c k vel|c k vel|c k vel|c ctl dat|c pr|c pr|c dat|c]| |]; cbn [struck] in Hin; try (eapply Hskip; [|exact Hin]; reflexivity).
  - destruct Hin as [Hin|Hin]; [|eapply Hskip; [|exact Hin]; reflexivity]. injection Hin as <- <-. exists [], d, l. split; reflexivity.
  - eapply Hskip; [|exact Hin]. intros l1. cbn [last_program]. destruct (last_program l1); reflexivity.
Qed.
Definition instrument (q : Z * Z) : Z := if fst q =? 9 then snd q else instrument_of_program (snd q).
Definition inst_of (x : note * option (Z * Z)) : option Z := option_map instrument (snd x).
Definition ends (x : note * option (Z * Z)) : bool := ended (fst x).
Lemma instruments_agree tf l : Forall (fun x => midi_valid (fst x)) l -> forall cur,
  (alternates None l -> calm None l -> sets_of INSTRUMENT (option_map instrument cur) (outline_from tf None l) = map inst_of (filter ends (struck cur l))) /\
  (forall c k on vel, alternates (Some (c, k)) l -> calm (Some k) l ->
     sets_of INSTRUMENT (option_map instrument cur) (outline_from tf (Some vel) l) =
     map inst_of (filter ends ((mk_note c k on (voice_end l) vel, cur) :: struck cur l))).
Proof.
  induction 1 as [|[m t] l Hm _ IH]; intros cur; [split; reflexivity|].
  destruct (IH cur) as [IH1 IH2]. cbn [fst] in Hm. split.
  - intros Ha Hc. destruct m as [d [|] data|d [c' k vel|c' k vel|c' k vel|c' ctl dat|c' pr|c' pr|c' dat|c']| |];
      cbn [alternates calm outline_from control_of struck] in *; try (exact (IH1 Ha Hc)).
    + cbn [midi_valid] in Hm. destruct data as [|x [|y [|z data]]]; cbn [List.length] in Hm; try lia. exact (IH1 Ha Hc).
    + destruct Ha as [(k' & Ha & _) _]. discriminate.
    + destruct Ha as (_ & _ & Ha). exact (IH2 c' k t vel Ha Hc).
    + destruct (ctl =? 7); exact (IH1 Ha Hc).
    + destruct Hc as [_ Hc]. cbn [sets_of]. destruct (IH (Some (c', pr))) as [IH3 _]. rewrite <- (IH3 Ha Hc). reflexivity.
  - intros c k on vel0 Ha Hc. destruct m as [d [|] data|d [c' k' vel|c' k' vel|c' k' vel|c' ctl dat|c' pr|c' pr|c' dat|c']| |];
      cbn [alternates calm outline_from control_of struck voice_end] in *; try (exact (IH2 c k on vel0 Ha Hc)).
    + cbn [midi_valid] in Hm. destruct data as [|x [|y [|z data]]]; cbn [List.length] in Hm; try lia. exact (IH2 c k on vel0 Ha Hc).
    + destruct Hc as [Hc1 Hc]. destruct Ha as [_ Ha]. cbn [sets_of filter]. unfold ends at 1. cbn [fst ended nt_off]. cbn [map]. f_equal. exact (IH1 Ha Hc).
    + destruct Ha as [Ha _]. discriminate.
    + destruct (ctl =? 7); exact (IH2 c k on vel0 Ha Hc).
    + destruct Hc as [Hc1 _]. discriminate.
Qed.

(** ** Channels that play one note at a time stay on their base voices *)
Lemma filter_key c k l x : In x (filter (for_channel c) l) -> note_key (fst x) = Some k -> on_key (Z.of_nat c) k (fst x) = true.
Proof.
  intros Hin Hk. apply filter_In in Hin. destruct Hin as [_ Hc]. unfold for_channel in Hc.
  destruct (fst x) as [|? []| |]; cbn in *; try discriminate; injection Hk as ->; lia.
Qed.
Lemma on_key_key c k m : on_key c k m = true -> note_key m = Some k /\ addressee m = Some c.
Proof. destruct m as [|? []| |]; cbn; try discriminate; intros H; split; f_equal; lia. Qed.
Lemma run_iinv2 base p : base_ok base -> forall s, Forall typed p -> ofold (vstep base) p (vstate0 base) = Ok s -> iinv2 base p s.
Proof.
  intros Hb. induction p as [|[m t] p IH] using rev_ind; intros s Ht E.
  - injection E as <-. apply iinv2_0.
  - rewrite ofold_app in E. inv_bind E. apply Forall_app in Ht. destruct Ht as [Ht1 Ht2]. inversion Ht2 as [|? ? Hx _]; subst.
    cbn [ofold] in E. inv_bind E. injection E as <-. apply (step_iinv2 base p a m t a0 Hb (IH a Ht1 Ha) Hx Ha0).
Qed.
Lemma in_sorted {A} (R : A -> A -> Prop) l1 x l2 y : StronglySorted R (l1 ++ x :: l2) -> In y l1 -> R y x.
Proof.
  induction l1 as [|z l1 IH]; intros Hs Hin; [destruct Hin|]. cbn [app] in Hs. inversion Hs as [|? ? Hs' HF]; subst. destruct Hin as [->|Hin]; [|now apply IH].
  rewrite Forall_forall in HF. apply HF, in_or_app. right. now left.
Qed.
Lemma run_mono base m c : base_ok base -> Forall typed m -> StronglySorted not_after m -> snares_released (drums m) -> pcs_calm base m ->
  (c < 16)%nat -> one_at_a_time (filter (for_channel c) m) ->
  (forall i, (i < 16)%nat -> i <> c -> nth i base 0%nat = nth c base 0%nat -> apart (filter (for_channel c) m) (filter (for_channel i) m)) ->
  forall p q s, m = p ++ q -> ofold (vstep base) p (vstate0 base) = Ok s ->
  forall v, each_on (fun _ x => forall d k vel t, x = (MidiEvent d (NoteOn (Z.of_nat c) k vel), t) -> v = nth c base 0%nat) (vv s v).
Proof.
  intros Hb Hty Hsort Hsn Hpc Hc Hone Hapart p. induction p as [|[ev t] p IH] using rev_ind; intros q s Hm E v.
  - injection E as <-. rewrite vv0. apply each_on_nil.
  - rewrite ofold_app in E. inv_bind E. cbn [ofold] in E. inv_bind E. injection E as <-. rename a into s. rename a0 into s1.
    rewrite <- app_assoc in Hm. cbn [app] in Hm.
    assert (Htp : Forall typed p) by (rewrite Hm in Hty; apply Forall_app in Hty; apply Hty).
    assert (Hx : typed (ev, t)) by (rewrite Forall_forall in Hty; apply Hty; rewrite Hm; apply in_or_app; right; left; reflexivity).
    pose proof (run_iinv2 base p Hb s Htp Ha) as Hii.
    destruct (step_iinv2 base p s ev t s1 Hb Hii Hx Ha0) as [Hii1 Hstep].
    assert (Hsp : snares_released (drums p)). { rewrite Hm in Hsn. unfold drums in *. rewrite filter_app in Hsn. now apply snares_prefix in Hsn. }
    assert (Hpp : pcs_calm base p). { rewrite Hm in Hpc. now apply pcs_prefix in Hpc. }
    destruct (keyed_run base p s Hb Htp Ha Hsp Hpp) as (_ & Hring & _).
    pose proof (IH ((ev, t) :: q) s Hm Ha v) as HE.
    pose proof Hstep as Hstep'. destruct Hstep' as (px & Hpx & Hst).
    eapply step_px; [apply Hii|apply Hii|apply Hii|exact Hstep|exact HE|].
    intros d i k vel px' -> Hvel Happ _ _ _ d' k' vel' t' Hinj. injection Hinj as E1 E2 E3 E4 E5. subst d' i k' vel' t'.
    destruct Hst as (_ & _ & Hst). replace (0 <? vel) with true in Hst by lia.
    destruct Hst as (voice & (_ & _ & _ & Hpref) & Hp & _ & _ & _).
    assert (Hvv : v = voice).
    { destruct (Nat.eqb_spec v voice) as [He|He]; [exact He|]. exfalso. specialize (Hp v). destruct (Nat.eqb_spec v voice); [contradiction|].
      rewrite app_nil_r in Hp. rewrite Hpx, Hp in Happ. apply app_inv_head in Happ.
      pose proof (on_voice_not_on (lookup (v_active s) (Z.of_nat c) k) d (Z.of_nat c) k vel t v) as Hno.
      assert (Hno' : Forall (fun x => is_on (fst x) = false) (px' ++ [(MidiEvent d (NoteOn (Z.of_nat c) (drum_key (Z.of_nat c) k) vel), t)])) by (rewrite <- Happ; exact Hno).
      apply Forall_app in Hno'. destruct Hno' as [_ Hno']. inversion Hno'; subst. discriminate. }
    subst voice. destruct Hpref as [Hpref|Hpref]; [now rewrite Nat2Z.id in Hpref|]. exfalso. rewrite Nat2Z.id in Hpref.
    destruct Hpref as (c' & k' & Hc' & Hl). unfold without in Hl.
    destruct ((c' =? Z.of_nat c) && (k' =? k)) eqn:Eck; [discriminate|].
    pose proof (Hring c' k' _ Hc' Hl) as Hr.
    destruct (ii_voice _ _ _ Hii c' k' _ Hc' Hl) as [[Hbb|Hbb] _]; [|apply Hbb, base_in; assumption].
    destruct Hr as (l1 & y & l2 & -> & Hy1 & Hy2 & Hy3).
    set (x := (MidiEvent d (NoteOn (Z.of_nat c) k vel), t)) in *.
    assert (Hxon : note_on (fst x) = true) by (cbn; lia).
    assert (Hxc : for_channel c x = true) by (unfold for_channel; cbn; lia).
    destruct (on_key_key _ _ _ Hy1) as [Hyk Hya].
    assert (Hyc : for_channel (Z.to_nat c') y = true) by (unfold for_channel; rewrite Hya; lia).
    destruct (Z.eqb_spec c' (Z.of_nat c)) as [He|He].
    + subst c'. rewrite Nat2Z.id in Hyc. cbn [andb] in Eck.
      destruct (Hone (filter (for_channel c) l1) y (filter (for_channel c) l2) x (filter (for_channel c) q)) as (z & Hz & Hzk).
      * rewrite Hm, <- app_assoc, filter_app. cbn [app filter]. rewrite Hyc, filter_app. cbn [filter]. rewrite Hxc. reflexivity.
      * exact Hy2.
      * exact Hxon.
      * rewrite Hyk. cbn. intros Heq. injection Heq as Heq. lia.
      * rewrite Hyk in Hzk. pose proof (filter_key c k' l2 z Hz Hzk) as Hzo. apply filter_In in Hz. destruct Hz as [Hz _].
        rewrite Forall_forall in Hy3. rewrite (Hy3 z Hz) in Hzo. discriminate.
    + apply (Hapart (Z.to_nat c') ltac:(lia) ltac:(lia) (eq_sym Hbb) x).
      * rewrite Hm, filter_app. apply in_or_app. right. cbn [filter]. rewrite Hxc. now left.
      * exact Hxon.
      * exists (filter (for_channel (Z.to_nat c')) l1), (fst y), (snd y), (filter (for_channel (Z.to_nat c')) (l2 ++ x :: q)).
        rewrite Hm, <- app_assoc, filter_app. cbn [app filter]. rewrite Hyc. split; [destruct y; reflexivity|]. split; [exact Hy2|].
        rewrite Hm in Hsort. split.
        -- assert (Hna : not_after y x) by (eapply in_sorted; [exact Hsort|]; apply in_or_app; right; now left).
           unfold not_after in Hna. cbn [snd x] in *. lia.
        -- intros z Hz Hzk. rewrite Hyk in Hzk. pose proof (filter_key _ _ _ _ Hz Hzk) as Hzo. apply filter_In in Hz. destruct Hz as [Hz _].
           rewrite Z2Nat.id in Hzo by lia. apply in_app_or in Hz. destruct Hz as [Hz|[<-|Hz]].
           ++ rewrite Forall_forall in Hy3. rewrite (Hy3 z Hz) in Hzo. discriminate.
           ++ cbn in Hzo. lia.
           ++ apply sorted_tail in Hsort. inversion Hsort as [|? ? _ HF]; subst. rewrite Forall_forall in HF. specialize (HF z Hz).
              assert (Hrx : rank (fst x) = 2) by (unfold rank; cbn; destruct (Z.eqb_spec vel 0); [lia|]; reflexivity).
              unfold not_after in HF. rewrite Hrx in HF. cbn [snd x] in *.
              destruct (note_on (fst z)) eqn:Ezon; [lia|]. left. unfold rank in HF. rewrite Ezon in HF. destruct (note_off (fst z)); lia.
Qed.

(** ** The instruments of a song *)
Lemma filter_ends l cur : map fst (filter ends (struck cur l)) = filter ended (voice_notes l).
Proof.
  rewrite <- (struck_notes l cur). induction (struck cur l) as [|x r IH]; [reflexivity|]. cbn [filter map]. unfold ends at 1.
  destruct (ended (fst x)); cbn [map]; rewrite IH; reflexivity.
Qed.
Lemma voice_instruments tf v : Forall (fun x => midi_valid (fst x)) v -> alternates None v -> calm None v ->
  Forall2 (fun x y => same_note (fst x) (fst y) /\ snd x = inst_of y)
    (combine (notes_of v) (sets_of INSTRUMENT None (outline_of tf v))) (filter ends (struck None v)).
Proof.
  intros Hv Ha Hc. destruct (instruments_agree tf v Hv None) as [E _]. specialize (E Ha Hc). unfold outline_of.
  change (option_map instrument None) with (@None Z) in E. rewrite E.
  pose proof (notes_agree v None 0 Ha Hc) as HN. change (notes_from None v) with (notes_of v) in HN. rewrite <- (filter_ends v None) in HN. revert HN. clear.
  generalize (notes_of v). induction (filter ends (struck None v)) as [|y r IH]; intros ns HN; inversion HN; subst; cbn [map combine]; constructor; auto.
Qed.
Definition plays_program (ts : list (list message)) (n : note) (set : option Z) : Prop :=
  forall c l p, nt_ch n = Z.of_nat c -> keeps_program ts c -> stable_sort_of (file_order ts c) l ->
    program_at l (nt_on n) = Some (nt_ch n, p) -> set = Some (instrument_of_program p).
Definition plays_drum (ts : list (list message)) (n : note) (set : option Z) : Prop :=
  nt_ch n = 9 -> keeps_drums ts -> exists d k, In (MidiEvent d (NoteOn 9 k (nt_vel n)), nt_on n) (flat_map (timed 0) ts) /\
    drum_key 9 k = nt_key n /\ set = Some (drum_instrument k).
Lemma drum_instr k : instr_of k = drum_instrument k.
Proof. reflexivity. Qed.
Lemma reading_programs ts voices chs base m s order : reading ts voices chs base m s -> channels_to_voices chs base order = Ok voices ->
  (forall k, permutes (order k)) -> forall v x, In v voices -> In x (struck None v) -> plays_program ts (fst x) (inst_of x) /\ plays_drum ts (fst x) (inst_of x).
Proof.
  intros [Hok Hb Hs Hm Hsm Htm Hrun Hv Hsn Hpf Htog] Hcv Ho v [n q] Hin Hx. cbn [fst].
  apply In_nth with (d := []) in Hin. destruct Hin as (j & _ & Ev).
  destruct (struck_in v None n q Hx) as (l1 & d & l2 & El & Eq).
  assert (El' : nth j voices [] = l1 ++ (MidiEvent d (NoteOn (nt_ch n) (nt_key n) (nt_vel n)), nt_on n) :: l2) by (rewrite Ev; exact El).
  assert (Hmono : forall c, (c < 16)%nat -> one_at_a_time (nth c chs []) ->
     (forall i, (i < 16)%nat -> i <> c -> together (nth c chs []) (nth i chs []) \/ apart (nth c chs []) (nth i chs [])) ->
     forall w d k vel t l1 l2, nth w voices [] = l1 ++ (MidiEvent d (NoteOn (Z.of_nat c) k vel), t) :: l2 -> w = nth c base 0%nat).
  { intros c Hc Hone Hap w d0 k0 vel0 t0 a1 a2 Ew.
    pose proof (run_mono base m c Hb Htm Hsm Hsn Hpf Hc) as HR. rewrite (channel_of_merge chs m c Hok Hm Hc) in HR. specialize (HR Hone).
    assert (HA : forall i, (i < 16)%nat -> i <> c -> nth i base 0%nat = nth c base 0%nat -> apart (nth c chs []) (filter (for_channel i) m)).
    { intros i Hi Hne Hbi. rewrite (channel_of_merge chs m i Hok Hm Hi). destruct (Hap i Hi Hne) as [Ht|Ha]; [|exact Ha].
      exfalso. apply (Htog c i Hc Hi (not_eq_sym Hne) Ht). now symmetry. }
    specialize (HR HA m [] s (eq_sym (app_nil_r m)) Hrun w). unfold vv in HR. rewrite Hv in HR.
    exact (HR _ _ _ Ew eq_refl d0 k0 vel0 t0 eq_refl). }
  split.
  - intros c l p Hn (Hc & H9 & Hk) Hl Hp. rewrite (stable_sort_unique _ _ _ Hl (Hs c)) in *. clear l Hl. destruct (Hk _ (Hs c)) as (Hsh & Hpr). clear Hk.
    assert (Hlast : last_program l1 = Some (nt_ch n, p)).
    { rewrite Hn in *. replace (nth c chs []) with (nth (Z.to_nat (Z.of_nat c)) chs []) in Hp by (now rewrite Nat2Z.id).
      eapply (own_instrument chs base order voices (Z.of_nat c) j); try eassumption; try lia. rewrite Nat2Z.id.
      destruct (Nat.eqb_spec j (nth c base 0%nat)) as [He|He].
      - intros i Hi Hne Hbi. destruct (Hsh i _ Hi Hne (Hs i)) as [Ht|Hq]; [|exact Hq]. exfalso. apply (Htog c i Hc Hi (not_eq_sym Hne) Ht). now symmetry.
      - destruct Hpr as [Hpr|[Hone Hap]]; [exact Hpr|]. exfalso. apply He. eapply Hmono; [exact Hc|exact Hone| |exact El'].
        intros i Hi Hne. exact (Hap i _ Hi Hne (Hs i)). }
    unfold inst_of. cbn [snd]. rewrite Eq, Hlast. cbn [over option_map]. unfold instrument. cbn [fst snd]. replace (nt_ch n =? 9) with false by lia. reflexivity.
  - intros Hn Hk. destruct (Hk _ (Hs 9%nat)) as (Hnone & Hone & Hsh). clear Hk. rewrite Hn in El'.
    destruct (own_percussion chs base order voices j l1 d (nt_key n) (nt_vel n) (nt_on n) l2 Hok Hb Ho Hcv) as (k & Hki & Hkk & Hkl).
    + intros i Hi Hbi. destruct (Nat.eq_dec i 9) as [->|Hne]; [exact Hnone|]. destruct (Hsh i _ Hi Hne (Hs i)) as [Ht|[Hq _]]; [|exact Hq].
      exfalso. apply (Htog 9%nat i ltac:(lia) Hi (not_eq_sym Hne) Ht). now symmetry.
    + intros w d' k' vel' t' Hw. apply in_split in Hw. destruct Hw as (b1 & b2 & Ew).
      apply (Hmono 9%nat ltac:(lia) Hone) with (d := d') (k := k') (vel := vel') (t := t') (l1 := b1) (l2 := b2); [|exact Ew].
      intros i Hi Hne. destruct (Hsh i _ Hi Hne (Hs i)) as [Ht|[_ Hq]]; auto.
    + exact El'.
    + exists d, k. split; [|split; [exact Hkk|]].
      * destruct (Hs 9%nat) as [Hperm _]. apply (Permutation_in _ (Permutation_sym Hperm)) in Hki. apply filter_In in Hki. apply Hki.
      * unfold inst_of. cbn [snd]. rewrite Eq, Hkl. reflexivity.
Qed.

Lemma file_instruments b w order opt p tf s s0 cbs mem a lp at_ :
  midi_file w p = (cbs, true) -> Forall callback_typed cbs -> (forall k, permutes (order k)) ->
  renderable (beat_ticks cbs) (tracks_of cbs) ->
  song_from_midi_file b w order opt p tf = Ok s -> song_from_midi_file b w order false p tf = Ok s0 ->
  Forall seven_bit (tracks s0) -> (opt = true -> keeps_music (tracks s0) (tracks s)) ->
  song_in mem a lp s at_ -> mem 0 = None ->
  exists notes ns ess, file_notes (tracks_of cbs) notes /\ Permutation ns (filter ended (map drum notes)) /\ song_plays mem a ess /\
    Forall2 (fun x n =>
        heard_at (beat_ticks cbs) (tolerance (beat_ticks cbs) (6 * file_size (tracks_of cbs))) (so_on x, so_pitch x) (nt_on n) (nt_key n) /\
        (forall c l p, nt_ch n = Z.of_nat c -> keeps_program (tracks_of cbs) c -> stable_sort_of (file_order (tracks_of cbs) c) l ->
           program_at l (nt_on n) = Some (nt_ch n, p) -> so_set x = Some (instrument_of_program p)) /\
        (nt_ch n = 9 -> keeps_drums (tracks_of cbs) ->
           exists d k, In (MidiEvent d (NoteOn 9 k (nt_vel n)), nt_on n) (flat_map (timed 0) (tracks_of cbs)) /\
             drum_key 9 k = nt_key n /\ so_set x = Some (drum_instrument k)))
      (flat_map (sounds_with INSTRUMENT) ess) ns.
Proof.
  intros Ew Hty Ho Hrf Hs Hs0 Hsb Hopt Hin H0. unfold song_from_midi_file in Hs, Hs0. rewrite Ew in Hs, Hs0.
  inv_bind Hs0. rename a0 into h. rename Ha into Hh. rewrite Hh in Hs. cbn [bind] in Hs.
  unfold song_from_midi in Hs0. inv_bind Hs0. cbv zeta in Hs0. injection Hs0 as <-. cbn [tracks] in *. rename a0 into trs.
  apply convert_voices_spec in Ha. rename Ha into Htr.
  destruct (file_voices_calm b cbs order h Hty Ho Hh Hrf) as (Etpb & Hv8 & Hvok & Hcalm & notes & Hfn & Hperm). rewrite Etpb in *.
  destruct (file_reading b cbs order h Hty Ho Hh Hrf) as (chs & base & m & vs & Hrd & Hcv & _).
  assert (Hv8' : (length (h_voices h) <= 8)%nat) by (rewrite Hv8; constructor).
  destruct (song_instruments b _ _ _ _ _ _ _ _ _ _ _ _ Hs Hv8' (rf_beat _ _ Hrf) Hvok Htr Hsb Hopt Hin H0) as (ess & Hess & HF).
  exists notes, (map fst (flat_map (fun v => filter ends (struck None v)) (h_voices h))), ess. split; [exact Hfn|]. split; [|split; [exact Hess|]].
  { assert (E : map fst (flat_map (fun v => filter ends (struck None v)) (h_voices h)) = flat_map (fun v => filter ended (voice_notes v)) (h_voices h)); [|rewrite E; exact Hperm].
    clear. induction (h_voices h) as [|v l IH]; [reflexivity|]. cbn [flat_map]. rewrite map_app, filter_ends, IH. reflexivity. }
  assert (HG : Forall2 (fun x y => same_note (fst x) (fst y) /\ snd x = inst_of y)
    (flat_map (fun v => combine (notes_of v) (sets_of INSTRUMENT None (outline_of tf v))) (h_voices h)) (flat_map (fun v => filter ends (struck None v)) (h_voices h))).
  { clear - Hvok Hcalm. induction Hvok as [|v l (Hv & _) _ IH]; [constructor|]. inversion Hcalm as [|? ? (A1 & _ & A3) Hcalm']; subst. cbn [flat_map].
    apply Forall2_app; [|now apply IH]. apply voice_instruments; [exact (voice_valid _ _ _ Hv)|exact A1|exact A3]. }
  assert (HP : forall y, In y (flat_map (fun v => filter ends (struck None v)) (h_voices h)) ->
     plays_program (tracks_of cbs) (fst y) (inst_of y) /\ plays_drum (tracks_of cbs) (fst y) (inst_of y)).
  { intros y Hy. apply in_flat_map in Hy. destruct Hy as (v & Hv & Hy). apply filter_In in Hy. destruct Hy as [Hy _].
    eapply reading_programs; eassumption. }
  clear - HF HG HP. revert HG HP. generalize (flat_map (fun v => filter ends (struck None v)) (h_voices h)).
  induction HF as [|x z l1 l2 (E1 & E2) _ IH]; intros l HG HP; inversion HG as [|? y ? l' ((G1 & _ & G3 & _) & G2) HG']; subst; cbn [map]; constructor.
  - rewrite G1, G3 in E1. rewrite E2, G2. split; [exact E1|]. exact (HP y (or_introl eq_refl)).
  - apply IH; [exact HG'|]. intros y' Hy'. apply HP. now right.
Qed.

(** ReadProofs2.v: whole-file consequences: well-formed channels, failure and totality of the
    distribution (C19, C49), and the unreachable conversion error (C11). *)
From Coq Require Import ZArith List Bool Lia ZifyBool ZifyNat Permutation Sorted.
From Verif Require Import Base ProofLib F32 Messages Command Track Midi SpecMidi SpecNotes SpecVoices
  MergeProofs BaseVoiceProofs LoopProofs VoiceProofs DistributeProofs ReadProofs.
Ltac Zify.zify_post_hook ::= Z.div_mod_to_equations.

(** ** Channels of any file *)
Definition cinv (chs : list (list tmsg)) : Prop :=
  length chs = 16%nat /\ Forall (Forall typed) chs /\ well_channelled chs.
Lemma nth_error_nth_nil {A} (l : list (list A)) c r : nth_error l c = Some r -> nth c l [] = r.
Proof. intros H. apply (nth_error_nth _ _ _ H). Qed.
Lemma cinv_push chs c m t chs' : cinv chs -> message_typed m -> addressee m = Some c -> 0 <= t < 2 ^ 32 ->
  push_at chs (Z.to_nat c) (m, t) = Ok chs' -> cinv chs'.
Proof.
  intros (HL & HF & Hw) [Hm1 Hm2] Ha Ht H. rewrite Ha in Hm1. destruct (push_at_ok _ _ _ _ H) as (Hi & HL' & Hn).
  assert (Hty : typed (m, t)).
  { split; [unfold channel_ok; cbn [fst]; rewrite Ha; lia|]. split; [exact Ht|exact Hm2]. }
  split; [lia|]. split.
  - apply Forall_forall. intros l Hl. apply In_nth with (d := []) in Hl. destruct Hl as (j & Hj & <-). rewrite Hn.
    assert (Hin : Forall typed (nth j chs [])) by (rewrite Forall_forall in HF; apply HF, nth_In; lia).
    destruct (Nat.eqb j (Z.to_nat c)); [|exact Hin]. apply Forall_app. split; [exact Hin|constructor; [exact Hty|constructor]].
  - intros j r x Hr Hx. apply nth_error_nth_nil in Hr as Hr'. apply nth_error_lt in Hr. rewrite Hn in Hr'. subst r.
    assert (Hold : forall y, In y (nth j chs []) -> for_channel j y = true).
    { intros y Hy. eapply Hw; [|exact Hy]. apply nth_error_nth'. lia. }
    destruct (Nat.eqb_spec j (Z.to_nat c)) as [He|He]; [|auto]. apply in_app_or in Hx. destruct Hx as [Hx|[<-|[]]]; [auto|].
    unfold for_channel. cbn [fst]. rewrite Ha. lia.
Qed.
Lemma cinv_message b chs t m r : cinv chs -> 0 <= t < 2 ^ 32 -> message_typed m ->
  distribute_message b (chs, t) m = Ok r -> cinv (fst r) /\ 0 <= snd r < 2 ^ 32.
Proof.
  intros Hc Ht Hm H. rewrite distribute_message_eq in H. unfold addr_nat in H. destruct (addressee m) as [c|] eqn:Ea; cbn [option_map] in H.
  - inv_bind H. inv_bind H. injection H as <-. cbn [fst snd]. apply arith_ok in Ha; [|lia]. split; [|exact Ha].
    eapply cinv_push; eauto.
  - injection H as <-. auto.
Qed.
Lemma cinv_tracks b ts : forall chs chs', cinv chs -> Forall (Forall message_typed) ts ->
  ofold (distribute_track b) ts chs = Ok chs' -> cinv chs'.
Proof.
  induction ts as [|tr ts IH]; intros chs chs' Hc HF H; cbn [ofold] in H; [injection H as <-; exact Hc|].
  inv_bind H. inversion HF; subst. eapply (IH a); [|assumption|exact H].
  unfold distribute_track in Ha. inv_bind Ha. injection Ha as <-.
  apply (ofold_inv (fun r => cinv (fst r) /\ 0 <= snd r < 2 ^ 32)) in Ha0; [apply Ha0| |split; [exact Hc|cbn; lia]].
  intros [c t] x [c' t'] Hx [Hs1 Hs2] He. cbn [fst snd] in Hs1, Hs2.
  assert (Hxt : message_typed x) by (rewrite Forall_forall in H2; auto).
  apply (cinv_message _ _ _ _ _ Hs1 Hs2 Hxt He).
Qed.
Lemma channels_ok_read b ts chs : Forall (Forall message_typed) ts -> tracks_to_channels b ts = Ok chs -> channels_ok chs.
Proof.
  intros HF H. unfold tracks_to_channels in H. inv_bind H. injection H as <-.
  assert (H0 : cinv (repeat [] 16)).
  { split; [reflexivity|]. split; [apply Forall_forall; intros l Hl; apply repeat_spec in Hl; subst; constructor|].
    intros c r x Hr Hx. apply nth_error_In, repeat_spec in Hr. subst. destruct Hx. }
  destruct (cinv_tracks b ts _ _ H0 HF Ha) as (HL & Ht & Hw).
  split; [rewrite map_length; exact HL|]. split; [|split].
  - apply Forall_forall. intros l Hl. apply in_map_iff in Hl. destruct Hl as (l' & <- & Hl').
    eapply Permutation_Forall; [apply sort_stable|]. rewrite Forall_forall in Ht. auto.
  - apply Forall_forall. intros l Hl. apply in_map_iff in Hl. destruct Hl as (l' & <- & Hl'). apply sort_stable.
  - intros c r x Hr Hx. rewrite nth_error_map in Hr. destruct (nth_error a c) as [l|] eqn:E; [|discriminate].
    cbn in Hr. injection Hr as <-. eapply Hw; [exact E|]. eapply Permutation_in; [|exact Hx]. symmetry. apply sort_stable.
Qed.

(** ** Base voices of a file *)
Lemma all_intervals_length b chs : forall i mx r, all_intervals b chs i mx = Ok r -> length (fst r) = length chs.
Proof.
  induction chs as [|ch chs IH]; intros i mx r H; cbn [all_intervals] in H; [injection H as <-; reflexivity|].
  inv_bind H. inv_bind H. injection H as <-. cbn [fst length]. f_equal. eapply IH; eauto.
Qed.
Lemma base_ok_found chs base : length chs = 16%nat -> find_base_voices chs (repeat [] 8) = Some base -> base_ok base.
Proof. intros HL H. apply base_sound in H. destruct H as (H1 & H2 & _). split; [lia|exact H2]. Qed.

Lemma push_last_in ts m ts' : push_last ts m = Ok ts' -> Forall (Forall message_typed) ts -> message_typed m ->
  Forall (Forall message_typed) ts'.
Proof.
  unfold push_last. destruct (rev ts) as [|t r] eqn:E; [discriminate|]. intros [= <-] HF Hm.
  assert (Hts : ts = rev r ++ [t]) by (rewrite <- (rev_involutive ts), E; reflexivity). rewrite Hts in HF.
  apply Forall_app in HF. destruct HF as [H1 H2]. inversion H2; subst. apply Forall_app. split; [exact H1|].
  constructor; [|constructor]. apply Forall_app. split; [assumption|constructor; [exact Hm|constructor]].
Qed.
Lemma callbacks_typed cbs : forall s s', Forall callback_typed cbs -> Forall (Forall message_typed) (r_tracks s) ->
  ofold on_callback cbs s = Ok s' -> Forall (Forall message_typed) (r_tracks s').
Proof.
  intros s s' HF Hs H. apply (ofold_inv (fun s => Forall (Forall message_typed) (r_tracks s))) in H; auto.
  intros s0 c s1 Hin H0 E. rewrite Forall_forall in HF. specialize (HF c Hin). destruct c; cbn [on_callback] in E.
  - destruct (format =? 1); [|discriminate]. injection E as <-. exact H0.
  - inv_bind E. injection E as <-. eapply push_last_in; eauto. split; cbn; auto. lia.
  - inv_bind E. injection E as <-. eapply push_last_in; eauto.
  - inv_bind E. injection E as <-. eapply push_last_in; eauto. split; cbn; auto. lia.
  - injection E as <-. cbn. apply Forall_app. split; [exact H0|]. constructor; constructor.
Qed.

(** What a successful read has gone through. *)
Lemma midi_read_inv b cbs complete order h : midi_read b cbs complete order = Ok h -> Forall callback_typed cbs ->
  exists r chs ivs mx base, ofold on_callback cbs (mk_rstate [] 0) = Ok r /\ complete = true /\
    tracks_to_channels b (r_tracks r) = Ok chs /\ channels_ok chs /\ all_intervals b chs 0 0 = Ok (ivs, mx) /\
    find_base_voices ivs (repeat [] 8) = Some base /\ base_ok base /\
    channels_to_voices chs base order = Ok (h_voices h) /\ h_ticks_per_beat h = r_tpb r /\ h_max_time h = mx.
Proof.
  intros H HF. unfold midi_read in H. inv_bind H. destruct complete; [|discriminate].
  inv_bind H. inv_bind H. destruct a1 as [ivs mx]. cbn [fst snd] in H.
  destruct (find_base_voices ivs (repeat [] 8)) as [base|] eqn:Eb; [|discriminate]. inv_bind H. injection H as <-.
  assert (Hty : Forall (Forall message_typed) (r_tracks a)).
  { eapply callbacks_typed; [exact HF| |exact Ha]. constructor. }
  pose proof (channels_ok_read _ _ _ Hty Ha0) as Hok.
  exists a, a0, ivs, mx, base. repeat (split; [first [assumption|reflexivity]|]).
  split; [|split; [exact Ha2|split; reflexivity]]. eapply base_ok_found; [|exact Eb].
  apply all_intervals_length in Ha1. cbn in Ha1. rewrite Ha1. apply Hok.
Qed.

Lemma read_voices b cbs complete order h : Forall callback_typed cbs -> (forall k, permutes (order k)) ->
  midi_read b cbs complete order = Ok h ->
  length (h_voices h) = 8%nat /\ Forall (alternates None) (h_voices h) /\ Forall (StronglySorted time_le) (h_voices h).
Proof.
  intros HF Ho H. destruct (midi_read_inv _ _ _ _ _ H HF) as (r & chs & ivs & mx & base & _ & _ & _ & Hok & _ & _ & Hb & Hv & _).
  destruct (distribution _ _ _ _ Hok Hb Ho Hv) as (H1 & H2 & _). split; [exact H1|]. split; [exact H2|].
  eapply distribution_sorted; eauto.
Qed.
Lemma read_notes b cbs order h r : Forall callback_typed cbs -> (forall k, permutes (order k)) ->
  ofold on_callback cbs (mk_rstate [] 0) = Ok r -> file_ok (r_tracks r) ->
  midi_read b cbs true order = Ok h ->
  exists notes, file_notes (r_tracks r) notes /\ Permutation (flat_map voice_notes (h_voices h)) (map drum notes).
Proof.
  intros HF Ho Hr Hfile H. destruct (midi_read_inv _ _ _ _ _ H HF) as (r' & chs & ivs & mx & base & Hr' & _ & Hc & Hok & _ & _ & Hb & Hv & _).
  rewrite Hr in Hr'. injection Hr' as <-.
  destruct (merge_ok b (r_tracks r) Hfile) as (chs' & Hc' & HL & Hs). rewrite Hc in Hc'. injection Hc' as <-.
  destruct (distribution _ _ _ _ Hok Hb Ho Hv) as (_ & _ & Hp). exists (flat_map channel_notes chs). split; [|exact Hp].
  exists chs. auto.
Qed.

(** ** Failure and totality of the distribution *)
Lemma run_total base m : base_ok base -> forall s, vinv s -> Forall typed m ->
  (exists s', ofold (vstep base) m s = Ok s' /\ vinv s') \/
  (ofold (vstep base) m s = Err ECouldntFit /\
   exists p d c k vel t q s1, m = p ++ (MidiEvent d (NoteOn c k vel), t) :: q /\ 0 < vel /\ 0 <= c < 16 /\
     ofold (vstep base) p s = Ok s1 /\ vinv s1 /\ stuck base c (without (lookup (v_active s1)) c k)).
Proof.
  intros Hb. induction m as [|[ev t] m IH]; intros s Hs Ht; cbn [ofold]; [left; eauto|].
  inversion Ht as [|? ? (Hc & _) Ht']; subst. cbn [fst] in Hc.
  destruct (step_result base s ev t Hs Hb Hc) as [(s1 & E & Hs1 & _)|(E & d & c & k & vel & -> & Hv & Hst)]; rewrite E; cbn [bind].
  - destruct (IH s1 Hs1 Ht') as [H|(H & p & d & c & k & vel & t' & q & s2 & -> & Hv & Hc' & Hp & Hs2 & Hst)]; [left; exact H|].
    right. split; [exact H|]. exists ((ev, t) :: p), d, c, k, vel, t', q, s2. split; [reflexivity|]. split; [exact Hv|].
    split; [exact Hc'|]. split; [cbn [ofold]; rewrite E; exact Hp|]. split; assumption.
  - right. split; [reflexivity|]. exists [], d, c, k, vel, t, m, s. split; [reflexivity|]. split; [exact Hv|].
    split; [exact Hc|]. split; [reflexivity|]. split; assumption.
Qed.

Definition sound_inv (s : vstate) : Prop :=
  forall v, sounding_after false (vv s v) = true <-> used (lookup (v_active s)) v.
Lemma sound_inv0 base : sound_inv (vstate0 base).
Proof.
  intros v. rewrite vv0. split; [discriminate|]. intros (c & k & _ & H). rewrite lookup0 in H. discriminate.
Qed.
Lemma used_ext L L' v : (forall c k, 0 <= c < 16 -> L c k = L' c k) -> used L v <-> used L' v.
Proof. intros H. split; intros (c & k & Hc & Hl); exists c, k; split; auto; [rewrite <- H by exact Hc|rewrite H by exact Hc]; exact Hl. Qed.
Lemma off_used L c k v x : inj L -> 0 <= c < 16 -> (exists d kk vel t, x = (MidiEvent d (NoteOff c kk vel), t)) ->
  forall o, (o = true <-> used L v) -> (sounding_after o (on_voice (L c k) x v) = true <-> used (without L c k) v).
Proof.
  intros Hi Hc (d & kk & vel & t & ->) o Ho. unfold on_voice. destruct (L c k) as [w|] eqn:El.
  - destruct (Nat.eqb_spec v w) as [He|He].
    + subst w. cbn. split; [discriminate|]. intros (c' & k' & Hc' & H). unfold without in H.
      destruct ((c' =? c) && (k' =? k)) eqn:E; [discriminate|]. destruct (Hi c k c' k' v Hc Hc' El H). subst.
      rewrite !Z.eqb_refl in E. discriminate.
    + cbn. rewrite Ho. split; intros (c' & k' & Hc' & H); exists c', k'; split; auto; unfold without in *.
      * destruct ((c' =? c) && (k' =? k)) eqn:E; [|exact H]. assert (c' = c) by lia. assert (k' = k) by lia. subst. congruence.
      * destruct ((c' =? c) && (k' =? k)); [discriminate|exact H].
  - cbn. rewrite Ho. apply used_ext. intros c' k' _. unfold without. destruct ((c' =? c) && (k' =? k)) eqn:E; [|reflexivity].
    assert (c' = c) by lia. assert (k' = k) by lia. subst. exact El.
Qed.
Lemma sound_step base s m t s1 : vinv s -> channel_ok m -> step_spec base s m t s1 -> remembered s -> sound_inv s -> sound_inv s1.
Proof.
  intros Hs Hc (px & Hpx & Hstep) Hrem Hi v. rewrite Hpx, sounding_app. specialize (Hi v).
  assert (Hone : forall b : bool, raw_note m = false -> forall o, sounding_after o (if b then [(m, t)] else []) = o).
  { intros b Hr o. destruct b; [|reflexivity]. destruct m as [|? []| |]; try reflexivity; discriminate. }
  assert (Hinj : inj (lookup (v_active s))) by (intros c1 k1 c2 k2 w; apply (vi_inj _ Hs)).
  destruct m as [? [] ?|d [c k vel|c k vel|c k vel|c ctl dat|c p|c p|c dat|c]|? ? ?|].
  all: try (destruct Hstep as (Ha & _ & _ & Hp & _); rewrite Ha; destruct (Hp v) as [Hp'|Hp']; rewrite Hp'; exact Hi).
  all: try (destruct Hstep as (Ha & _ & _ & Hp & _); rewrite Ha, Hp, Hone by reflexivity; exact Hi).
  - unfold channel_ok in Hc. cbn [addressee event_channel] in Hc. destruct Hstep as (Hp & HL & _). rewrite Hp.
    rewrite (used_ext _ _ v HL). apply off_used; auto. eauto.
  - unfold channel_ok in Hc. cbn [addressee event_channel] in Hc. destruct Hstep as (_ & _ & Hstep).
    destruct (0 <? vel).
    + destruct Hstep as (voice & (_ & Hnu & _) & Hp & HL & _). rewrite Hp, (used_ext _ _ v HL), sounding_app.
      destruct (Nat.eqb_spec v voice) as [He|He].
      * subst v. rewrite quiet_sounding by (apply prelude_quiet; exact Hrem). cbn [sounding_after]. split; [|reflexivity].
        intros _. exists c, k. split; [exact Hc|]. unfold with_. rewrite !Z.eqb_refl. reflexivity.
      * cbn [sounding_after]. rewrite (off_used _ c k v _ Hinj Hc) by eauto. split.
        -- intros (c' & k' & Hc' & H). exists c', k'. split; [exact Hc'|]. unfold with_.
           destruct ((c' =? c) && (k' =? k)) eqn:E; [|exact H]. unfold without in H. rewrite E in H. discriminate.
        -- intros (c' & k' & Hc' & H). unfold with_ in H. destruct ((c' =? c) && (k' =? k)); [injection H as H; congruence|].
           exists c', k'. auto.
    + destruct Hstep as (Hp & HL & _). rewrite Hp, (used_ext _ _ v HL). apply off_used; auto. eauto.
Qed.
Lemma sound_run base m : base_ok base -> forall s s', vinv s -> remembered s -> Forall typed m -> sound_inv s ->
  ofold (vstep base) m s = Ok s' -> vinv s' /\ remembered s' /\ sound_inv s'.
Proof.
  intros Hb. induction m as [|[ev t] m IH]; intros s s' Hs Hr Ht Hi H.
  - injection H as <-. auto.
  - inversion Ht as [|? ? Hx Ht']; subst. pose proof Hx as Hx'. destruct Hx as (Hc & _). cbn [fst] in Hc.
    cbn [ofold] in H. destruct (step_result base s ev t Hs Hb Hc) as [(s1 & E & Hs1 & Hstep)|[E _]]; rewrite E in H; [|discriminate].
    cbn [bind] in H.
    assert (Hr1 : remembered s1).
    { destruct (run_spec base [(ev, t)] Hb s s1) as (_ & Hr1 & _); [exact Hs|exact Hr| | | |exact Hr1].
      - constructor; [exact Hc|constructor].
      - constructor; [apply Hx'|constructor].
      - cbn [ofold]. rewrite E. reflexivity. }
    apply (IH s1); auto. exact (sound_step base s ev t s1 Hs Hc Hstep Hr Hi).
Qed.

Lemma distribution_total chs base order : channels_ok chs -> base_ok base -> (forall k, permutes (order k)) ->
  (exists voices, channels_to_voices chs base order = Ok voices) \/
  (channels_to_voices chs base order = Err ECouldntFit /\
   exists p d c k vel t q s, interleave chs (p ++ (MidiEvent d (NoteOn c k vel), t) :: q) /\ 0 < vel /\
     ofold (voice_step base (fun n => n)) (p ++ [(MidiEvent d (NoteOff c k vel), t)]) (vstate0 base) = Ok s /\
     forall v, (v < 8)%nat -> (v = nth (Z.to_nat c) base 0%nat \/ ~ In v base) ->
       sounding_after false (nth v (v_voices s) []) = true).
Proof.
  intros Hchs Hb Ho. destruct (channels_merge chs Hchs) as (m & Hm & _ & Ht & _ & Hrun).
  rewrite Hrun by exact Ho. destruct (run_total base m Hb (vstate0 base) (vinv0 base) Ht) as [(s & E & _)|(E & H)].
  - left. rewrite E. cbn [bind]. eauto.
  - right. rewrite E. cbn [bind]. split; [reflexivity|].
    destruct H as (p & d & c & k & vel & t & q & s1 & -> & Hv & Hc & Hp & Hs1 & Hst).
    apply Forall_app in Ht. destruct Ht as [Htp Htq]. inversion Htq as [|? ? Htx _]; subst.
    destruct (sound_run base p Hb _ _ (vinv0 base) (remembered0 base) Htp (sound_inv0 base) Hp) as (_ & Hr1 & Hi1).
    assert (Hcok : channel_ok (MidiEvent d (NoteOff c k vel))) by exact Hc.
    destruct (step_result base s1 (MidiEvent d (NoteOff c k vel)) t Hs1 Hb Hcok) as [(s2 & E2 & Hs2 & Hstep)|(_ & ? & ? & ? & ? & ? & _)];
      [|discriminate].
    pose proof (sound_step _ _ _ _ _ Hs1 Hcok Hstep Hr1 Hi1) as Hi2.
    exists p, d, c, k, vel, t, q, s2. split; [apply ordered_interleave; exact Hm|]. split; [exact Hv|]. split.
    + change (ofold (vstep base) (p ++ [(MidiEvent d (NoteOff c k vel), t)]) (vstate0 base) = Ok s2).
      rewrite ofold_app, Hp. cbn [bind ofold]. rewrite E2. reflexivity.
    + intros v Hv8 Hor. fold (vv s2 v). apply Hi2. destruct Hstep as (_ & _ & _ & HL & _).
      apply (used_ext _ _ v HL). destruct Hst as [Hst1 Hst2]. destruct Hor as [->|Hor]; [exact Hst1|auto].
Qed.

(** ** C11 *)
Definition noerr {A} (o : outcome A) : Prop := forall e, o <> Err e.
Lemma noerr_bind {A B} (o : outcome A) (f : A -> outcome B) : noerr o -> (forall a, o = Ok a -> noerr (f a)) -> noerr (bind o f).
Proof. intros H1 H2. destruct o as [a|e| |]; cbn; [auto| |intros ?; discriminate|intros ?; discriminate]. destruct (H1 e eq_refl). Qed.
Lemma noerr_ok {A} (a : A) : noerr (Ok a). Proof. intros e; discriminate. Qed.
Lemma noerr_arith b bits x : noerr (arith b bits x).
Proof. intros e. unfold arith. destruct (_ && _); [discriminate|]. destruct b; discriminate. Qed.
Lemma noerr_or_panic {A} p (o : option A) : noerr (or_panic p o).
Proof. intros e. destruct o; discriminate. Qed.
Lemma noerr_duration b x y c : noerr (get_duration b x y c).
Proof. unfold get_duration. apply noerr_bind; [apply noerr_arith|intros; apply noerr_ok]. Qed.
Lemma noerr_rest b l x y z : noerr (insert_rest b l x y z).
Proof.
  unfold insert_rest. destruct (_ <? _); [|apply noerr_ok]. apply noerr_bind; [apply noerr_duration|]. intros.
  apply noerr_bind; [apply noerr_arith|intros; apply noerr_ok].
Qed.
Lemma noerr_sustain l : noerr (sustain_pass l).
Proof.
  assert (H : forall n l, (length l <= n)%nat -> noerr (sustain_pass l)).
  { induction n as [|n IH]; intros l0 Hl; destruct l0 as [|c l0]; cbn [length] in Hl; try (intros e; discriminate); [lia|].
    destruct l0 as [|nx l0]; [intros e; discriminate|]. cbn [length] in Hl. cbn [sustain_pass]. apply noerr_bind.
    - unfold set_sustain. destruct (cmd c); try apply noerr_ok. destruct (cmd nx); try apply noerr_ok.
      apply noerr_bind; [apply noerr_or_panic|intros]. apply noerr_bind; [apply noerr_or_panic|intros].
      destruct (_ =? 0); [intros e; discriminate|]. destruct (_ || _); apply noerr_ok.
    - intros [skip c'] _. apply noerr_bind; [|intros; apply noerr_ok].
      destruct skip; [apply IH; lia|]. apply (IH (nx :: l0)). cbn [length]. lia. }
  eapply H; eauto.
Qed.

Lemma track_no_error b tpb tf events : forall o s, (o = None -> note_start s = None) -> alternates o events ->
  noerr (ofold (track_step b tpb tf) events s).
Proof.
  induction events as [|[m t] r IH]; intros o s Ho Ha; cbn [ofold]; [apply noerr_ok|].
  apply noerr_bind.
  - unfold track_step. destruct m as [? ev ?|? []| |]; try apply noerr_ok.
    + unfold on_meta. destruct ev; [|apply noerr_ok]. apply noerr_bind; [|intros; apply noerr_ok].
      unfold usec_of_data. do 3 (apply noerr_bind; [apply noerr_or_panic|intros]). apply noerr_ok.
    + unfold on_note_off. destruct (note_start s); [|apply noerr_ok].
      apply noerr_bind; [apply noerr_arith|intros]. apply noerr_bind; [apply noerr_duration|intros].
      apply noerr_bind.
      { destruct (match last_opt (commands s) with Some c => is_slide c | None => false end); [apply noerr_ok|].
        apply noerr_bind; [apply noerr_arith|intros; apply noerr_ok]. }
      intros. apply noerr_bind; [apply noerr_arith|intros; apply noerr_ok].
    + unfold on_note_on. apply noerr_bind; [apply noerr_rest|]. intros [c1 e] _. apply noerr_bind.
      { unfold push_slide. destruct (portamento s); [|apply noerr_ok]. destruct (last_opt c1); [|apply noerr_ok].
        apply noerr_bind; [apply noerr_duration|intros]. apply noerr_bind; [apply noerr_arith|intros].
        destruct (create_pitch_slide _ _ _); apply noerr_ok. }
      intros c2 _. cbn [alternates] in Ha. destruct Ha as (Ho' & _). rewrite (Ho Ho'). apply noerr_ok.
    + unfold on_control_change. destruct (control =? 5); [apply noerr_ok|]. destruct (control =? 7).
      { apply noerr_bind; [apply noerr_arith|intros; apply noerr_ok]. }
      destruct (control =? 37); [apply noerr_ok|]. destruct (control =? 65); apply noerr_ok.
    + unfold on_program_change. apply noerr_bind; [apply noerr_rest|]. intros [c1 e] _. apply noerr_bind; [|intros; apply noerr_ok].
      destruct (ch =? 9); [apply noerr_ok|apply noerr_or_panic].
  - intros s1 E.
    assert (Hkeep : note_start s1 = note_start s -> alternates o r -> noerr (ofold (track_step b tpb tf) r s1)).
    { intros Hk Ha'. eapply IH; [|exact Ha']. rewrite Hk. exact Ho. }
    unfold track_step in E. destruct m as [? ev ?|? []| |]; cbn [alternates] in Ha; try (injection E as <-; apply Hkeep; [reflexivity|exact Ha]).
    + apply Hkeep; [|exact Ha]. unfold on_meta in E. destruct ev; [|injection E as <-; reflexivity]. inv_bind E. injection E as <-. reflexivity.
    + destruct Ha as [_ Ha]. eapply IH; [|exact Ha]. intros _. unfold on_note_off in E.
      destruct (note_start s) eqn:En; [|injection E as <-; exact En]. inv_bind E. inv_bind E. inv_bind E. inv_bind E. injection E as <-. reflexivity.
    + destruct Ha as (_ & _ & Ha). eapply IH; [|exact Ha]. discriminate.
    + apply Hkeep; [|exact Ha]. unfold on_control_change in E. destruct (control =? 5); [injection E as <-; reflexivity|].
      destruct (control =? 7); [inv_bind E; injection E as <-; reflexivity|].
      destruct (control =? 37); [injection E as <-; reflexivity|]. destruct (control =? 65); injection E as <-; reflexivity.
    + apply Hkeep; [|exact Ha]. unfold on_program_change in E. inv_bind E. destruct a as [c1 e]. inv_bind E. injection E as <-. reflexivity.
Qed.
Lemma conversion_no_error b tpb mx tf events : alternates None events -> noerr (track_new b events tpb mx tf).
Proof.
  intros Ha. unfold track_new. apply noerr_bind.
  - eapply track_no_error; [|exact Ha]. reflexivity.
  - intros s _. destruct (commands s) eqn:Ec; [apply noerr_ok|]. apply noerr_bind; [|intros; apply noerr_sustain].
    destruct (_ <? _); [apply noerr_rest|apply noerr_ok].
Qed.
Lemma read_then_convert b cbs complete order h : Forall callback_typed cbs -> (forall k, permutes (order k)) ->
  midi_read b cbs complete order = Ok h ->
  forall events b' tf, In events (h_voices h) ->
    forall e, track_new b' events (h_ticks_per_beat h) (h_max_time h) tf <> Err e.
Proof.
  intros HF Ho H events b' tf Hin. destruct (read_voices _ _ _ _ _ HF Ho H) as (_ & Ha & _).
  rewrite Forall_forall in Ha. apply conversion_no_error. auto.
Qed.

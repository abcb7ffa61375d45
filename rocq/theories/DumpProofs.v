(** DumpProofs.v: the handler printed by [dump_midi] (C84). *)
From Coq Require Import ZArith List Bool Lia ZifyBool ZifyNat.
From Verif Require Import Base ProofLib Messages Paths Midi Run MidiDump MidiLog SpecMidi SpecNotes SpecVoices SpecFile SpecHeard SpecMidiLog SpecDump.
From Verif Require Import MergeProofs LoopProofs VoiceProofs DistributeProofs ReadProofs ReadProofs2 TotalProofs BaseVoiceProofs FileProofs EndProofs MidiLogProofs.
Import ListNotations.
Open Scope Z_scope.

(** ** The result is the reader's *)
Definition agrees {A B} (g : A -> B) (o : outcome (bool * A)) (v : outcome B) : Prop :=
  match o with
  | Ok (true, s) => v = Ok (g s)
  | Ok (false, _) => v = Err ECouldntFit
  | Err _ => False
  | Panic p => v = Panic p
  | Diverge => v = Diverge
  end.
Lemma agrees_bind {A B C} (g : B -> C) (o : outcome A) f h : (forall e, o <> Err e) -> (forall a, agrees g (f a) (h a)) ->
  agrees g (bind o f) (bind o h).
Proof. intros He H. destruct o as [a|e| |]; cbn [bind agrees]; auto. now destruct (He e). Qed.
Lemma or_panic_no_err {A} p (o : option A) e : or_panic p o <> Err e.
Proof. destruct o; discriminate. Qed.
Lemma errless_push (vs : list (list tmsg)) i x : errless (push_at vs i x).
Proof. unfold push_at. destruct (nth_error vs i); [apply errless_panic|]. intros e. discriminate. Qed.
Lemma errless_push_voices l x : forall vs, errless (push_voices vs l x).
Proof. unfold push_voices. induction l as [|v l IH]; intros vs; cbn [ofold]; [apply errless_ok|]. apply errless_bind; [apply errless_push|exact IH]. Qed.
Lemma errless_channel s base c o m : errless (push_channel_event s base c o m).
Proof.
  unfold push_channel_event. apply errless_bind; [apply errless_panic|]. intros n. apply errless_bind; [apply errless_panic|]. intros bv.
  cbv zeta. apply errless_bind; [apply errless_push_voices|]. intros vs. destruct (existsb _ _); [apply errless_ok|apply errless_push].
Qed.
(** Only a note-on that finds no voice fails, after the retrigger. *)
Lemma step_fails base o s m e : voice_step base o s m = Err e -> e = ECouldntFit /\
  exists d c k vel s', fst m = MidiEvent d (NoteOn c k vel) /\ v_retrigger s d c k vel (snd m) = Ok s'.
Proof.
  intros H. assert (Hno : ~ errless (voice_step base o s m)) by (intros He; exact (He e H)).
  unfold voice_step in H, Hno. destruct m as [m t]. cbn [fst snd] in *.
  destruct m as [d me data|d ev| |].
  - exfalso. apply Hno. destruct me; [apply errless_bind; [apply errless_push|intros; apply errless_ok]|apply errless_ok].
  - destruct ev as [c k vel|c k vel|c k vel|c ctl dat|c p|c p|c dat|c].
    2:{ unfold v_note_on in H. cbn [snd] in H.
        destruct (v_retrigger s d c k vel t) as [s'|e'|p|] eqn:R; cbn [bind] in H; try discriminate; [|exfalso; exact (retrigger_no_err _ _ _ _ _ _ _ R)].
        destruct (0 <? vel); [|discriminate]. destruct (nth_error base (Z.to_nat c)) as [bv|] eqn:Eb; cbn [or_panic bind] in H; [|discriminate].
        destruct (choose_voice base bv (v_active s')) as [u|].
        - exfalso. eapply chosen_no_err. exact H.
        - injection H as <-. split; [reflexivity|]. do 5 eexists. split; [reflexivity|exact R]. }
    all: exfalso; apply Hno.
    + unfold v_note_off. cbv zeta. apply errless_bind; [apply errless_panic|]. intros n. destruct (notes_get n k); [|apply errless_ok].
      apply errless_bind; [apply errless_panic|]. intros a. apply errless_bind; [apply errless_push|intros; apply errless_ok].
    + apply errless_bind; [apply errless_panic|]. intros n. destruct (notes_get n k); [|apply errless_ok].
      apply errless_bind; [apply errless_push|intros; apply errless_ok].
    + apply errless_bind; [apply errless_channel|]. intros vs. apply errless_bind; [|intros; apply errless_ok].
      destruct (ctl =? 7); [apply errless_panic|apply errless_ok].
    + apply errless_bind; [apply errless_channel|]. intros vs. apply errless_bind; [apply errless_panic|intros; apply errless_ok].
    + apply errless_bind; [apply errless_channel|]. intros vs. apply errless_ok.
    + apply errless_bind; [apply errless_channel|]. intros vs. apply errless_bind; [apply errless_panic|intros; apply errless_ok].
    + apply errless_ok.
  - exfalso. apply Hno. apply errless_bind; [apply errless_push|intros; apply errless_ok].
  - discriminate.
Qed.
Lemma step_agrees base o s m : agrees (fun s => s) (step_state base o s m) (voice_step base o s m).
Proof.
  unfold step_state. destruct (voice_step base o s m) as [s'|e|p|] eqn:E; cbn [agrees]; auto.
  destruct (step_fails _ _ _ _ _ E) as (-> & d & c & k & vel & s' & -> & ->). reflexivity.
Qed.
Lemma loop_agrees fuel : forall chs base order idx done s,
  agrees (fun s => s) (loop_state fuel chs base order idx done s) (voices_loop fuel chs base order idx done s).
Proof.
  induction fuel as [|fuel IH]; intros chs base order idx done s; cbn [loop_state voices_loop];
    (destruct (Nat.ltb done (length chs)); [|reflexivity]); [reflexivity|].
  do 5 (apply agrees_bind; [intros e; apply or_panic_no_err|]; intros ?). cbv zeta.
  pose proof (step_agrees base (order fuel) s a2) as H. destruct (step_state base (order fuel) s a2) as [[[|] s']|e|p|]; cbn [agrees] in H; [| | |rewrite H..]; cbn [bind fst snd agrees].
  - rewrite H. apply IH.
  - now rewrite H.
  - destruct H.
  - reflexivity.
  - reflexivity.
Qed.
Lemma merge_agrees chs base order : agrees (fun vs => vs) (merge_state chs base order) (channels_to_voices chs base order).
Proof.
  unfold merge_state, channels_to_voices.
  pose proof (loop_agrees (S (list_sum (map (@length _) chs))) chs base order (repeat O (length chs)) (length (filter is_nil chs)) (vstate0 base)) as H.
  destruct (loop_state _ _ _ _ _ _ _) as [[[|] s']|e|p|]; cbn [agrees bind fst snd] in *; try (rewrite H; reflexivity). destruct H.
Qed.

(** ** Where the merge gets stuck *)
Lemma retrigger_sounds s d c k vel t s' : vinv s -> 0 <= c < 16 -> sound_inv s -> v_retrigger s d c k vel t = Ok s' ->
  length (v_voices s') = 8%nat /\ forall v, sounding_after false (vv s' v) = true <-> used (without (lookup (v_active s)) c k) v.
Proof.
  intros Hs Hc Hi H. unfold v_retrigger in H. cbv zeta in H.
  destruct (nth_error (v_active s) (Z.to_nat c)) as [n|] eqn:En; cbn [or_panic bind] in H; [|discriminate].
  assert (El : lookup (v_active s) c k = notes_get n k) by (unfold lookup; now rewrite (nth_error_nth _ _ _ En)).
  assert (Hinj : inj (lookup (v_active s))) by (intros c1 k1 c2 k2 w; apply (vi_inj _ Hs)).
  assert (Hoff : forall v, sounding_after (sounding_after false (vv s v)) (on_voice (lookup (v_active s) c k) (MidiEvent d (NoteOff c k vel), t) v) = true
      <-> used (without (lookup (v_active s)) c k) v).
  { intros v. apply off_used; [exact Hinj|exact Hc|eauto|apply Hi]. }
  rewrite El in Hoff. destruct (notes_get n k) as [w|] eqn:Ek.
  - destruct (set_nth (v_active s) (Z.to_nat c) (notes_remove n k)); cbn [or_panic bind] in H; [|discriminate].
    destruct (push_at (v_voices s) w (MidiEvent d (NoteOff c k vel), t)) as [vs|? |? |] eqn:Ep; cbn [bind] in H; try discriminate.
    injection H as <-. cbn [set_voices set_active v_voices].
    destruct (push_one (v_voices s) w (MidiEvent d (NoteOff c k vel), t)) as (vs' & E & HL & Hn).
    { unfold push_at in Ep. destruct (nth_error (v_voices s) w) eqn:E; [apply nth_error_Some; congruence|discriminate]. }
    rewrite Ep in E. injection E as <-. split; [rewrite HL; apply (vi_voices _ Hs)|]. intros v. rewrite <- Hoff.
    unfold vv. cbn [v_voices]. rewrite Hn, DistributeProofs.sounding_app. reflexivity.
  - injection H as <-. split; [apply (vi_voices _ Hs)|]. intros v. rewrite <- Hoff. reflexivity.
Qed.
Definition full (base : list nat) (c : nat) (vs : list (list tmsg)) : Prop :=
  length vs = 8%nat /\ forall v, (v < 8)%nat -> (v = nth c base 0%nat \/ ~ In v base) -> sounding_after false (nth v vs []) = true.
Lemma loop_full base order chs : base_ok base -> Forall (Forall typed) chs -> (forall k, permutes (order k)) ->
  forall fuel idx done s s', vinv s -> remembered s -> sound_inv s -> loop_state fuel chs base order idx done s = Ok (false, s') ->
  exists c, (c < 16)%nat /\ full base c (v_voices s').
Proof.
  intros Hb Hty Ho. induction fuel as [|fuel IH]; intros idx done s s' Hs Hr Hi H; cbn [loop_state] in H;
    (destruct (Nat.ltb done (length chs)); [|discriminate]); [discriminate|].
  inv_bind H. inv_bind H. inv_bind H. inv_bind H. inv_bind H. cbv zeta in H. inv_bind H.
  match goal with P : or_panic _ (nth_error chs _) = Ok ?ch, Q : or_panic _ (nth_error ?ch _) = Ok ?x |- _ => assert (Hx : typed x) end.
  { rewrite Forall_forall in Hty.
    match goal with P : or_panic _ (nth_error chs _) = Ok ?ch, Q : or_panic _ (nth_error ?ch _) = Ok ?x |- _ =>
      apply or_panic_ok in P; apply or_panic_ok in Q; specialize (Hty _ (nth_error_In _ _ P)); rewrite Forall_forall in Hty; exact (Hty _ (nth_error_In _ _ Q)) end. }
  match goal with P : step_state base _ s ?x = Ok ?r |- _ => rename P into Hst; destruct r as [ok s1]; destruct x as [m t] end.
  cbn [fst snd] in H. unfold step_state in Hst. rewrite (voice_step_order base (order fuel) s (m, t) (Ho fuel)) in Hst.
  change (voice_step base (fun n => n)) with (vstep base) in Hst.
  destruct (step_result base s m t Hs Hb (proj1 Hx)) as [(s2 & E2 & Hs2 & Hspec)|[E2 (d & c & k & vel & -> & Hvel & Hstk)]]; rewrite E2 in Hst.
  - injection Hst as <- <-.
    destruct (sound_run base [(m, t)] Hb s s2 Hs Hr ltac:(constructor; [exact Hx|constructor]) Hi) as (_ & Hr2 & Hi2).
    { cbn [ofold]. rewrite E2. reflexivity. }
    exact (IH _ _ _ _ Hs2 Hr2 Hi2 H).
  - cbn [fst snd] in Hst. inv_bind Hst. injection Hst as <- <-. injection H as <-.
    pose proof (proj1 Hx) as Hc. unfold channel_ok in Hc. cbn [addressee event_channel fst] in Hc.
    match goal with P : v_retrigger _ _ _ _ _ _ = Ok _ |- _ => destruct (retrigger_sounds _ _ _ _ _ _ _ Hs Hc Hi P) as (HL & Hu) end.
    exists (Z.to_nat c). split; [lia|]. split; [exact HL|]. intros v Hv Hor. apply Hu. destruct Hstk as [H1 H2]. destruct Hor as [->|Hor]; auto.
Qed.

Lemma errless_arith b n x : errless (arith b n x).
Proof. intros e. unfold arith. destruct (_ && _); [discriminate|]. destruct b; discriminate. Qed.
Lemma errless_fold {A B} (f : B -> A -> outcome B) l : (forall s x, errless (f s x)) -> forall s, errless (ofold f l s).
Proof. intros Hf. induction l as [|x l IH]; intros s; cbn [ofold]; [apply errless_ok|]. apply errless_bind; auto. Qed.
Lemma push_last_errless ts m : errless (push_last ts m).
Proof. intros e. unfold push_last. destruct (rev ts); discriminate. Qed.
Lemma callbacks_errless cbs : forall s, errless (ofold on_callback cbs s).
Proof.
  apply errless_fold. intros s c. destruct c; cbn [on_callback]; try (apply errless_bind; [apply push_last_errless|intros; apply errless_ok]).
  - destruct (_ =? _); [apply errless_ok|intros e; discriminate].
  - apply errless_ok.
Qed.
Lemma channels_errless b ts : errless (tracks_to_channels b ts).
Proof.
  unfold tracks_to_channels. apply errless_bind; [|intros; apply errless_ok]. apply errless_fold. intros chs t. unfold distribute_track.
  apply errless_bind; [|intros [? ?]; apply errless_ok]. apply errless_fold. intros [l a] m. unfold distribute_message.
  destruct m as [d me data|d ev|d me data|]; repeat (first [apply errless_bind; [first [apply errless_arith|apply errless_push|apply errless_panic]|intros ?]|apply errless_ok]).
Qed.
Lemma intervals_errless b chs : forall i mx, errless (all_intervals b chs i mx).
Proof.
  induction chs as [|ch chs IH]; intros i mx; cbn [all_intervals]; [apply errless_ok|].
  apply errless_bind; [|intros s; apply errless_bind; [apply IH|intros; apply errless_ok]]. apply errless_fold. intros s [m t]. unfold interval_step.
  destruct m as [? ? ?|d ev|? ? ?|]; try apply errless_ok. cbv zeta. destruct ev; try apply errless_ok; (apply errless_bind; [apply errless_arith|intros; apply errless_ok]).
Qed.

(** ** The fields *)
Lemma read_agrees b cbs complete order :
  match read_state b cbs complete order with
  | Ok (None, d) => midi_read b cbs complete order = Ok (mk_handler (d_voices d) (d_tpb d) (d_max d))
  | Ok (Some e, _) => midi_read b cbs complete order = Err e
  | Err _ => False
  | Panic p => midi_read b cbs complete order = Panic p
  | Diverge => midi_read b cbs complete order = Diverge
  end.
Proof.
  unfold read_state, midi_read.
  assert (Hcb : errless (ofold on_callback cbs (mk_rstate [] 0))) by apply callbacks_errless.
  destruct (ofold on_callback cbs (mk_rstate [] 0)) as [r|e|p|]; cbn [bind]; [|destruct (Hcb e eq_refl)|reflexivity|reflexivity].
  destruct complete; [|reflexivity].
  pose proof (channels_errless b (r_tracks r)) as Hch.
  destruct (tracks_to_channels b (r_tracks r)) as [chs|e|p|]; cbn [bind]; [|destruct (Hch e eq_refl)|reflexivity|reflexivity].
  pose proof (intervals_errless b chs 0 0) as Hiv.
  destruct (all_intervals b chs 0 0) as [iv|e|p|]; cbn [bind]; [|destruct (Hiv e eq_refl)|reflexivity|reflexivity].
  destruct (find_base_voices (fst iv) (repeat [] 8)) as [base|]; [|reflexivity].
  pose proof (merge_agrees chs base order) as H.
  destruct (merge_state chs base order) as [[[|] vs]|e|p|]; cbn [agrees bind fst snd] in *; try (rewrite H; reflexivity). destruct H.
Qed.

Lemma channels_of_fields chs : forall ivs base, length ivs = length chs -> length base = length chs ->
  map ch_messages (channels_of chs ivs base) = chs /\ map ch_intervals (channels_of chs ivs base) = ivs /\ map ch_base (channels_of chs ivs base) = base.
Proof.
  induction chs as [|c chs IH]; intros [|iv ivs] [|v base] H1 H2; try discriminate; [auto|]. cbn in H1, H2.
  destruct (IH ivs base) as (A & B & C); [lia..|]. cbn. rewrite A, B, C. auto.
Qed.
Lemma two_length {A B} (R : A -> B -> Prop) l1 l2 : Forall2 R l1 l2 -> length l1 = length l2.
Proof. induction 1; cbn; congruence. Qed.
(** A read that ends, in its four ways. *)
Lemma state_shape b cbs complete order e d : Forall callback_typed cbs -> read_state b cbs complete order = Ok (e, d) ->
  d_tracks d = tracks_of cbs /\ d_tpb d = beat_ticks cbs /\
  ((complete = false /\ e = Some EMidiRead /\ d_channels d = new_channels /\ d_voices d = new_voices /\ d_max d = 0) \/
   (complete = true /\ exists chs ivs base, tracks_to_channels b (tracks_of cbs) = Ok chs /\ all_intervals b chs 0 0 = Ok (ivs, d_max d) /\
      length chs = 16%nat /\ length ivs = 16%nat /\ base_ok base /\ d_channels d = channels_of chs ivs base /\
      ((find_base_voices ivs (repeat [] 8) = None /\ base = repeat O 16 /\ e = Some ECouldntFit /\ d_voices d = new_voices) \/
       (find_base_voices ivs (repeat [] 8) = Some base /\ exists ok, merge_state chs base order = Ok (ok, d_voices d) /\
          e = if ok then None else Some ECouldntFit)))).
Proof.
  intros Hcb H. unfold read_state in H. inv_bind H. rename a into r. 
  match goal with P : ofold on_callback cbs _ = Ok r |- _ => rename P into Hr end.
  assert (Er : r_tracks r = tracks_of cbs).
  { destruct (format1 false cbs) eqn:Ef.
    - destruct (callbacks_ok cbs 0 Ef) as (tpb & E). rewrite E in Hr. injection Hr as <-. reflexivity.
    - destruct (callbacks_bad cbs [] 0 Ef) as (p & E). rewrite E in Hr. discriminate. }
  pose proof (callbacks_ticks _ _ _ Hr) as Et. cbn [r_tpb] in Et. change (r_tpb r = beat_ticks cbs) in Et. rewrite Er, Et in H.
  destruct complete.
  - inv_bind H. rename a into chs. inv_bind H. destruct a as [ivs mx]. cbn [fst snd] in H.
    match goal with P : tracks_to_channels _ _ = Ok chs |- _ => rename P into Hc end.
    match goal with P : all_intervals _ _ _ _ = Ok _ |- _ => rename P into Hi end.
    pose proof (tracks_typed cbs Hcb) as Hty. pose proof (channels_ok_read _ _ _ Hty Hc) as (HL & _).
    pose proof (two_length _ _ _ (channels_intervals _ _ _ _ _ Hty Hc Hi)) as HLi. rewrite HL in HLi. symmetry in HLi.
    destruct (find_base_voices ivs (repeat [] 8)) as [base|] eqn:Ef.
    + inv_bind H. destruct a as [ok vs]. cbn [fst snd] in H. injection H as <- <-. cbn [d_tracks d_tpb d_max d_channels d_voices].
      split; [reflexivity|]. split; [reflexivity|]. right. split; [reflexivity|].
      destruct (base_sound _ _ Ef) as (HB & HB8 & _). exists chs, ivs, base. do 4 (split; [assumption|]). split; [split; [congruence|exact HB8]|]. split; [reflexivity|].
      right. split; [exact Ef|]. exists ok. split; [assumption|reflexivity].
    + injection H as <- <-. cbn [d_tracks d_tpb d_max d_channels d_voices].
      split; [reflexivity|]. split; [reflexivity|]. right. split; [reflexivity|]. exists chs, ivs, (repeat O 16).
      do 4 (split; [assumption|]). split; [split; [reflexivity|repeat constructor; lia]|]. split; [reflexivity|].
      left. auto.
  - injection H as <- <-. cbn [d_tracks d_tpb d_max d_channels d_voices]. split; [reflexivity|]. split; [reflexivity|]. left. auto.
Qed.

Lemma fields_nth chs ivs base c x : nth_error (channels_of chs ivs base) c = Some x ->
  nth_error chs c = Some (ch_messages x) /\ nth_error ivs c = Some (ch_intervals x) /\ nth_error base c = Some (ch_base x).
Proof.
  revert ivs base c. induction chs as [|l chs IH]; intros [|iv ivs] [|v base] [|c] H; try discriminate; cbn in H |- *; [injection H as <-; auto|].
  apply IH. exact H.
Qed.
Lemma forall2_nth {A B} (R : A -> B -> Prop) l1 l2 : Forall2 R l1 l2 -> forall c x y, nth_error l1 c = Some x -> nth_error l2 c = Some y -> R x y.
Proof. induction 1; intros [|c] x' y' H1 H2; try discriminate; cbn in *; [congruence|eauto]. Qed.
Lemma dump_file b cbs complete order e d : Forall callback_typed cbs -> read_state b cbs complete order = Ok (e, d) ->
  d_tracks d = tracks_of cbs /\ d_tpb d = beat_ticks cbs /\
  (complete = false -> e = Some EMidiRead /\ shows_nothing d) /\
  (complete = true -> file_ok (tracks_of cbs) -> shows_channels b (tracks_of cbs) d /\ file_end (tracks_of cbs) (d_max d)).
Proof.
  intros Hcb H. destruct (state_shape _ _ _ _ _ _ Hcb H) as (H1 & H2 & [(-> & He & Hc & Hv & Hm)|(-> & chs & ivs & base & Hc & Hi & HL & HLi & Hb & Hd & _)]);
    (split; [exact H1|]; split; [exact H2|]; split; [|try discriminate]); [|discriminate|].
  - intros _. split; [exact He|]. unfold shows_nothing. rewrite Hc, Hv. unfold new_channels, new_voices.
    split; [reflexivity|]. split; [repeat constructor|]. split; [reflexivity|]. split; [repeat constructor|exact Hm].
  - intros _ Hok. destruct (merge_ok b _ Hok) as (chs' & Ec & _ & Hs). rewrite Hc in Ec. injection Ec as <-.
    pose proof (tracks_typed cbs Hcb) as Hty. pose proof (channels_intervals _ _ _ _ _ Hty Hc Hi) as HF.
    destruct (channels_of_fields chs ivs base) as (E1 & E2 & E3); [lia|destruct Hb; lia|].
    split.
    + split; [rewrite Hd, <- (map_length ch_messages), E1; exact HL|]. intros c x Hx. rewrite Hd in Hx. apply fields_nth in Hx. destruct Hx as (X1 & X2 & X3).
      split; [rewrite <- (nth_error_nth _ _ [] X1); apply Hs|]. split; [destruct Hb as [_ Hb]; rewrite Forall_forall in Hb; apply Hb; exact (nth_error_In _ _ X3)|].
      exact (proj2 (forall2_nth _ _ _ HF _ _ _ X1 X2)).
    + eapply intervals_file_end; [| |exact Hok|exact Hi]; [apply (channels_ok_read _ _ _ Hty Hc)|exact Hs].
Qed.
Lemma dump_voices b cbs order e d : Forall callback_typed cbs -> (forall k, permutes (order k)) -> read_state b cbs true order = Ok (e, d) ->
  (e = None /\ conflict_free (map ch_intervals (d_channels d)) (map ch_base (d_channels d))) \/
  (e = Some ECouldntFit /\ (~ exists base, conflict_free (map ch_intervals (d_channels d)) base) /\
   Forall (fun x => ch_base x = O) (d_channels d) /\ length (d_voices d) = 8%nat /\ Forall (fun l => l = []) (d_voices d)) \/
  (e = Some ECouldntFit /\ conflict_free (map ch_intervals (d_channels d)) (map ch_base (d_channels d)) /\ length (d_voices d) = 8%nat /\
   exists c, (c < 16)%nat /\ forall v, (v < 8)%nat -> (shown_base d c = Some v \/ forall c', shown_base d c' <> Some v) ->
     sounding_after false (nth v (d_voices d) []) = true).
Proof.
  intros Hcb Ho H. destruct (state_shape _ _ _ _ _ _ Hcb H) as (_ & _ & [(? & _)|(_ & chs & ivs & base & Hc & Hi & HL & HLi & Hb & Hd & Hrest)]); [discriminate|].
  pose proof (tracks_typed cbs Hcb) as Hty.
  destruct (channels_of_fields chs ivs base) as (_ & E2 & E3); [lia|destruct Hb; lia|]. rewrite <- Hd in E2, E3. rewrite E2, E3.
  destruct Hrest as [(Hf & -> & -> & Hv)|(Hf & ok & Hm & ->)].
  - right. left. split; [reflexivity|]. split; [exact (base_voices_complete _ _ _ _ _ Hty Hc Hi Hf)|]. split.
    + apply Forall_forall. intros x Hx. assert (Hin : In (ch_base x) (map ch_base (d_channels d))) by (apply in_map; exact Hx). rewrite E3 in Hin. exact (repeat_spec _ _ _ Hin).
    + rewrite Hv. split; [reflexivity|repeat constructor].
  - destruct ok; [left; split; [reflexivity|exact (base_sound _ _ Hf)]|]. right. right. split; [reflexivity|]. split; [exact (base_sound _ _ Hf)|].
    unfold merge_state in Hm. inv_bind Hm. destruct a as [ok s]. cbn [fst snd] in Hm. injection Hm as -> <-.
    destruct (channels_ok_read _ _ _ Hty Hc) as (_ & Ht & _).
    match goal with P : loop_state _ _ _ _ _ _ _ = Ok _ |- _ => destruct (loop_full base order chs Hb Ht Ho _ _ _ _ _ (vinv0 base) (remembered0 base) (sound_inv0 base) P) as (c & Hc16 & HL8 & Hfull) end.
    split; [exact HL8|]. exists c. split; [exact Hc16|]. intros v Hv Hor. apply Hfull; [exact Hv|].
    assert (Hsb : forall c', shown_base d c' = nth_error base c') by (intros c'; unfold shown_base; rewrite <- E3; symmetry; apply nth_error_map).
    destruct Hor as [Hor|Hor]; [left; rewrite Hsb in Hor; symmetry; exact (nth_error_nth _ _ _ Hor)|].
    right. intros Hin. apply In_nth_error in Hin. destruct Hin as (c' & E). apply (Hor c'). rewrite Hsb. exact E.
Qed.
Lemma dump_log b cbs order log o d : Forall callback_typed cbs -> (forall k, permutes (order k)) -> read_printing b true cbs true order = (log, o) ->
  read_state b cbs true order = Ok (None, d) -> forall c, last_tried c log = shown_base d c.
Proof.
  intros Hcb Ho Hp H. pose proof (read_agrees b cbs true order) as Ha. rewrite H in Ha. pose proof (read_same b true cbs true order) as Hs. rewrite Hp, Ha in Hs. cbn [snd] in Hs. subst o.
  destruct (read_shape _ _ _ _ _ _ Hcb Ho Hp) as (chs' & ivs' & mx' & base' & l & Hc' & Hi' & _ & Hf' & -> & Hl & _).
  destruct (state_shape _ _ _ _ _ _ Hcb H) as (_ & _ & [(? & _)|(_ & chs & ivs & base & Hc & Hi & HL & HLi & Hb & Hd & Hrest)]); [discriminate|].
  rewrite Hc in Hc'. injection Hc' as <-. rewrite Hi in Hi'. injection Hi' as <- _.
  destruct Hrest as [(_ & _ & ? & _)|(Hf & _)]; [discriminate|]. rewrite find_same in Hf'. rewrite Hf in Hf'. injection Hf' as <-.
  destruct (channels_of_fields chs ivs base) as (_ & _ & E3); [lia|destruct Hb; lia|]. rewrite <- Hd in E3.
  intros c. unfold shown_base. rewrite <- nth_error_map, E3. apply log_tried; [rewrite find_same; exact Hf|apply pairs_untried].
Qed.
Lemma dump_command b t order f input : snd (run_dump_midi b t order f input) = f /\
  match dump_midi b t order f input with
  | Ok _ => fst (run_dump_midi b t order f input) = Ok tt
  | Err _ => False
  | Panic p => fst (run_dump_midi b t order f input) = Panic p
  | Diverge => fst (run_dump_midi b t order f input) = Diverge
  end.
Proof.
  unfold dump_midi, run_dump_midi. destruct (Cli.midi_file (world_of t f) input) as [cbs complete]. pose proof (read_agrees b cbs complete order) as H.
  destruct (read_state b cbs complete order) as [[[e|] d]|e|p|]; cbn in H; try rewrite H; try destruct H; auto.
Qed.

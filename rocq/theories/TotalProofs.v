(** TotalProofs.v: reading a file never crashes (C49), and what the callbacks become (C15). *)
From Coq Require Import ZArith List Bool Lia ZifyBool ZifyNat Permutation Sorted.
From Verif Require Import Base ProofLib Messages Track Midi SpecMidi SpecNotes SpecVoices
  MergeProofs BaseVoiceProofs LoopProofs VoiceProofs DistributeProofs ReadProofs ReadProofs2.
Ltac Zify.zify_post_hook ::= Z.div_mod_to_equations.

(** ** Callbacks *)
Lemma push_last_snoc ts t m : push_last (ts ++ [t]) m = Ok (ts ++ [t ++ [m]]).
Proof. unfold push_last. rewrite rev_app_distr. cbn. rewrite rev_involutive. reflexivity. Qed.
Lemma callbacks_started cbs : forall ts t tpb, format1 true cbs = true ->
  exists tpb', ofold on_callback cbs (mk_rstate (ts ++ [t]) tpb) = Ok (mk_rstate (ts ++ [t ++ take_track cbs] ++ tracks_of cbs) tpb').
Proof.
  induction cbs as [|c cbs IH]; intros ts t tpb H; cbn [ofold].
  - exists tpb. cbn. rewrite app_nil_r. reflexivity.
  - destruct c; cbn [on_callback r_tracks r_tpb format1 take_track tracks_of message_of] in *; rewrite ?push_last_snoc; cbn [bind].
    + apply andb_true_iff in H. destruct H as [H1 H2]. rewrite H1. cbn [bind]. apply IH. exact H2.
    + destruct (IH ts (t ++ [MetaEvent delta_time event data]) tpb H) as [tpb' E]. exists tpb'. rewrite E, <- app_assoc. reflexivity.
    + destruct (IH ts (t ++ [MidiEvent delta_time event]) tpb H) as [tpb' E]. exists tpb'. rewrite E, <- app_assoc. reflexivity.
    + destruct (IH ts (t ++ [SysExEvent delta_time event data]) tpb H) as [tpb' E]. exists tpb'. rewrite E, <- app_assoc. reflexivity.
    + destruct (IH (ts ++ [t]) [] tpb H) as [tpb' E]. exists tpb'. rewrite E, app_nil_r, <- app_assoc. reflexivity.
Qed.
Lemma callbacks_ok cbs : forall tpb, format1 false cbs = true ->
  exists tpb', ofold on_callback cbs (mk_rstate [] tpb) = Ok (mk_rstate (tracks_of cbs) tpb').
Proof.
  induction cbs as [|c cbs IH]; intros tpb H; cbn [ofold]; [exists tpb; reflexivity|].
  destruct c; cbn [on_callback r_tracks r_tpb format1 tracks_of andb] in *; try discriminate.
  - apply andb_true_iff in H. destruct H as [H1 H2]. rewrite H1. cbn [bind]. apply IH. exact H2.
  - cbn [bind]. destruct (callbacks_started cbs [] [] tpb H) as [tpb' E]. exists tpb'. exact E.
Qed.
Lemma callbacks_bad cbs : forall ts tpb, format1 (negb (is_nil ts)) cbs = false ->
  exists p, ofold on_callback cbs (mk_rstate ts tpb) = Panic p.
Proof.
  induction cbs as [|c cbs IH]; intros ts tpb H; [discriminate|]. cbn [ofold].
  assert (Hmsg : forall m, negb (is_nil ts) && format1 (negb (is_nil ts)) cbs = false ->
    exists p, (let* s := (let* ts0 := push_last ts m in Ok (mk_rstate ts0 tpb)) in ofold on_callback cbs s) = Panic p).
  { intros m Hm. destruct ts as [|t0 ts0] using rev_ind; [cbn; eauto|]. rewrite push_last_snoc. cbn [bind]. apply IH.
    replace (is_nil (ts0 ++ [t0])) with false in Hm by (destruct ts0; reflexivity).
    replace (is_nil (ts0 ++ [t0 ++ [m]])) with false by (destruct ts0; reflexivity). exact Hm. }
  destruct c; cbn [on_callback r_tracks r_tpb format1] in *; try (apply Hmsg; exact H).
  - destruct (format =? 1); [|cbn; eauto]. cbn [bind andb] in *. apply IH. exact H.
  - cbn [bind]. apply IH. destruct ts; exact H.
Qed.

(** ** The interval scan *)
Lemma balanced_app p l : balanced (p ++ l) -> forall q r, l = q ++ r -> 0 <= surplus p + surplus q < 2 ^ 64.
Proof. intros H q r ->. rewrite <- surplus_app. apply (H (p ++ q) r). rewrite <- app_assoc. reflexivity. Qed.
Lemma scan_balanced b i ch : forall p s, balanced (p ++ ch) -> is_active s = surplus p ->
  exists s', ofold (interval_step b i) ch s = Ok s' /\ is_active s' = surplus (p ++ ch).
Proof.
  induction ch as [|[m t] ch IH]; intros p s Hb Ha; cbn [ofold].
  - exists s. rewrite app_nil_r. auto.
  - assert (Hb' : balanced ((p ++ [(m, t)]) ++ ch)) by (rewrite <- app_assoc; exact Hb).
    assert (Hsur : surplus (p ++ [(m, t)]) = is_active s + weight m).
    { rewrite surplus_app. cbn [surplus]. lia. }
    assert (Hfin : forall s1, is_active s1 = is_active s + weight m ->
      exists s', ofold (interval_step b i) ch s1 = Ok s' /\ is_active s' = surplus (p ++ (m, t) :: ch)).
    { intros s1 E1. destruct (IH (p ++ [(m, t)]) s1 Hb') as (s' & E & E'); [lia|].
      exists s'. split; [exact E|]. rewrite E', <- app_assoc. reflexivity. }
    rewrite interval_step_eq. destruct m as [d e x|d e|d e x|]; try (cbn [bind]; apply Hfin; cbn; lia).
    cbn zeta. destruct (is_note (MidiEvent d e)) eqn:En.
    + assert (Hr : 0 <= is_active s + weight (MidiEvent d e) < 2 ^ 64).
      { rewrite <- Hsur. apply (Hb _ ch). rewrite <- app_assoc. reflexivity. }
      assert (Har : arith b 64 (is_active s + weight (MidiEvent d e)) = Ok (is_active s + weight (MidiEvent d e))).
      { unfold arith. replace (0 <=? _) with true by lia. replace (_ <? _) with true by lia. reflexivity. }
      rewrite Har. cbn [bind]. apply Hfin. reflexivity.
    + cbn [bind]. apply Hfin. cbn [is_active]. apply weight_zero in En. lia.
Qed.
Lemma intervals_balanced b chs : Forall balanced chs -> forall i mx, exists r, all_intervals b chs i mx = Ok r.
Proof.
  induction 1 as [|ch chs Hb _ IH]; intros i mx; cbn [all_intervals]; [eauto|].
  destruct (scan_balanced b i ch [] (mk_istate [] 0 0 mx) Hb eq_refl) as (s & E & _). rewrite E. cbn [bind].
  destruct (IH (S i) (is_max s)) as [r Er]. rewrite Er. cbn [bind]. eauto.
Qed.
Lemma arith_release bits x : exists y, arith Release bits x = Ok y.
Proof. unfold arith. destruct (_ && _); eauto. Qed.
Lemma intervals_release chs : forall i mx, exists r, all_intervals Release chs i mx = Ok r.
Proof.
  induction chs as [|ch chs IH]; intros i mx; cbn [all_intervals]; [eauto|].
  assert (H : forall ch s, exists s', ofold (interval_step Release i) ch s = Ok s').
  { clear. induction ch as [|[m t] ch IH]; intros s; cbn [ofold]; [eauto|]. rewrite interval_step_eq.
    destruct m as [| d e | |]; try (cbn [bind]; apply IH). cbn zeta. destruct (is_note (MidiEvent d e)); [|cbn [bind]; apply IH].
    destruct (arith_release 64 (is_active s + weight (MidiEvent d e))) as [y ->]. cbn [bind]. apply IH. }
  destruct (H ch (mk_istate [] 0 0 mx)) as [s E]. rewrite E. cbn [bind].
  destruct (IH (S i) (is_max s)) as [r Er]. rewrite Er. cbn [bind]. eauto.
Qed.

(** In a release build distributing tracks to channels can only fail on a channel number. *)
Lemma merge_release ts : Forall (Forall channel_ok) ts -> exists chs, tracks_to_channels Release ts = Ok chs.
Proof.
  intros HF. unfold tracks_to_channels.
  assert (Hm : forall tr, Forall channel_ok tr -> forall chs t, length chs = 16%nat ->
    exists chs' t', ofold (distribute_message Release) tr (chs, t) = Ok (chs', t') /\ length chs' = 16%nat).
  { induction 1 as [|m tr Hc _ IH]; intros chs t HL; cbn [ofold]; [eauto|]. rewrite distribute_message_eq. unfold addr_nat.
    unfold channel_ok in Hc. destruct (addressee m) as [c|] eqn:Ea; cbn [option_map].
    - destruct (arith_release 32 (t + delta m)) as [y ->]. cbn [bind].
      destruct (push_at_some chs (Z.to_nat c) (m, y)) as [chs' E]; [lia|]. rewrite E. cbn [bind].
      apply IH. apply push_at_ok in E. lia.
    - cbn [bind]. apply IH. exact HL. }
  assert (Ht : forall ts, Forall (Forall channel_ok) ts -> forall chs, length chs = 16%nat ->
    exists chs', ofold (distribute_track Release) ts chs = Ok chs' /\ length chs' = 16%nat).
  { induction 1 as [|tr ts' Hc _ IH]; intros chs HL; cbn [ofold]; [eauto|]. unfold distribute_track at 1.
    destruct (Hm tr Hc chs 0 HL) as (chs' & t' & E & HL'). rewrite E. cbn [bind fst]. apply IH. exact HL'. }
  destruct (Ht ts HF (repeat [] 16) eq_refl) as (chs' & E & _). rewrite E. cbn [bind]. eauto.
Qed.

Lemma tracks_typed cbs : Forall callback_typed cbs -> Forall (Forall message_typed) (tracks_of cbs).
Proof.
  assert (Ht : forall cbs, Forall callback_typed cbs -> Forall message_typed (take_track cbs)).
  { induction 1 as [|c l Hc _ IH]; cbn [take_track]; [constructor|]. destruct c; cbn [message_of]; auto.
    - constructor; [split; cbn; auto; lia|exact IH].
    - constructor; [split; cbn; auto; lia|exact IH]. }
  induction 1 as [|c l Hc Hl IH]; cbn [tracks_of]; [constructor|]. destruct c; auto.
Qed.

(** [voices_outcome]: success, or the documented failure. *)
Lemma read_tail chs base order : channels_ok chs -> base_ok base -> (forall k, permutes (order k)) ->
  (exists voices, channels_to_voices chs base order = Ok voices) \/ channels_to_voices chs base order = Err ECouldntFit.
Proof. intros H1 H2 H3. destruct (distribution_total chs base order H1 H2 H3) as [H|[H _]]; auto. Qed.

Lemma read_total b cbs order chs : Forall callback_typed cbs -> (forall k, permutes (order k)) -> format1 false cbs = true ->
  tracks_to_channels b (tracks_of cbs) = Ok chs -> (b = Release \/ Forall balanced chs) ->
  (exists h, midi_read b cbs true order = Ok h) \/ midi_read b cbs true order = Err ECouldntFit.
Proof.
  intros HF Ho H1 Hc Hb. unfold midi_read. destruct (callbacks_ok cbs 0 H1) as [tpb E]. rewrite E. cbn [bind r_tracks r_tpb].
  rewrite Hc. cbn [bind].
  assert (Hiv : exists r, all_intervals b chs 0 0 = Ok r).
  { destruct Hb as [->|Hb]; [apply intervals_release|apply intervals_balanced; exact Hb]. }
  destruct Hiv as [iv Eiv]. rewrite Eiv. cbn [bind]. pose proof (channels_ok_read _ _ _ (tracks_typed _ HF) Hc) as Hok.
  destruct (find_base_voices (fst iv) (repeat [] 8)) as [base|] eqn:Eb; [|auto].
  assert (Hbo : base_ok base).
  { eapply base_ok_found; [|exact Eb]. apply all_intervals_length in Eiv. rewrite Eiv. apply Hok. }
  destruct (read_tail chs base order Hok Hbo Ho) as [(vs & Ev)|Ev]; rewrite Ev; cbn [bind]; eauto.
Qed.
Lemma read_total_debug cbs order : Forall callback_typed cbs -> (forall k, permutes (order k)) -> format1 false cbs = true ->
  file_ok (tracks_of cbs) -> (forall c l, stable_sort_of (file_order (tracks_of cbs) c) l -> balanced l) ->
  (exists h, midi_read Debug cbs true order = Ok h) \/ midi_read Debug cbs true order = Err ECouldntFit.
Proof.
  intros HF Ho H1 Hfile Hbal. destruct (merge_ok Debug _ Hfile) as (chs & E & HL & Hs). apply (read_total Debug cbs order chs); auto.
  right. apply Forall_forall. intros l Hl. apply In_nth with (d := []) in Hl. destruct Hl as (c & _ & <-). eauto.
Qed.
Lemma read_total_release cbs order : Forall callback_typed cbs -> (forall k, permutes (order k)) -> format1 false cbs = true ->
  Forall (Forall channel_ok) (tracks_of cbs) ->
  (exists h, midi_read Release cbs true order = Ok h) \/ midi_read Release cbs true order = Err ECouldntFit.
Proof.
  intros HF Ho H1 Hc. destruct (merge_release _ Hc) as [chs E]. apply (read_total Release cbs order chs); auto.
Qed.

(** ** Whole-file statements in terms of the callbacks *)
Lemma read_ok_tracks b cbs complete order h : midi_read b cbs complete order = Ok h ->
  complete = true /\ format1 false cbs = true /\
  exists tpb, ofold on_callback cbs (mk_rstate [] 0) = Ok (mk_rstate (tracks_of cbs) tpb).
Proof.
  intros H. unfold midi_read in H. destruct (format1 false cbs) eqn:Ef.
  - destruct (callbacks_ok cbs 0 Ef) as [tpb E]. rewrite E in H. cbn [bind] in H. destruct complete; [|discriminate]. eauto.
  - destruct (callbacks_bad cbs [] 0 Ef) as [p E]. rewrite E in H. discriminate.
Qed.
Lemma read_conserves b cbs complete order h : Forall callback_typed cbs -> (forall k, permutes (order k)) ->
  file_ok (tracks_of cbs) -> midi_read b cbs complete order = Ok h ->
  exists notes, file_notes (tracks_of cbs) notes /\ Permutation (flat_map voice_notes (h_voices h)) (map drum notes).
Proof.
  intros HF Ho Hfile H. destruct (read_ok_tracks _ _ _ _ _ H) as (-> & _ & tpb & E).
  apply (read_notes b cbs order h _ HF Ho E Hfile H).
Qed.
Lemma read_failure b cbs order e : Forall callback_typed cbs -> (forall k, permutes (order k)) ->
  midi_read b cbs true order = Err e ->
  e = ECouldntFit /\ exists chs ivs mx, tracks_to_channels b (tracks_of cbs) = Ok chs /\ all_intervals b chs 0 0 = Ok (ivs, mx) /\
  (find_base_voices ivs (repeat [] 8) = None \/
   exists base p d c k vel t q s, find_base_voices ivs (repeat [] 8) = Some base /\
     interleave chs (p ++ (MidiEvent d (NoteOn c k vel), t) :: q) /\ 0 < vel /\
     ofold (voice_step base (fun n => n)) (p ++ [(MidiEvent d (NoteOff c k vel), t)]) (vstate0 base) = Ok s /\
     forall v, (v < 8)%nat -> (v = nth (Z.to_nat c) base 0%nat \/ ~ In v base) ->
       sounding_after false (nth v (v_voices s) []) = true).
Proof.
  intros HF Ho H. unfold midi_read in H. destruct (format1 false cbs) eqn:Ef.
  2:{ destruct (callbacks_bad cbs [] 0 Ef) as [p E]. rewrite E in H. discriminate. }
  destruct (callbacks_ok cbs 0 Ef) as [tpb E]. rewrite E in H. cbn [bind r_tracks] in H.
  assert (Hne : forall b ts, noerr (tracks_to_channels b ts)).
  { intros b0 ts. unfold tracks_to_channels. apply noerr_bind; [|intros; apply noerr_ok].
    generalize (repeat (@nil tmsg) 16). induction ts as [|tr ts IH]; intros chs; cbn [ofold]; [apply noerr_ok|].
    apply noerr_bind; [|intros; apply IH]. unfold distribute_track. apply noerr_bind; [|intros; apply noerr_ok].
    generalize (chs, 0). induction tr as [|m tr IHt]; intros st; cbn [ofold]; [apply noerr_ok|].
    apply noerr_bind; [|intros; apply IHt]. destruct st as [c0 t0]. rewrite distribute_message_eq.
    destruct (addr_nat m); [|apply noerr_ok]. apply noerr_bind; [apply noerr_arith|intros]. apply noerr_bind; [|intros; apply noerr_ok].
    unfold push_at. destruct (nth_error c0 n); [apply noerr_or_panic|intros ?; discriminate]. }
  assert (Hni : forall b chs i mx, noerr (all_intervals b chs i mx)).
  { intros b0. induction chs as [|ch chs IH]; intros i mx; cbn [all_intervals]; [apply noerr_ok|].
    apply noerr_bind; [|intros; apply noerr_bind; [apply IH|intros; apply noerr_ok]].
    generalize (mk_istate [] 0 0 mx). induction ch as [|[m t] ch IHc]; intros s; cbn [ofold]; [apply noerr_ok|].
    apply noerr_bind; [|intros; apply IHc]. rewrite interval_step_eq. destruct m; try apply noerr_ok. cbn zeta.
    destruct (is_note _); [|apply noerr_ok]. apply noerr_bind; [apply noerr_arith|intros; apply noerr_ok]. }
  destruct (tracks_to_channels b (tracks_of cbs)) as [chs|e'| |] eqn:Ec; cbn [bind] in H; try discriminate.
  2:{ destruct (Hne b (tracks_of cbs) e' Ec). }
  destruct (all_intervals b chs 0 0) as [[ivs mx]|e'| |] eqn:Ei; cbn [bind fst snd] in H; try discriminate.
  2:{ destruct (Hni b chs 0%nat 0 e' Ei). }
  pose proof (channels_ok_read _ _ _ (tracks_typed _ HF) Ec) as Hok.
  destruct (find_base_voices ivs (repeat [] 8)) as [base|] eqn:Eb.
  - assert (Hbo : base_ok base).
    { eapply base_ok_found; [|exact Eb]. apply all_intervals_length in Ei. cbn in Ei. rewrite Ei. apply Hok. }
    destruct (distribution_total chs base order Hok Hbo Ho) as [(vs & Ev)|(Ev & p & d & c & k & vel & t & q & s & H1 & H2 & H3 & H4)];
      rewrite Ev in H; cbn [bind] in H; [discriminate|]. injection H as <-. split; [reflexivity|]. exists chs, ivs, mx.
    split; [reflexivity|]. split; [exact Ei|]. right. exists base, p, d, c, k, vel, t, q, s. auto.
  - injection H as <-. split; [reflexivity|]. exists chs, ivs, mx. split; [reflexivity|]. split; [exact Ei|]. left. exact Eb.
Qed.

(** Channels sharing a base voice are never sounding at the same time. *)
Lemma sorted_times l : StronglySorted not_after l -> Sorted (fun x y : tmsg => snd x <= snd y) l.
Proof.
  intros H. apply StronglySorted_Sorted. eapply sorted_impl; [|exact H]. intros x y. apply not_after_time.
Qed.
Lemma channels_intervals b ts chs ivs mx : Forall (Forall message_typed) ts -> tracks_to_channels b ts = Ok chs ->
  all_intervals b chs 0 0 = Ok (ivs, mx) ->
  Forall2 (fun ch iv => proper iv /\ (exact_count b ch -> forall t, 0 <= t -> before_end ch t -> (sounds iv t <-> 0 < sounding ch t))) chs ivs.
Proof.
  intros Ht Hc Hi. pose proof (channels_ok_read _ _ _ Ht Hc) as (_ & Hty & Hs & _). eapply all_intervals_spec; [exact Hi| |].
  - eapply Forall_impl; [|exact Hs]. intros l. apply sorted_times.
  - eapply Forall_impl; [|exact Hty]. intros l Hl. eapply Forall_impl; [|exact Hl]. intros x (_ & Hx & _). lia.
Qed.
Lemma forall2_nth {A B} (P : A -> B -> Prop) la lb i a : Forall2 P la lb -> nth_error la i = Some a -> exists b, nth_error lb i = Some b /\ P a b.
Proof.
  intros H. revert i. induction H as [|x y la lb Hxy _ IH]; intros [|i] Hi; cbn in *; try discriminate; [|apply IH; exact Hi].
  injection Hi as <-. eauto.
Qed.
Lemma base_voices_sound b ts chs ivs mx base i j ci cj v t : Forall (Forall message_typed) ts -> tracks_to_channels b ts = Ok chs ->
  all_intervals b chs 0 0 = Ok (ivs, mx) -> find_base_voices ivs (repeat [] 8) = Some base ->
  i <> j -> nth_error chs i = Some ci -> nth_error chs j = Some cj -> b = Debug \/ balanced ci /\ balanced cj -> nth_error base i = Some v -> nth_error base j = Some v ->
  0 <= t -> before_end ci t -> before_end cj t -> ~ (0 < sounding ci t /\ 0 < sounding cj t).
Proof.
  intros Ht Hc Hi Hb Hij Hci Hcj Hbal Hbi Hbj H0 He1 He2 [Hs1 Hs2].
  pose proof (channels_intervals _ _ _ _ _ Ht Hc Hi) as HF.
  assert (Hex : exact_count b ci /\ exact_count b cj) by (unfold exact_count; destruct Hbal as [H|[H H']]; auto). destruct Hex as [Hex1 Hex2].
  destruct (forall2_nth _ _ _ _ _ HF Hci) as (iv1 & Hiv1 & _ & Hx1). destruct (forall2_nth _ _ _ _ _ HF Hcj) as (iv2 & Hiv2 & _ & Hx2).
  destruct (base_sound _ _ Hb) as (_ & _ & Hcf). apply (Hcf i j iv1 iv2 v Hij Hiv1 Hiv2 Hbi Hbj). exists t.
  split; [apply (Hx1 Hex1); auto|apply (Hx2 Hex2); auto].
Qed.
Lemma base_voices_complete b ts chs ivs mx : Forall (Forall message_typed) ts -> tracks_to_channels b ts = Ok chs ->
  all_intervals b chs 0 0 = Ok (ivs, mx) -> find_base_voices ivs (repeat [] 8) = None -> ~ exists base, conflict_free ivs base.
Proof.
  intros Ht Hc Hi. apply base_complete. pose proof (channels_intervals _ _ _ _ _ Ht Hc Hi) as HF.
  clear - HF. induction HF as [|? ? ? ? [H _]]; constructor; assumption.
Qed.
(** Read-level C20. *)
Lemma read_offs b cbs complete order h : Forall callback_typed cbs -> (forall k, permutes (order k)) ->
  file_ok (tracks_of cbs) -> (forall c, NoDup (hits (file_order (tracks_of cbs) c))) ->
  midi_read b cbs complete order = Ok h -> Forall offs_before_ons (h_voices h).
Proof.
  intros HF Ho Hfile Hnd H. destruct (read_ok_tracks _ _ _ _ _ H) as (-> & _ & tpb & E).
  destruct (midi_read_inv _ _ _ _ _ H HF) as (r & chs & ivs & mx & base & Hr & _ & Hc & Hok & _ & _ & Hb & Hv & _).
  rewrite E in Hr. injection Hr as <-. cbn [r_tracks] in Hc.
  destruct (merge_ok b _ Hfile) as (chs' & Hc' & HL & Hs). rewrite Hc in Hc'. injection Hc' as <-.
  eapply distribution_offs; eauto. apply Forall_forall. intros l Hl. apply In_nth with (d := []) in Hl. destruct Hl as (c & _ & <-).
  destruct (Hs c) as (Hp & _). specialize (Hnd c).
  assert (Hph : Permutation (hits (file_order (tracks_of cbs) c)) (hits (nth c chs []))).
  { clear - Hp. induction Hp as [|[m t] l1 l2 _ IH|[m1 t1] [m2 t2] l|]; [constructor| | |etransitivity; eauto].
    - destruct m as [|? []| |]; cbn [hits]; auto. destruct (velocity =? 0); auto.
    - destruct m1 as [|? []| |], m2 as [|? []| |]; cbn [hits]; try reflexivity.
      destruct (velocity =? 0), (velocity0 =? 0); try reflexivity. apply perm_swap. }
  eapply Permutation_NoDup; eauto.
Qed.

(** ReadProofs.v: reading a MIDI file: notes, alternation, time order and totality for every file
    (C11, C18, C19, C20, C49). *)
From Coq Require Import ZArith List Bool Lia ZifyBool ZifyNat Permutation Sorted.
From Verif Require Import Base ProofLib F32 Messages Command Track Midi SpecMidi SpecNotes SpecVoices
  MergeProofs BaseVoiceProofs LoopProofs VoiceProofs DistributeProofs.
Ltac Zify.zify_post_hook ::= Z.div_mod_to_equations.

(** ** Notes per channel *)
Lemma merged_end_channel c k m : 0 <= c -> merged_end c k m = note_end k (filter (for_channel (Z.to_nat c)) m).
Proof.
  intros Hc. induction m as [|[ev t] m IH]; [reflexivity|]. cbn [filter]. unfold for_channel at 1. cbn [fst].
  destruct ev as [? [] ?|d [c' k' vel|c' k' vel|? ? ?|? ? ?|? ?|? ?|? ?|?]|? ? ?|]; cbn [addressee event_channel merged_end].
  3,4: destruct (Z.eqb_spec c' (Z.of_nat (Z.to_nat c))) as [He|He]; cbn [note_end];
       [replace (c' =? c) with true by lia|replace (c' =? c) with false by lia]; cbn [andb]; [destruct (k' =? k); auto|auto].
  all: try (destruct (_ =? Z.of_nat (Z.to_nat c)); cbn [note_end]; exact IH). exact IH.
Qed.
Lemma merged_channel_notes m : Forall (fun x => channel_ok (fst x)) m ->
  Permutation (merged_notes m) (flat_map (fun c => channel_notes (filter (for_channel c) m)) (seq 0 16)).
Proof.
  induction m as [|[ev t] m IH]; intros HF; [reflexivity|]. inversion HF as [|? ? Hc HF']; subst. cbn [fst] in Hc. specialize (IH HF').
  assert (Hskip : match ev with MidiEvent _ (NoteOn _ _ v) => v = 0 | _ => True end ->
    Permutation (merged_notes ((ev, t) :: m)) (flat_map (fun c => channel_notes (filter (for_channel c) ((ev, t) :: m))) (seq 0 16))).
  { intros Hv. replace (merged_notes ((ev, t) :: m)) with (merged_notes m).
    2:{ destruct ev as [|? []| |]; try reflexivity. subst. reflexivity. }
    rewrite IH. rewrite (flat_map_ext_in (fun c => channel_notes (filter (for_channel c) ((ev, t) :: m)))
                           (fun c => channel_notes (filter (for_channel c) m))); [reflexivity|].
    intros c _. cbn [filter]. destruct (for_channel c (ev, t)); [|reflexivity].
    destruct ev as [|? []| |]; try reflexivity. subst. reflexivity. }
  destruct ev as [| d [|c k vel| | | | | |]| |]; try (apply Hskip; exact I).
  destruct (Z.eqb_spec vel 0) as [Hz|Hz]; [apply Hskip; exact Hz|]. clear Hskip.
  unfold channel_ok in Hc. cbn [addressee event_channel] in Hc. cbn [merged_notes].
  destruct (Z.eqb_spec vel 0); [contradiction|].
  symmetry. rewrite IH. apply (flat_map_bump _ _ (Z.to_nat c)).
  - apply seq_NoDup.
  - apply in_seq. lia.
  - cbn [filter]. unfold for_channel at 1. cbn [fst addressee event_channel]. replace (c =? Z.of_nat (Z.to_nat c)) with true by lia.
    cbn [channel_notes]. destruct (Z.eqb_spec vel 0); [contradiction|]. rewrite merged_end_channel by lia. reflexivity.
  - intros w Hw. cbn [filter]. unfold for_channel at 1. cbn [fst addressee event_channel].
    replace (c =? Z.of_nat w) with false by lia. reflexivity.
Qed.

(** ** Well-formed channels *)
Lemma flat_map_nth {A} (f : list tmsg -> list A) chs : flat_map (fun c => f (nth c chs [])) (seq 0 (length chs)) = flat_map f chs.
Proof.
  assert (H : forall pre l, flat_map (fun c => f (nth c (pre ++ l) [])) (seq (length pre) (length l)) = flat_map f l).
  { intros pre l. revert pre. induction l as [|x l IH]; intros pre; [reflexivity|]. cbn [length seq flat_map].
    rewrite app_nth2, Nat.sub_diag by lia. cbn [nth]. f_equal.
    specialize (IH (pre ++ [x])). rewrite app_length, <- app_assoc in IH. cbn [length app] in IH.
    rewrite Nat.add_1_r in IH. exact IH. }
  exact (H [] chs).
Qed.

Lemma channels_merge chs : channels_ok chs ->
  exists m, ordered_merge chs m /\ StronglySorted not_after m /\ Forall typed m /\
    Permutation (merged_notes m) (flat_map channel_notes chs) /\
    forall base order, (forall k, permutes (order k)) ->
      channels_to_voices chs base order = let* s := ofold (vstep base) m (vstate0 base) in Ok (v_voices s).
Proof.
  intros (HL & Ht & Hs & Hw).
  destruct (channels_to_voices_merge chs) as (m & Hm & Hrun).
  { eapply Forall_impl; [|exact Ht]. intros l Hl. eapply Forall_impl; [|exact Hl]. intros x (_ & Hx & _). exact Hx. }
  exists m. split; [exact Hm|]. destruct (ordered_merge_sorted _ _ Hm Hs) as [Hsm Hin]. split; [exact Hsm|].
  assert (Htm : Forall typed m).
  { apply Forall_forall. intros y Hy. destruct (Hin y Hy) as (r & Hr & Hyr). rewrite Forall_forall in Ht. specialize (Ht r Hr).
    rewrite Forall_forall in Ht. auto. }
  split; [exact Htm|]. split; [|exact Hrun].
  rewrite merged_channel_notes.
  2:{ eapply Forall_impl; [|exact Htm]. intros x (Hx & _). exact Hx. }
  rewrite <- (flat_map_nth channel_notes chs). rewrite HL.
  rewrite (flat_map_ext_in _ (fun c => channel_notes (nth c chs []))); [reflexivity|].
  intros c Hc. apply in_seq in Hc. f_equal.
  apply (interleave_filter chs m (ordered_interleave _ _ Hm) Hw c). apply nth_error_nth'. lia.
Qed.

(** ** C18, C19 *)
Lemma remembered0 base : remembered (vstate0 base).
Proof. unfold remembered, vstate0. cbn [v_ctrl v_prog v_pitch]. repeat split; repeat constructor. Qed.
Lemma vv0 base v : vv (vstate0 base) v = [].
Proof. unfold vv, vstate0. cbn [v_voices]. apply nth_repeat. Qed.
Lemma lookup0 base c k : lookup (v_active (vstate0 base)) c k = None.
Proof. unfold lookup, vstate0. cbn [v_active]. rewrite nth_repeat. reflexivity. Qed.

Lemma distribution chs base order voices : channels_ok chs -> base_ok base -> (forall k, permutes (order k)) ->
  channels_to_voices chs base order = Ok voices ->
  length voices = 8%nat /\ Forall (alternates None) voices /\
  Permutation (flat_map voice_notes voices) (map drum (flat_map channel_notes chs)).
Proof.
  intros Hchs Hb Ho H. destruct (channels_merge chs Hchs) as (m & _ & _ & Ht & Hp & Hrun).
  rewrite Hrun in H by exact Ho. inv_bind H. injection H as <-. rename a into s.
  destruct (run_spec base m Hb (vstate0 base) s) as (Hs & _ & sx & Hsx & [_ Hg] & Hperm).
  - apply vinv0.
  - apply remembered0.
  - eapply Forall_impl; [|exact Ht]. intros x (Hx & _); exact Hx.
  - eapply Forall_impl; [|exact Ht]. intros x (_ & _ & Hx); exact Hx.
  - exact Ha.
  - assert (Hvv : forall v, nth v (v_voices s) [] = sx v).
    { intros v. fold (vv s v). rewrite Hsx, vv0. reflexivity. }
    split; [apply Hs|]. split.
    + apply Forall_forall. intros l Hl. apply In_nth with (d := []) in Hl. destruct Hl as (v & Hv & <-). rewrite Hvv.
      apply Hg. intros (c & k & Hc & Hl). rewrite lookup0 in Hl. discriminate.
    + rewrite <- (flat_map_nth voice_notes (v_voices s)). rewrite (vi_voices _ Hs).
      rewrite (flat_map_ext_in _ (fun v => voice_notes (sx v))); [|intros v _; rewrite Hvv; reflexivity].
      fold (notes8 sx). rewrite Hperm. apply Permutation_map. exact Hp.
Qed.

(** ** C20 *)
Lemma px_times base s m t s1 : step_spec base s m t s1 ->
  exists px, (forall v, vv s1 v = vv s v ++ px v) /\ forall v x, In x (px v) -> snd x = t.
Proof.
  intros (px & Hpx & Hstep). exists px. split; [exact Hpx|]. intros v x Hx.
  assert (Hov : forall o y, snd y = t -> In x (on_voice o y v) -> snd x = t).
  { intros o y Hy Hin. destruct o as [w|]; [|destruct Hin]. cbn in Hin. destruct (Nat.eqb v w); [|destruct Hin].
    destruct Hin as [<-|[]]. exact Hy. }
  assert (Hif : forall b : bool, In x (if b then [(m, t)] else []) -> snd x = t).
  { intros b Hin. destruct b; [|destruct Hin]. destruct Hin as [<-|[]]. reflexivity. }
  assert (Hopt : forall o, In x (opt_msg o t) -> snd x = t).
  { intros o Hin. destruct o; [|destruct Hin]. destruct Hin as [<-|[]]. reflexivity. }
  destruct m as [? [] ?|d [c k vel|c k vel|c k vel|c ctl dat|c p|c p|c dat|c]|? ? ?|].
  all: try (destruct Hstep as (_ & _ & _ & Hp & _); destruct (Hp v) as [Hp'|Hp']; rewrite Hp' in Hx; [destruct Hx|];
            destruct Hx as [<-|[]]; reflexivity).
  all: try (destruct Hstep as (_ & _ & _ & Hp & _); rewrite Hp in Hx; eapply Hif; exact Hx).
  - destruct Hstep as (Hp & _). rewrite Hp in Hx. eapply Hov; [|exact Hx]. reflexivity.
  - destruct Hstep as (_ & _ & Hstep). destruct (0 <? vel).
    + destruct Hstep as (voice & _ & Hp & _). rewrite Hp in Hx. apply in_app_or in Hx. destruct Hx as [Hx|Hx].
      * eapply Hov; [|exact Hx]. reflexivity.
      * destruct (Nat.eqb v voice); [|destruct Hx]. apply in_app_or in Hx. destruct Hx as [Hx|[<-|[]]]; [|reflexivity].
        unfold prelude in Hx. apply in_app_or in Hx. destruct Hx as [Hx|Hx].
        -- destruct (match nth voice (v_chan s) None with Some c' => Z.of_nat c' =? c | None => false end); [destruct Hx|].
           apply in_app_or in Hx. destruct Hx as [Hx|Hx]; [eauto|]. apply in_app_or in Hx. destruct Hx; eauto.
        -- destruct (_ && _); [|destruct Hx]. destruct Hx as [<-|[]]. reflexivity.
    + destruct Hstep as (Hp & _). rewrite Hp in Hx. eapply Hov; [|exact Hx]. reflexivity.
Qed.

Lemma sorted_app {A} (R : A -> A -> Prop) l1 l2 : StronglySorted R l1 -> StronglySorted R l2 ->
  (forall x y, In x l1 -> In y l2 -> R x y) -> StronglySorted R (l1 ++ l2).
Proof.
  induction l1 as [|x l1 IH]; intros H1 H2 H; [exact H2|]. inversion H1; subst. cbn [app]. constructor.
  - apply IH; auto. intros; apply H; auto. right; auto.
  - apply Forall_app. split; [assumption|]. apply Forall_forall. intros y Hy. apply H; [left; reflexivity|exact Hy].
Qed.
Lemma run_times base m : base_ok base -> forall s s', vinv s -> Forall typed m -> StronglySorted time_le m ->
  (forall v, StronglySorted time_le (vv s v)) ->
  (forall v x y, In x (vv s v) -> In y m -> time_le x y) -> ofold (vstep base) m s = Ok s' ->
  forall v, StronglySorted time_le (vv s' v).
Proof.
  intros Hb. induction m as [|[ev t] m IH]; intros s s' Hs Ht Hm Hv Hle H; cbn [ofold] in H.
  - injection H as <-. exact Hv.
  - inversion Ht as [|? ? (Hc & _) Ht']; subst. inversion Hm as [|? ? Hm' Hle']; subst. cbn [fst] in Hc.
    destruct (step_result base s ev t Hs Hb Hc) as [(s1 & E & Hs1 & Hstep)|[E _]]; rewrite E in H; [|discriminate]. cbn [bind] in H.
    destruct (px_times _ _ _ _ _ Hstep) as (px & Hpx & Hpt).
    eapply (IH s1); eauto.
    + intros v. rewrite Hpx. apply sorted_app; [apply Hv| |].
      * specialize (Hpt v). induction (px v) as [|x l IHl]; constructor.
        -- apply IHl. intros; apply Hpt; right; auto.
        -- apply Forall_forall. intros y Hy. unfold time_le. rewrite (Hpt x), (Hpt y); [lia|right; exact Hy|left; reflexivity].
      * intros x y Hx Hy. unfold time_le. rewrite (Hpt v y Hy). apply (Hle v x (ev, t)); [exact Hx|left; reflexivity].
    + intros v x y Hx Hy. rewrite Hpx in Hx. apply in_app_or in Hx. destruct Hx as [Hx|Hx].
      * apply (Hle v x y); [exact Hx|right; exact Hy].
      * unfold time_le. rewrite (Hpt v x Hx). rewrite Forall_forall in Hle'. apply (Hle' y Hy).
Qed.
Lemma sorted_impl {A} (R Q : A -> A -> Prop) l : (forall x y, R x y -> Q x y) -> StronglySorted R l -> StronglySorted Q l.
Proof. intros H. induction 1; constructor; auto. eapply Forall_impl; [|eassumption]. auto. Qed.
Lemma not_after_time x y : not_after x y -> time_le x y.
Proof. unfold not_after, time_le. lia. Qed.

Lemma distribution_sorted chs base order voices : channels_ok chs -> base_ok base -> (forall k, permutes (order k)) ->
  channels_to_voices chs base order = Ok voices -> Forall (StronglySorted time_le) voices.
Proof.
  intros Hchs Hb Ho H. destruct (channels_merge chs Hchs) as (m & _ & Hsm & Ht & _ & Hrun).
  rewrite Hrun in H by exact Ho. inv_bind H. injection H as <-. rename a into s.
  apply Forall_forall. intros l Hl. apply In_nth with (d := []) in Hl. destruct Hl as (v & _ & <-). fold (vv s v).
  eapply (run_times base m Hb (vstate0 base) s); eauto.
  - apply vinv0.
  - eapply sorted_impl; [apply not_after_time|exact Hsm].
  - intros w. rewrite vv0. constructor.
  - intros w x y Hx. rewrite vv0 in Hx. destruct Hx.
Qed.

(** A voice whose note-off directly ends a note at its own start time contains a note of no length. *)
Lemma alternates_between l2 : forall o l3 d2 c2 k2 v2 t2 t1, alternates (Some o) (l2 ++ (MidiEvent d2 (NoteOff c2 k2 v2), t2) :: l3) ->
  (forall x, In x l2 -> t1 <= snd x <= t2) -> t1 = t2 ->
  voice_end (l2 ++ (MidiEvent d2 (NoteOff c2 k2 v2), t2) :: l3) = Some t1.
Proof.
  induction l2 as [|[ev t] l2 IH]; intros o l3 d2 c2 k2 v2 t2 t1 H Hin He; [cbn; f_equal; lia|].
  cbn [app] in *. assert (Hin' : forall x, In x l2 -> t1 <= snd x <= t2) by (intros; apply Hin; right; assumption).
  destruct ev as [|? []| |]; cbn [alternates voice_end] in *; try (eapply IH; eauto; fail).
  - specialize (Hin _ (or_introl eq_refl)). cbn [snd] in Hin. f_equal. lia.
  - destruct H as [H _]. discriminate.
Qed.
Lemma alternates_app l1 : forall o l2, alternates o (l1 ++ l2) -> exists o', alternates o' l2.
Proof.
  induction l1 as [|[ev t] l1 IH]; intros o l2 H; [eauto|]. cbn [app] in H.
  destruct ev as [|? []| |]; cbn [alternates] in H; try (eapply IH; eauto; fail).
  - destruct H as [_ H]. eauto.
  - destruct H as (_ & _ & H). eauto.
Qed.
Lemma voice_notes_app l1 n l2 : In n (voice_notes l2) -> In n (voice_notes (l1 ++ l2)).
Proof.
  intros H. induction l1 as [|[ev t] l1 IH]; [exact H|]. cbn [app].
  destruct ev as [|? []| |]; cbn [voice_notes]; auto. right; exact IH.
Qed.

(** In a sorted channel only a double hit makes a note of no length. *)
Lemma note_end_in k l t : note_end k l = Some t -> exists m, In (m, t) l /\
  ((exists d c v, m = MidiEvent d (NoteOff c k v)) \/ exists d c v, m = MidiEvent d (NoteOn c k v)).
Proof.
  induction l as [|[ev t'] l IH]; [discriminate|]. intros H.
  assert (Hrec : note_end k l = Some t -> exists m, In (m, t) ((ev, t') :: l) /\
     ((exists d c v, m = MidiEvent d (NoteOff c k v)) \/ exists d c v, m = MidiEvent d (NoteOn c k v))).
  { intros Hr. destruct (IH Hr) as (m & Hm & Hk). exists m. split; [right; exact Hm|exact Hk]. }
  destruct ev as [|d [c k' v|c k' v| | | | | |]| |]; cbn [note_end] in H; auto.
  - destruct (Z.eqb_spec k' k) as [He|]; [subst k'|auto]. injection H as ->. eexists. split; [left; reflexivity|]. left; eauto.
  - destruct (Z.eqb_spec k' k) as [He|]; [subst k'|auto]. injection H as ->. eexists. split; [left; reflexivity|]. right; eauto.
Qed.
Lemma in_hits d c k v t l : In (MidiEvent d (NoteOn c k v), t) l -> v <> 0 -> In (t, k) (hits l).
Proof.
  induction l as [|[ev t'] l IH]; [intros []|]. intros [H|H] Hv.
  - injection H as -> ->. cbn [hits]. destruct (Z.eqb_spec v 0); [contradiction|]. left; reflexivity.
  - specialize (IH H Hv). destruct ev as [|? []| |]; cbn [hits]; auto. destruct (_ =? 0); [auto|right; auto].
Qed.
Lemma no_zero_length l : StronglySorted not_after l -> NoDup (hits l) ->
  forall n, In n (channel_notes l) -> nt_off n <> Some (nt_on n).
Proof.
  induction l as [|[ev t] l IH]; intros Hs Hd n Hn; [destruct Hn|]. inversion Hs as [|? ? Hs' Hf]; subst.
  destruct ev as [| d [|c k v| | | | | |]| |]; cbn [channel_notes hits] in *; eauto.
  destruct (Z.eqb_spec v 0) as [Hv|Hv]; [eauto|]. inversion Hd as [|? ? Hni Hd']; subst.
  destruct Hn as [<-|Hn]; [|eauto]. cbn [nt_off nt_on]. intros He. apply note_end_in in He.
  destruct He as (m & Hm & Hk). rewrite Forall_forall in Hf. specialize (Hf _ Hm). unfold not_after in Hf. cbn [fst snd] in Hf.
  assert (Hr : rank (MidiEvent d (NoteOn c k v)) = 2).
  { unfold rank, note_off, note_on. destruct (Z.eqb_spec v 0); [contradiction|reflexivity]. }
  rewrite Hr in Hf. destruct Hk as [(d' & c' & v' & ->)|(d' & c' & v' & ->)].
  - unfold rank, note_off in Hf. lia.
  - unfold rank, note_off, note_on in Hf. destruct (Z.eqb_spec v' 0) as [Hv'|Hv']; [lia|].
    apply Hni. eapply in_hits; eauto.
Qed.

Lemma offs_before_ons_ok l : StronglySorted time_le l -> alternates None l ->
  (forall n, In n (voice_notes l) -> nt_off n <> Some (nt_on n)) -> offs_before_ons l.
Proof.
  intros Hs Ha Hn. unfold offs_before_ons. intros l1 l2 l3 d1 c1 k1 v1 t1 d2 c2 k2 v2 t2 ->.
  assert (Hs2 : StronglySorted time_le ((MidiEvent d1 (NoteOn c1 k1 v1), t1) :: l2 ++ (MidiEvent d2 (NoteOff c2 k2 v2), t2) :: l3)).
  { clear -Hs. induction l1; [exact Hs|]. inversion Hs; auto. }
  apply alternates_app in Ha. destruct Ha as [o Ha]. cbn [alternates] in Ha. destruct Ha as (_ & Hv & Ha).
  inversion Hs2 as [|? ? Hs3 Hf]; subst.
  assert (Hle : t1 <= t2).
  { rewrite Forall_forall in Hf. apply (Hf (MidiEvent d2 (NoteOff c2 k2 v2), t2)). apply in_or_app. right; left; reflexivity. }
  destruct (Z.eq_dec t1 t2) as [He|]; [|lia]. exfalso.
  assert (Hin : forall x, In x l2 -> t1 <= snd x <= t2).
  { intros x Hx. split.
    - rewrite Forall_forall in Hf. apply (Hf x). apply in_or_app; left; exact Hx.
    - clear -Hs3 Hx. induction l2 as [|y l2 IH]; [destruct Hx|]. cbn [app] in Hs3. inversion Hs3 as [|? ? H1 H2]; subst.
      destruct Hx as [<-|Hx]; [|auto]. rewrite Forall_forall in H2. apply (H2 (MidiEvent d2 (NoteOff c2 k2 v2), t2)).
      apply in_or_app. right; left; reflexivity. }
  apply (Hn (mk_note c1 k1 t1 (Some t1) v1)); [|reflexivity]. apply voice_notes_app. cbn [voice_notes]. left. f_equal.
  eapply alternates_between; eauto.
Qed.
Lemma distribution_offs chs base order voices : channels_ok chs -> base_ok base -> (forall k, permutes (order k)) ->
  Forall (fun l => NoDup (hits l)) chs ->
  channels_to_voices chs base order = Ok voices -> Forall offs_before_ons voices.
Proof.
  intros Hchs Hb Ho Hd H. pose proof (distribution_sorted _ _ _ _ Hchs Hb Ho H) as Hs.
  destruct (distribution _ _ _ _ Hchs Hb Ho H) as (_ & Ha & Hp). rewrite Forall_forall in *.
  intros l Hl. apply offs_before_ons_ok; auto. intros n Hn.
  assert (Hin : In n (map drum (flat_map channel_notes chs))).
  { eapply Permutation_in; [exact Hp|]. apply in_flat_map. exists l. auto. }
  apply in_map_iff in Hin. destruct Hin as (n' & <- & Hin). cbn [drum nt_on nt_off].
  apply in_flat_map in Hin. destruct Hin as (ch & Hch & Hin). destruct Hchs as (_ & _ & Hss & _).
  rewrite Forall_forall in Hss. eapply (no_zero_length ch); auto.
Qed.

(** FileProofs.v: voices of a renderable file are well-behaved (for C53). *)
From Coq Require Import ZArith List Bool Lia ZifyBool ZifyNat Permutation Sorted.
From Verif Require Import Base ProofLib Messages Track Midi SpecMidi SpecNotes SpecVoices SpecVoice SpecPlayback SpecFile MergeProofs LoopProofs
  VoiceProofs DistributeProofs ReadProofs ReadProofs2 InstrProofs TotalProofs.
Ltac Zify.zify_post_hook ::= Z.div_mod_to_equations.

(** ** Induction along the merged list *)
Lemma run_ind base (P : list tmsg -> vstate -> Prop) : base_ok base -> P [] (vstate0 base) ->
  (forall p m t s s1, P p s -> vinv s -> remembered s -> sound_inv s -> typed (m, t) -> step_spec base s m t s1 -> P (p ++ [(m, t)]) s1) ->
  forall p s, Forall typed p -> ofold (vstep base) p (vstate0 base) = Ok s -> P p s.
Proof.
  intros Hb H0 Hstep p. induction p as [|[m t] p IH] using rev_ind; intros s Ht E.
  - injection E as <-. exact H0.
  - rewrite ofold_app in E. inv_bind E. apply Forall_app in Ht. destruct Ht as [Ht1 Ht2]. inversion Ht2 as [|? ? Hx _]; subst.
    destruct (sound_run base p Hb _ _ (vinv0 base) (remembered0 base) Ht1 (sound_inv0 base) Ha) as (Hv & Hr & Hs).
    cbn [ofold] in E. destruct (step_result base a m t Hv Hb (proj1 Hx)) as [(s1 & E1 & _ & Hsp)|[E1 _]]; rewrite E1 in E; [|discriminate].
    injection E as <-. exact (Hstep p m t a s1 (IH a Ht1 Ha) Hv Hr Hs Hx Hsp).
Qed.

(** The same, with the invariant of InstrProofs. *)
Lemma run_ind2 base (P : list tmsg -> vstate -> Prop) : base_ok base -> P [] (vstate0 base) ->
  (forall p m t s s1, P p s -> iinv2 base p s -> typed (m, t) -> step_spec base s m t s1 -> P (p ++ [(m, t)]) s1) ->
  forall p s, Forall typed p -> ofold (vstep base) p (vstate0 base) = Ok s -> P p s.
Proof.
  intros Hb H0 Hstep p s Ht E. assert (H : P p s /\ iinv2 base p s); [|apply H]. revert s Ht E.
  induction p as [|[m t] p IH] using rev_ind; intros s Ht E.
  - injection E as <-. split; [exact H0|apply iinv2_0].
  - rewrite ofold_app in E. inv_bind E. apply Forall_app in Ht. destruct Ht as [Ht1 Ht2]. inversion Ht2 as [|? ? Hx _]; subst.
    destruct (IH a Ht1 Ha) as [HP Hi]. cbn [ofold] in E. inv_bind E. injection E as <-.
    destruct (step_iinv2 base p a m t a0 Hb Hi Hx Ha0) as [Hi1 Hsp]. split; [eauto|exact Hi1].
Qed.

Lemma in_on_voice o x v y : In y (on_voice o x v) -> y = x.
Proof. unfold on_voice. destruct o as [w|]; [|intros []]. destruct (Nat.eqb v w); [intros [<-|[]]; reflexivity|intros []]. Qed.
Lemma len_on_voice o x v : (length (on_voice o x v) <= 1)%nat.
Proof. unfold on_voice. destruct o as [w|]; [|cbn; lia]. destruct (Nat.eqb v w); cbn; lia. Qed.
Lemma in_opt_msg o t x : In x (opt_msg o t) -> exists m, o = Some m /\ x = (m, t).
Proof. destruct o as [m|]; [|intros []]. intros [<-|[]]. eauto. Qed.
Lemma len_opt_msg o t : (length (opt_msg o t) <= 1)%nat.
Proof. destruct o; cbn; lia. Qed.
Lemma len_prelude s c k d t voice : (length (prelude s c k d t voice) <= 4)%nat.
Proof.
  unfold prelude. rewrite app_length.
  pose proof (len_opt_msg (nth (Z.to_nat c) (v_ctrl s) None) t). pose proof (len_opt_msg (nth (Z.to_nat c) (v_prog s) None) t).
  pose proof (len_opt_msg (nth (Z.to_nat c) (v_pitch s) None) t).
  destruct (match nth voice (v_chan s) None with Some c' => Z.of_nat c' =? c | None => false end), ((c =? 9) && negb (v_perc s =? instr_of k));
    rewrite ?app_length; cbn [length]; lia.
Qed.

(** ** Every message of a voice is valid, has the time of some message, and there are few *)
Definition valid_opt (o : option message) : Prop := match o with Some m => midi_valid m | None => True end.
Definition kept (p : list tmsg) (s : vstate) : Prop :=
  Forall (fun x => midi_valid (fst x)) p ->
  (forall v x, In x (vv s v) -> midi_valid (fst x) /\ exists y, In y p /\ snd y = snd x /\
     (raw_note (fst x) = true \/ is_pc (fst x) = true -> exists d e, fst y = MidiEvent d e)) /\
  Forall valid_opt (v_ctrl s) /\ Forall valid_opt (v_prog s) /\ Forall valid_opt (v_pitch s) /\
  forall v, (length (vv s v) <= 6 * length p)%nat.

Lemma valid_nth l c : Forall valid_opt l -> valid_opt (nth c l None).
Proof.
  intros H. destruct (Nat.lt_ge_cases c (length l)) as [Hc|Hc].
  - rewrite Forall_forall in H. apply H, nth_In, Hc.
  - rewrite nth_overflow by exact Hc. exact I.
Qed.
Lemma prelude_valid s c k d t voice x : Forall valid_opt (v_ctrl s) -> Forall valid_opt (v_prog s) -> Forall valid_opt (v_pitch s) ->
  In x (prelude s c k d t voice) -> midi_valid (fst x) /\ snd x = t.
Proof.
  intros H1 H2 H3 Hin. unfold prelude in Hin. apply in_app_or in Hin. destruct Hin as [Hin|Hin].
  - destruct (match nth voice (v_chan s) None with Some c' => Z.of_nat c' =? c | None => false end); [destruct Hin|].
    apply in_app_or in Hin. destruct Hin as [Hin|Hin]; [|apply in_app_or in Hin; destruct Hin as [Hin|Hin]];
      apply in_opt_msg in Hin; destruct Hin as (m & E & ->); cbn [fst snd].
    + split; [|reflexivity]. pose proof (valid_nth _ (Z.to_nat c) H1) as H. rewrite E in H. exact H.
    + split; [|reflexivity]. pose proof (valid_nth _ (Z.to_nat c) H2) as H. rewrite E in H. exact H.
    + split; [|reflexivity]. pose proof (valid_nth _ (Z.to_nat c) H3) as H. rewrite E in H. exact H.
  - destruct (_ && _); [|destruct Hin]. destruct Hin as [<-|[]]. cbn [fst snd midi_valid]. unfold instr_of, SNARE, CYMBAL. destruct (is_snare k); lia.
Qed.

Lemma drum_key_valid c k : 0 <= k < 128 -> 0 <= drum_key c k < 128.
Proof. unfold drum_key. destruct (_ && _); lia. Qed.

Lemma kept_run base p s : base_ok base -> Forall typed p -> ofold (vstep base) p (vstate0 base) = Ok s -> kept p s.
Proof.
  intros Hb. apply (run_ind base kept Hb).
  - intros _. unfold vstate0, vv. cbn [v_voices v_ctrl v_prog v_pitch]. split; [|split; [|split; [|split]]].
    + intros v x Hin. rewrite nth_repeat in Hin. destruct Hin.
    + apply Forall_forall. intros o Ho. apply repeat_spec in Ho. subst. exact I.
    + apply Forall_forall. intros o Ho. apply repeat_spec in Ho. subst. exact I.
    + apply Forall_forall. intros o Ho. apply repeat_spec in Ho. subst. exact I.
    + intros v. rewrite nth_repeat. cbn. lia.
  - clear p s. intros p m t s s1 IH Hv Hr _ Hty (px & Hpx & Hstep) Hval.
    apply Forall_app in Hval. destruct Hval as [Hval Hm]. inversion Hm as [|? ? Hm' _]; subst. cbn [fst] in Hm'.
    destruct (IH Hval) as (H1 & H2 & H3 & H4 & H5). clear IH Hm Hval.
    assert (Hold : forall v x, In x (vv s v) -> midi_valid (fst x) /\ exists y, In y (p ++ [(m, t)]) /\ snd y = snd x /\
      (raw_note (fst x) = true \/ is_pc (fst x) = true -> exists d e, fst y = MidiEvent d e)).
    { intros v x Hx. destruct (H1 v x Hx) as (Ha & y & Hy & Hy2). split; [exact Ha|]. exists y. split; [apply in_or_app; left; exact Hy|exact Hy2]. }
    assert (Hgo : (forall v x, In x (px v) -> midi_valid (fst x) /\ snd x = t /\ (raw_note (fst x) = true \/ is_pc (fst x) = true -> exists d e, m = MidiEvent d e)) ->
       (forall v, (length (px v) <= 6)%nat) ->
       (forall v x, In x (vv s1 v) -> midi_valid (fst x) /\ exists y, In y (p ++ [(m, t)]) /\ snd y = snd x /\
          (raw_note (fst x) = true \/ is_pc (fst x) = true -> exists d e, fst y = MidiEvent d e)) /\
       forall v, (length (vv s1 v) <= 6 * length (p ++ [(m, t)]))%nat).
    { intros Hp Hl. split.
      - intros v x Hx. rewrite Hpx in Hx. apply in_app_or in Hx. destruct Hx as [Hx|Hx]; [apply (Hold v x Hx)|].
        destruct (Hp v x Hx) as (Hp1 & Hp2 & Hp3). split; [exact Hp1|]. exists (m, t). split; [apply in_or_app; right; left; reflexivity|].
        split; [symmetry; exact Hp2|exact Hp3].
      - intros v. rewrite Hpx, !app_length. cbn [length]. specialize (H5 v). specialize (Hl v). lia. }
    assert (Hone : forall b : bool, forall x, In x (if b then [(m, t)] else []) -> midi_valid (fst x) /\ snd x = t /\ (raw_note (fst x) = true \/ is_pc (fst x) = true -> exists d e, m = MidiEvent d e)).
    { intros b x Hx. destruct b; [|destruct Hx]. destruct Hx as [<-|[]]. cbn [fst snd]. split; [exact Hm'|]. split; [reflexivity|].
      intros Hor. destruct m as [| |? ? ?|]; cbn in Hor; try (destruct Hor; discriminate). eauto. }
    assert (Hlen1 : forall b : bool, (length (if b then [(m, t)] else []) <= 6)%nat) by (intros []; cbn; lia).
    destruct m as [? [] ?|d [c k vel|c k vel|c k vel|c ctl dat|c pr|c pr|c dat|c]|? ? ?|].
    all: try (destruct Hstep as (_ & _ & _ & Hp & E1 & E2 & E3); rewrite E1, E2, E3;
      destruct Hgo as [Hg1 Hg2];
      [intros v x Hx; destruct (Hp v) as [Hp'|Hp']; rewrite Hp' in Hx; [apply (Hone false x Hx)|apply (Hone true x Hx)]
      |intros v; destruct (Hp v) as [Hp'|Hp']; rewrite Hp'; [apply (Hlen1 false)|apply (Hlen1 true)]
      |split; [exact Hg1|]; split; [exact H2|]; split; [exact H3|]; split; [exact H4|exact Hg2]]; fail).
    + destruct Hstep as (Hp & _ & E1 & E2 & E3 & _). rewrite E1, E2, E3. destruct Hgo as [Hg1 Hg2].
      * intros v x Hx. rewrite Hp in Hx. apply in_on_voice in Hx. subst x. cbn [fst snd midi_valid] in *. split; [apply drum_key_valid; exact Hm'|]. split; [reflexivity|eauto].
      * intros v. rewrite Hp. pose proof (len_on_voice (lookup (v_active s) c k) (MidiEvent d (NoteOff c (drum_key c k) vel), t) v). lia.
      * split; [exact Hg1|]; split; [exact H2|]; split; [exact H3|]; split; [exact H4|exact Hg2].
    + destruct Hstep as (E1 & E3 & Hstep). rewrite E1, E3. cbn [midi_valid] in Hm'.
      assert (Hoff : forall v x, In x (on_voice (lookup (v_active s) c k) (MidiEvent d (NoteOff c k vel), t) v) ->
         midi_valid (fst x) /\ snd x = t /\ (raw_note (fst x) = true \/ is_pc (fst x) = true -> exists d' e, MidiEvent d (NoteOn c k vel) = MidiEvent d' e)).
      { intros v x Hx. apply in_on_voice in Hx. subst x. cbn [fst snd midi_valid]. split; [lia|]. split; [reflexivity|eauto]. }
      destruct (0 <? vel).
      * destruct Hstep as (voice & _ & Hp & _ & _ & Hpe). destruct Hgo as [Hg1 Hg2].
        -- intros v x Hx. rewrite Hp in Hx. apply in_app_or in Hx. destruct Hx as [Hx|Hx]; [exact (Hoff v x Hx)|].
           destruct (Nat.eqb v voice); [|destruct Hx]. apply in_app_or in Hx. destruct Hx as [Hx|[<-|[]]].
           ++ destruct (prelude_valid _ _ _ _ _ _ _ H2 H3 H4 Hx) as [Hx1 Hx2]. split; [exact Hx1|]. split; [exact Hx2|eauto].
           ++ cbn [fst snd midi_valid]. pose proof (drum_key_valid c k). split; [lia|]. split; [reflexivity|eauto].
        -- intros v. rewrite Hp, app_length. pose proof (len_on_voice (lookup (v_active s) c k) (MidiEvent d (NoteOff c k vel), t) v).
           pose proof (len_prelude s c k d t voice). destruct (Nat.eqb v voice); [rewrite app_length|]; cbn [length]; lia.
        -- split; [exact Hg1|]; split; [exact H2|]; split; [|split; [exact H4|exact Hg2]].
           destruct (_ && _).
           ++ destruct Hpe as [_ Hset]. eapply forall_set_nth; [exact H3| |exact Hset]. cbn. unfold instr_of, SNARE, CYMBAL. destruct (is_snare k); lia.
           ++ destruct Hpe as [_ ->]. exact H3.
      * destruct Hstep as (Hp & _ & E2 & _). rewrite E2. destruct Hgo as [Hg1 Hg2].
        -- intros v x Hx. rewrite Hp in Hx. exact (Hoff v x Hx).
        -- intros v. rewrite Hp. pose proof (len_on_voice (lookup (v_active s) c k) (MidiEvent d (NoteOff c k vel), t) v). lia.
        -- split; [exact Hg1|]; split; [exact H2|]; split; [exact H3|]; split; [exact H4|exact Hg2].
    + destruct Hstep as (_ & _ & _ & Hp & E2 & E3 & E1). rewrite E2, E3.
      destruct Hgo as [Hg1 Hg2]; [intros v x Hx; rewrite Hp in Hx; apply (Hone _ x Hx)|intros v; rewrite Hp; apply Hlen1|].
      split; [exact Hg1|]; split; [|split; [exact H3|]; split; [exact H4|exact Hg2]].
      destruct E1 as [->|E1]; [exact H2|]. eapply forall_set_nth; [exact H2| |exact E1]. exact Hm'.
    + destruct Hstep as (_ & _ & _ & Hp & E2 & E1 & E3). rewrite E1, E3.
      destruct Hgo as [Hg1 Hg2]; [intros v x Hx; rewrite Hp in Hx; apply (Hone _ x Hx)|intros v; rewrite Hp; apply Hlen1|].
      split; [exact Hg1|]; split; [exact H2|]; split; [|split; [exact H4|exact Hg2]]. eapply forall_set_nth; [exact H3| |exact E2]. exact Hm'.
    + destruct Hstep as (_ & _ & _ & Hp & E2 & E1 & E3). rewrite E1, E2.
      destruct Hgo as [Hg1 Hg2]; [intros v x Hx; rewrite Hp in Hx; apply (Hone _ x Hx)|intros v; rewrite Hp; apply Hlen1|].
      split; [exact Hg1|]; split; [exact H2|]; split; [exact H3|]; split; [|exact Hg2]. eapply forall_set_nth; [exact H4| |exact E3]. exact Hm'.
Qed.

(** ** No program change during a note, and each note-off carries the key of its note-on *)
Fixpoint calm (o : option Z) (l : list tmsg) : Prop :=
  match l with
  | [] => True
  | (MidiEvent _ (NoteOn _ k _), _) :: r => calm (Some k) r
  | (MidiEvent _ (NoteOff _ k _), _) :: r => o = Some k /\ calm None r
  | (MidiEvent _ (ProgramChange _ _), _) :: r => o = None /\ calm o r
  | _ :: r => calm o r
  end.
Fixpoint open_after (o : option Z) (l : list tmsg) : option Z :=
  match l with
  | [] => o
  | (MidiEvent _ (NoteOn _ k _), _) :: r => open_after (Some k) r
  | (MidiEvent _ (NoteOff _ k _), _) :: r => open_after None r
  | _ :: r => open_after o r
  end.
Lemma calm_app l1 : forall o l2, calm o (l1 ++ l2) <-> calm o l1 /\ calm (open_after o l1) l2.
Proof.
  induction l1 as [|[m t] l1 IH]; intros o l2; [cbn; tauto|]. cbn [app].
  destruct m as [|? []| |]; cbn [calm open_after]; rewrite IH; tauto.
Qed.
Lemma open_app l1 : forall o l2, open_after o (l1 ++ l2) = open_after (open_after o l1) l2.
Proof. induction l1 as [|[m t] l1 IH]; intros o l2; [reflexivity|]. cbn [app]. destruct m as [|? []| |]; cbn [open_after]; apply IH. Qed.
Lemma quiet_calm l : quiet l -> calm None l /\ open_after None l = None.
Proof.
  induction 1 as [|[m t] l H _ IH]; [cbn; auto|]. cbn [fst] in H.
  destruct m as [|? []| |]; cbn [calm open_after]; try discriminate; try exact IH. destruct IH; auto.
Qed.
Lemma still_open m t o : raw_note m = false -> open_after o [(m, t)] = o.
Proof. destruct m as [|? []| |]; intros H; try reflexivity; discriminate. Qed.
Lemma still_calm m t o : raw_note m = false -> is_pc m = false -> calm o [(m, t)].
Proof. destruct m as [|? []| |]; intros H H'; cbn; try exact I; discriminate. Qed.

Definition keyed (L : Z -> Z -> option nat) (f : nat -> list tmsg) : Prop :=
  (forall v, calm None (f v)) /\
  (forall c k v, 0 <= c < 16 -> L c k = Some v -> open_after None (f v) = Some (drum_key c k)) /\
  (forall v, ~ used L v -> open_after None (f v) = None).
Lemma keyed_ext L L' f f' : (forall c k, 0 <= c < 16 -> L c k = L' c k) -> (forall v, f v = f' v) -> keyed L f -> keyed L' f'.
Proof.
  intros HL Hf (H1 & H2 & H3). split; [|split].
  - intros v. rewrite <- Hf. apply H1.
  - intros c k v Hc Hl. rewrite <- Hf. apply H2; [exact Hc|]. rewrite HL by exact Hc. exact Hl.
  - intros v Hv. rewrite <- Hf. apply H3. rewrite (used_ext L L') by exact HL. exact Hv.
Qed.
Lemma keyed_off L f c k d kk vel t : inj L -> 0 <= c < 16 -> keyed L f -> (L c k <> None -> kk = drum_key c k) ->
  keyed (without L c k) (fun v => f v ++ on_voice (L c k) (MidiEvent d (NoteOff c kk vel), t) v).
Proof.
  intros Hi Hc (H1 & H2 & H3) Hk. split; [|split].
  - intros v. apply calm_app. split; [apply H1|]. destruct (L c k) as [w|] eqn:El; [|exact I]. cbn [on_voice].
    destruct (Nat.eqb_spec v w) as [He|He]; [subst w|exact I]. rewrite (H2 c k v Hc El). cbn [calm].
    rewrite Hk by discriminate. auto.
  - intros c' k' v Hc' Hl. unfold without in Hl. destruct ((c' =? c) && (k' =? k)) eqn:E; [discriminate|].
    rewrite open_app, (H2 c' k' v Hc' Hl). destruct (L c k) as [w|] eqn:El; [|reflexivity]. cbn [on_voice].
    destruct (Nat.eqb_spec v w) as [He|He]; [subst w|reflexivity]. destruct (Hi c k c' k' v Hc Hc' El Hl). subst.
    rewrite !Z.eqb_refl in E. discriminate.
  - intros v Hv. rewrite open_app. destruct (L c k) as [w|] eqn:El; cbn [on_voice].
    + destruct (Nat.eqb_spec v w) as [He|He]; [reflexivity|]. cbn [open_after]. apply H3. intros (c' & k' & Hc' & Hl).
      apply Hv. exists c', k'. split; [exact Hc'|]. unfold without. destruct ((c' =? c) && (k' =? k)) eqn:E; [|exact Hl].
      assert (c' = c) by lia. assert (k' = k) by lia. subst. congruence.
    + cbn [open_after]. apply H3. intros (c' & k' & Hc' & Hl). apply Hv. exists c', k'. split; [exact Hc'|]. unfold without.
      destruct ((c' =? c) && (k' =? k)) eqn:E; [|exact Hl]. assert (c' = c) by lia. assert (k' = k) by lia. subst. congruence.
Qed.
Lemma keyed_on L f c k d vel t voice pre : 0 <= c < 16 -> keyed L f -> L c k = None -> ~ used L voice -> quiet pre ->
  keyed (with_ L c k voice) (fun v => f v ++ (if Nat.eqb v voice then pre ++ [(MidiEvent d (NoteOn c (drum_key c k) vel), t)] else [])).
Proof.
  intros Hc (H1 & H2 & H3) Hn Hu Hq. destruct (quiet_calm pre Hq) as [Hq1 Hq2]. split; [|split].
  - intros v. apply calm_app. split; [apply H1|]. destruct (Nat.eqb_spec v voice) as [He|He]; [subst v|exact I].
    rewrite (H3 _ Hu). apply calm_app. split; [exact Hq1|]. exact I.
  - intros c' k' v Hc' Hl. unfold with_ in Hl. rewrite open_app. destruct ((c' =? c) && (k' =? k)) eqn:E.
    + injection Hl as <-. rewrite Nat.eqb_refl, (H3 _ Hu), open_app. cbn [open_after].
      assert (c' = c) by lia. assert (k' = k) by lia. subst. reflexivity.
    + destruct (Nat.eqb_spec v voice) as [He|He]; [|apply (H2 _ _ _ Hc' Hl)]. subst v. exfalso. apply Hu. exists c', k'. auto.
  - intros v Hv. rewrite open_app. destruct (Nat.eqb_spec v voice) as [He|He].
    + subst v. exfalso. apply Hv. exists c, k. split; [exact Hc|]. unfold with_. rewrite !Z.eqb_refl. reflexivity.
    + cbn [open_after]. apply H3. intros (c' & k' & Hc' & Hl). apply Hv. exists c', k'. split; [exact Hc'|]. unfold with_.
      destruct ((c' =? c) && (k' =? k)) eqn:E; [|exact Hl]. assert (c' = c) by lia. assert (k' = k) by lia. subst. congruence.
Qed.

(** A message for key [k] of channel [c]; a held key; no program change reaches a sounding voice. *)
Definition on_key (c k : Z) (m : message) : bool :=
  match m with
  | MidiEvent _ (NoteOn c' k' _) => (c' =? c) && (k' =? k)
  | MidiEvent _ (NoteOff c' k' _) => (c' =? c) && (k' =? k)
  | _ => false
  end.
Definition ringing (p : list tmsg) (c k : Z) : Prop :=
  exists l1 x l2, p = l1 ++ x :: l2 /\ on_key c k (fst x) = true /\ note_on (fst x) = true /\ Forall (fun z => on_key c k (fst z) = false) l2.
Definition pcs_calm (base : list nat) (p : list tmsg) : Prop :=
  forall p1 d c pr t p2 c' k', p = p1 ++ (MidiEvent d (ProgramChange c pr), t) :: p2 -> 0 <= c' < 16 -> ringing p1 c' k' ->
  c' <> c /\ nth (Z.to_nat c') base 0%nat <> nth (Z.to_nat c) base 0%nat.
Definition drums (p : list tmsg) : list tmsg := filter (for_channel 9) p.
Definition keyed_inv (base : list nat) (p : list tmsg) (s : vstate) : Prop :=
  snares_released (drums p) -> pcs_calm base p ->
  keyed (lookup (v_active s)) (vv s) /\
  (forall c k v, 0 <= c < 16 -> lookup (v_active s) c k = Some v -> ringing p c k) /\
  (forall k v, k = 38 \/ k = 40 -> lookup (v_active s) 9 k = Some v ->
     exists l1 x l2, drums p = l1 ++ x :: l2 /\ drum_on k (fst x) = true /\ Forall (fun z => drum_off k (fst z) = false) l2).

Lemma snares_prefix l1 l2 : snares_released (l1 ++ l2) -> snares_released l1.
Proof.
  intros H k a x b y c Hk -> Hx Hy. apply (H k a x b y (c ++ l2)); auto. rewrite <- app_assoc. cbn [app]. rewrite <- app_assoc. reflexivity.
Qed.
Lemma pcs_prefix base l1 l2 : pcs_calm base (l1 ++ l2) -> pcs_calm base l1.
Proof. intros H p1 d c pr t p2 c' k' ->. apply (H p1 d c pr t (p2 ++ l2)); auto. rewrite <- app_assoc. reflexivity. Qed.
Lemma ringing_snoc p x c k : ringing p c k -> on_key c k (fst x) = false -> ringing (p ++ [x]) c k.
Proof.
  intros (l1 & y & l2 & -> & H1 & H2 & H3) Hx. exists l1, y, (l2 ++ [x]). split; [rewrite <- app_assoc; reflexivity|].
  split; [exact H1|]. split; [exact H2|]. apply Forall_app. split; [exact H3|]. constructor; [exact Hx|constructor].
Qed.
Lemma drums_snoc p m t : drums (p ++ [(m, t)]) = drums p ++ (if for_channel 9 (m, t) then [(m, t)] else []).
Proof. apply filter_snoc. Qed.

Lemma keyed_run base p s : base_ok base -> Forall typed p -> ofold (vstep base) p (vstate0 base) = Ok s -> keyed_inv base p s.
Proof.
  intros Hb. apply (run_ind2 base (keyed_inv base) Hb).
  - intros _ _. split; [|split].
    + split; [|split].
      * intros v. rewrite vv0. exact I.
      * intros c k v _ H. rewrite lookup0 in H. discriminate.
      * intros v _. rewrite vv0. reflexivity.
    + intros c k v _ H. rewrite lookup0 in H. discriminate.
    + intros k v _ H. rewrite lookup0 in H. discriminate.
  - clear p s. intros p m t s s1 IH Hii Hty (px & Hpx & Hstep) Hsn Hpc. pose proof (ii_vinv _ _ _ Hii) as Hv. pose proof (ii_rem _ _ _ Hii) as Hr.
    pose proof Hsn as Hsn'. rewrite drums_snoc in Hsn. specialize (IH (snares_prefix _ _ Hsn) (pcs_prefix _ _ _ Hpc)).
    destruct IH as (Hk & Hex & Hsnare).
    assert (Hinj : inj (lookup (v_active s))) by (intros c1 k1 c2 k2 w; apply (vi_inj _ Hv)).
    assert (Hch : channel_ok m) by apply Hty.
    assert (Hmore : forall (L : Z -> Z -> option nat), (forall c k, 0 <= c < 16 -> L c k = lookup (v_active s) c k \/ L c k = None) ->
      (forall c k, 0 <= c < 16 -> on_key c k m = true -> L c k = None) ->
      (forall k, k = 38 \/ k = 40 -> drum_off k m = true -> L 9 k = None) ->
      (forall c k v, 0 <= c < 16 -> L c k = Some v -> ringing (p ++ [(m, t)]) c k) /\
      (forall k v, k = 38 \/ k = 40 -> L 9 k = Some v ->
         exists l1 x l2, drums (p ++ [(m, t)]) = l1 ++ x :: l2 /\ drum_on k (fst x) = true /\ Forall (fun z => drum_off k (fst z) = false) l2)).
    { intros L HL Hkey Hoff. split.
      - intros c k v Hc Hl. destruct (HL c k Hc) as [E|E]; [|rewrite E in Hl; discriminate]. apply ringing_snoc; [eapply Hex; [exact Hc|]; rewrite <- E; exact Hl|].
        cbn [fst]. destruct (on_key c k m) eqn:Eo; [rewrite (Hkey c k Hc Eo) in Hl; discriminate|reflexivity].
      - intros k v Hkk Hl. destruct (HL 9 k ltac:(lia)) as [E|E]; [|rewrite E in Hl; discriminate].
        rewrite E in Hl. destruct (Hsnare k v Hkk Hl) as (l1 & x & l2 & E1 & Hx & HF).
        rewrite drums_snoc, E1. exists l1, x, (l2 ++ (if for_channel 9 (m, t) then [(m, t)] else [])).
        split; [rewrite <- app_assoc; reflexivity|]. split; [exact Hx|]. apply Forall_app. split; [exact HF|].
        destruct (for_channel 9 (m, t)); [|constructor]. constructor; [|constructor]. cbn [fst].
        destruct (drum_off k m) eqn:Eo; [|reflexivity]. rewrite (Hoff k Hkk Eo) in E. congruence. }
    assert (Hsame : raw_note m = false -> v_active s1 = v_active s -> (forall v, px v = [] \/ px v = [(m, t)]) ->
      (forall d c pr v, m = MidiEvent d (ProgramChange c pr) -> px v <> [] -> hears s base c v = true) ->
      keyed (lookup (v_active s1)) (vv s1) /\
      (forall c k v, 0 <= c < 16 -> lookup (v_active s1) c k = Some v -> ringing (p ++ [(m, t)]) c k) /\
      (forall k v, k = 38 \/ k = 40 -> lookup (v_active s1) 9 k = Some v ->
         exists l1 x l2, drums (p ++ [(m, t)]) = l1 ++ x :: l2 /\ drum_on k (fst x) = true /\ Forall (fun z => drum_off k (fst z) = false) l2)).
    { intros Hraw Ea Hp Hhear. rewrite Ea. split; [|apply Hmore; [auto| |]].
      2:{ intros c k _ Ho. exfalso. destruct m as [|? []| |]; discriminate. }
      2:{ intros k _ Ho. exfalso. destruct m as [|? []| |]; discriminate. }
      destruct Hk as (K1 & K2 & K3). split; [|split].
      - intros v. rewrite Hpx. apply calm_app. split; [apply K1|]. destruct (Hp v) as [E|E]; rewrite E; [exact I|].
        destruct (is_pc m) eqn:Epc; [|apply still_calm; assumption].
        destruct m as [|d [c k vel|c k vel|c k vel|c ctl dat|c pr|c pr|c dat|c]| |]; try discriminate.
        unfold channel_ok in Hch. cbn [addressee event_channel] in Hch.
        rewrite K3; [split; [reflexivity|exact I]|].
        intros (c' & k & Hc & Hl). destruct (Hpc p d c pr t [] c' k eq_refl Hc (Hex c' k v Hc Hl)) as [Hne Hbase].
        assert (Hh : hears s base c v = true) by (apply (Hhear d c pr v eq_refl); rewrite E; discriminate).
        destruct (hears_sounding _ _ _ _ _ Hii Hch Hh) as [->|[k' Hl']].
        + destruct (ii_voice _ _ _ Hii c' k _ Hc Hl) as [[H|H] _]; [congruence|]. apply H, nth_In. destruct Hb as [Hb _]. lia.
        + destruct (Hinj c' k c k' v Hc Hch Hl Hl'). congruence.
      - intros c k v Hc Hl. rewrite Hpx, open_app, (K2 c k v Hc Hl). destruct (Hp v) as [E|E]; rewrite E; [reflexivity|apply still_open; exact Hraw].
      - intros v Hu. rewrite Hpx, open_app, (K3 v Hu). destruct (Hp v) as [E|E]; rewrite E; [reflexivity|apply still_open; exact Hraw]. }
    destruct m as [? [] ?|d [c k vel|c k vel|c k vel|c ctl dat|c pr|c pr|c dat|c]|? ? ?|].
    all: try (destruct Hstep as (Ea & _ & _ & Hp & _); apply Hsame; [reflexivity|exact Ea|exact Hp|intros ? ? ? ? [=]]; fail).
    all: try (destruct Hstep as (Ea & _ & _ & Hp & _); apply Hsame; [reflexivity|exact Ea|intros v; rewrite Hp; destruct (hears s base c v); auto|
      intros d' c' pr' v [=] Hne; subst; rewrite Hp in Hne; destruct (hears s base _ v); congruence]; fail).
    + unfold channel_ok in Hch. cbn [addressee event_channel] in Hch. destruct Hstep as (Hp & HL & _).
      assert (HLw : forall c' k', 0 <= c' < 16 -> lookup (v_active s1) c' k' = lookup (v_active s) c' k' \/ lookup (v_active s1) c' k' = None).
      { intros c' k' Hc'. rewrite HL by exact Hc'. unfold without. destruct (_ && _); auto. }
      split; [|apply Hmore; [exact HLw| |]].
      * eapply keyed_ext; [| |apply (keyed_off _ _ c k d (drum_key c k) vel t Hinj Hch Hk); auto].
        -- intros c' k' Hc'. symmetry. apply HL. exact Hc'.
        -- intros v. rewrite Hpx, Hp. reflexivity.
      * intros c' k' Hc' Ho. cbn in Ho. rewrite HL by exact Hc'. unfold without. replace ((c' =? c) && (k' =? k)) with true by lia. reflexivity.
      * intros k' _ Ho. cbn in Ho. rewrite HL by lia. unfold without. replace ((9 =? c) && (k' =? k)) with true by lia. reflexivity.
    + unfold channel_ok in Hch. cbn [addressee event_channel] in Hch. destruct Hstep as (_ & _ & Hstep).
      assert (Hkk : lookup (v_active s) c k <> None -> k = drum_key c k).
      { intros Hl. unfold drum_key. destruct ((c =? 9) && ((k =? 38) || (k =? 40))) eqn:E9; [|reflexivity]. exfalso.
        assert (c = 9) by lia. subst c. assert (Hk38 : k = 38 \/ k = 40) by lia.
        destruct (lookup (v_active s) 9 k) as [v|] eqn:El; [|congruence].
        destruct (Hsnare k v Hk38 El) as (l1 & x & l2 & E1 & Hx & HF).
        pose proof (fun l1 x l2 y l3 => Hsn' k l1 x l2 y l3 Hk38) as H2. rewrite drums_snoc, E1 in H2. cbn [for_channel fst addressee event_channel] in H2.
        destruct (H2 l1 x l2 (MidiEvent d (NoteOn 9 k vel), t) []) as (z & Hz & Hzo).
        - rewrite <- app_assoc. reflexivity.
        - exact Hx.
        - cbn. rewrite Z.eqb_refl. reflexivity.
        - rewrite Forall_forall in HF. rewrite (HF z Hz) in Hzo. discriminate. }
      pose proof (keyed_off _ _ c k d k vel t Hinj Hch Hk Hkk) as Hoff.
      destruct (0 <? vel) eqn:Evel.
      * destruct Hstep as (voice & (_ & Hnu & _) & Hp & HL & _).
        assert (Hwn : without (lookup (v_active s)) c k c k = None) by (unfold without; rewrite !Z.eqb_refl; reflexivity).
        pose proof (keyed_on _ _ c k d vel t voice _ Hch Hoff Hwn Hnu (prelude_quiet s c k d t voice Hr)) as Hon.
        split; [|split].
        -- eapply keyed_ext; [| |exact Hon].
           ++ intros c' k' Hc'. symmetry. apply HL. exact Hc'.
           ++ intros v. rewrite Hpx, Hp, app_assoc. reflexivity.
        -- intros c' k' v Hc' Hl. rewrite HL in Hl by exact Hc'. unfold with_ in Hl. destruct ((c' =? c) && (k' =? k)) eqn:E.
           ++ exists p, (MidiEvent d (NoteOn c k vel), t), []. split; [reflexivity|]. cbn [fst on_key note_on]. split; [lia|].
              split; [destruct (vel =? 0) eqn:Ev0; [lia|reflexivity]|constructor].
           ++ unfold without in Hl. rewrite E in Hl. apply ringing_snoc; [eapply Hex; [exact Hc'|exact Hl]|]. cbn [fst on_key]. lia.
        -- intros k' v Hk' Hl. rewrite HL in Hl by lia. unfold with_ in Hl. rewrite drums_snoc. destruct ((9 =? c) && (k' =? k)) eqn:E.
           ++ assert (9 = c) by lia. assert (k' = k) by lia. subst. exists (drums p), (MidiEvent d (NoteOn 9 k vel), t), [].
              split; [reflexivity|]. split; [cbn; rewrite Z.eqb_refl; reflexivity|constructor].
           ++ unfold without in Hl. rewrite E in Hl. destruct (Hsnare k' v Hk' Hl) as (l1 & x & l2 & E1 & Hx & HF). rewrite E1.
              exists l1, x, (l2 ++ (if for_channel 9 (MidiEvent d (NoteOn c k vel), t) then [(MidiEvent d (NoteOn c k vel), t)] else [])).
              split; [rewrite <- app_assoc; reflexivity|]. split; [exact Hx|]. apply Forall_app. split; [exact HF|].
              destruct (for_channel 9 _); [|constructor]. constructor; [reflexivity|constructor].
      * destruct Hstep as (Hp & HL & _).
        assert (HLw : forall c' k', 0 <= c' < 16 -> lookup (v_active s1) c' k' = lookup (v_active s) c' k' \/ lookup (v_active s1) c' k' = None).
        { intros c' k' Hc'. rewrite HL by exact Hc'. unfold without. destruct (_ && _); auto. }
        split; [|apply Hmore; [exact HLw| |]].
        -- eapply keyed_ext; [| |exact Hoff].
           ++ intros c' k' Hc'. symmetry. apply HL. exact Hc'.
           ++ intros v. rewrite Hpx, Hp. reflexivity.
        -- intros c' k' Hc' Ho. cbn in Ho. rewrite HL by exact Hc'. unfold without. replace ((c' =? c) && (k' =? k)) with true by lia. reflexivity.
        -- intros k' _ Ho. discriminate.
Qed.

(** ** From these facts to well-behaved voices *)
Definition spaced (tpb mt : Z) (N : list note) : Prop :=
  Forall (step_long tpb) N \/ (24 * (mt + 1) + tpb < 2 ^ 23 /\ well_apart tpb N).
Lemma spaced_lasts tpb mt N fin on off k c vel : spaced tpb mt N -> In (mk_note c k on (Some off) vel) N -> off <= mt ->
  (forall e, fin = Some e -> e <= on /\ exists n, In n N /\ nt_off n = Some e) -> long_enough tpb fin on off.
Proof.
  intros [HF|[Hm HA]] Hin Ho Hf.
  - left. rewrite Forall_forall in HF. exact (HF _ Hin off eq_refl).
  - right. destruct (HA _ off Hin eq_refl) as (H1 & H2). cbn [nt_on] in *. split; [exact H1|]. split; [lia|].
    destruct fin as [e|]; [|exact I]. destruct (Hf e eq_refl) as (Hle & n & Hn & En). exact (H2 n e Hn En Hle).
Qed.
Lemma near_in tpb mt a t : 0 <= a <= t -> t <= mt -> 24 * (mt + 1) <= 32510 * tpb -> mt + tpb < 2 ^ 24 -> near tpb a t.
Proof. unfold near. lia. Qed.

Lemma voice_from_parts tpb mt : 24 * (mt + 1) <= 32510 * tpb -> mt + tpb < 2 ^ 24 -> 0 <= mt ->
  forall N, spaced tpb mt N -> forall l prev fin open c,
  StronglySorted time_le l -> Forall (fun x => midi_valid (fst x) /\ 0 <= snd x < 2 ^ 31 /\
    (raw_note (fst x) = true \/ is_pc (fst x) = true -> snd x <= mt)) l ->
  Forall (fun x => prev <= snd x) l -> 0 <= prev <= mt -> 1 <= tpb ->
  alternates (option_map (fun ok => (c, snd ok)) open) l -> calm (option_map snd open) l ->
  incl (voice_notes l) N ->
  (forall e, fin = Some e -> e <= prev /\ exists n, In n N /\ nt_off n = Some e) ->
  (forall on k, open = Some (on, k) -> 0 <= on <= prev /\ (forall e, fin = Some e -> e <= on) /\
     exists vel, In (mk_note c k on (voice_end l) vel) N) ->
  voice_from tpb mt prev fin open l.
Proof.
  intros Hm1 Hm2 Hm0 N HN. induction l as [|[m t] l IH]; intros prev fin open c Hs HF Hp Hpr Htp Ha Hc Hn Hfin Ho.
  - cbn [voice_from]. split; [apply (near_in tpb mt); lia|lia].
  - inversion Hs as [|? ? Hs' Hle]; subst. inversion HF as [|? ? (Hval & Ht & Htm) HF']; subst. inversion Hp as [|? ? Hpt Hp']; subst.
    cbn [fst snd] in *.
    assert (Hlt : Forall (fun x => t <= snd x) l) by (eapply Forall_impl; [|exact Hle]; intros x Hx; exact Hx).
    cbn [voice_from]. split; [exact Hval|]. split; [exact Ht|].
    destruct m as [|d [c' k vel|c' k vel|c' k vel|c' ctl dat|c' pr|c' pr|c' dat|c']| |]; cbn [alternates calm voice_notes voice_end] in *;
      try (apply (IH prev fin open c); auto; fail).
    + assert (Htm' : t <= mt) by (apply Htm; left; reflexivity). destruct Ha as [(k' & Ea & _) Ha]. destruct Hc as [Hc1 Hc].
      destruct open as [[on k0]|]; [|discriminate]. cbn in Hc1. injection Hc1 as ->. destruct (Ho on k eq_refl) as (Ho1 & Ho2 & vel0 & Ho3).
      split; [reflexivity|]. split; [|split; [apply (near_in tpb mt); lia|]].
      { apply (spaced_lasts tpb mt N fin on t k c vel0 HN Ho3 Htm'). intros e E. split; [exact (Ho2 e E)|apply (Hfin e E)]. }
      apply (IH t (Some t) None c); auto; try lia; [|intros ? ? [=]]. intros e [= <-]. split; [lia|]. eexists. split; [exact Ho3|reflexivity].
    + assert (Htm' : t <= mt) by (apply Htm; left; reflexivity). destruct Ha as (Ea & _ & Ha).
      destruct open as [[on k0]|]; [discriminate|]. apply incl_cons_inv in Hn. destruct Hn as [Hn1 Hn2].
      split; [reflexivity|]. split; [apply (near_in tpb mt); lia|]. apply (IH t fin (Some (t, k)) c'); auto; try lia.
      * intros e E. destruct (Hfin e E) as (H1 & H2). split; [lia|exact H2].
      * intros on k0 [= <- <-]. split; [lia|]. split; [intros e E; destruct (Hfin e E); lia|]. exists vel. exact Hn1.
    + assert (Htm' : t <= mt) by (apply Htm; right; reflexivity). destruct Hc as [Hc1 Hc]. destruct open as [[on k0]|]; [discriminate|].
      split; [reflexivity|]. split; [apply (near_in tpb mt); lia|]. apply (IH t fin None c); auto; try lia; [|intros ? ? [=]].
      intros e E. destruct (Hfin e E) as (H1 & H2). split; [lia|exact H2].
Qed.

Definition same_note (v : vnote) (n : note) : Prop :=
  n_on v = nt_on n /\ Some (n_off v) = nt_off n /\ n_key v = nt_key n /\ n_vel v = nt_vel n.
Lemma notes_agree l : forall o c,
  match o with
  | None => alternates None l -> calm None l -> Forall2 same_note (notes_from None l) (filter ended (voice_notes l))
  | Some (on, k, vel) => alternates (Some (c, k)) l -> calm (Some k) l ->
      Forall2 same_note (notes_from (Some (on, vel)) l) (filter ended (mk_note c k on (voice_end l) vel :: voice_notes l))
  end.
Proof.
  induction l as [|[m t] l IH]; intros o c.
  - destruct o as [[[on k] vel]|]; intros _ _; constructor.
  - assert (Hskip : match o with None => True | Some _ => True end) by (destruct o; exact I). clear Hskip.
    destruct o as [[[on k0] vel0]|]; intros Ha Hc.
    + destruct m as [|d [c' k vel|c' k vel|c' k vel|c' ctl dat|c' pr|c' pr|c' dat|c']| |]; cbn [alternates calm notes_from voice_end voice_notes] in *;
        try (exact (IH (Some (on, k0, vel0)) c Ha Hc)).
      * destruct Hc as [Hc1 Hc]. injection Hc1 as ->. destruct Ha as [_ Ha]. cbn [filter ended nt_off]. constructor; [repeat split|].
        apply (IH None c); assumption.
      * destruct Ha as [Ha _]. discriminate.
      * destruct Hc as [Hc1 _]. discriminate.
    + destruct m as [|d [c' k vel|c' k vel|c' k vel|c' ctl dat|c' pr|c' pr|c' dat|c']| |]; cbn [alternates calm notes_from voice_end voice_notes] in *;
        try (exact (IH None c Ha Hc)).
      * destruct Ha as [(k' & Ha & _) _]. discriminate.
      * destruct Ha as (_ & _ & Ha). exact (IH (Some (t, k, vel)) c' Ha Hc).
      * destruct Hc as [_ Hc]. exact (IH None c Ha Hc).
Qed.

(** ** The time span of a file *)
Lemma interval_max b i ch : forall s s', ofold (interval_step b i) ch s = Ok s' ->
  is_max s <= is_max s' /\ (forall d e t, In (MidiEvent d e, t) ch -> t <= is_max s') /\
  (is_max s' = is_max s \/ exists x, In x ch /\ is_max s' = snd x).
Proof.
  induction ch as [|[m t] ch IH]; intros s s' H; [injection H as <-; split; [lia|]; split; [intros ? ? ? []|auto]|].
  cbn [ofold] in H. inv_bind H.
  assert (H1 : (is_max a = is_max s \/ is_max a = t) /\ is_max s <= is_max a /\ forall d e, m = MidiEvent d e -> t <= is_max a).
  { destruct m as [|d e| |]; cbn [interval_step] in Ha.
    - injection Ha as <-. split; [auto|]. split; [lia|]. intros ? ? [=].
    - destruct e; try inv_bind Ha; injection Ha as <-; cbn [is_max]; (destruct (is_max s <? t) eqn:El); (split; [auto|]); (split; [lia|]); intros; lia.
    - injection Ha as <-. split; [auto|]. split; [lia|]. intros ? ? [=].
    - injection Ha as <-. split; [auto|]. split; [lia|]. intros ? ? [=]. }
  destruct H1 as (H1 & H2 & H3). destruct (IH _ _ H) as (H4 & H5 & H6). split; [lia|]. split.
  - intros d e t' [Hin|Hin]; [injection Hin as -> ->; specialize (H3 d e eq_refl); lia|eauto].
  - destruct H6 as [H6|(x & Hx & H6)]; [|right; exists x; split; [right; exact Hx|exact H6]].
    destruct H1 as [H1|H1]; [left; lia|]. right. exists (m, t). split; [left; reflexivity|]. cbn. lia.
Qed.
Lemma intervals_max b chs : forall i mx r, all_intervals b chs i mx = Ok r ->
  mx <= snd r /\ (forall d e t ch, In ch chs -> In (MidiEvent d e, t) ch -> t <= snd r) /\
  (snd r = mx \/ exists x ch, In ch chs /\ In x ch /\ snd r = snd x).
Proof.
  induction chs as [|ch chs IH]; intros i mx r H; cbn [all_intervals] in H.
  - injection H as <-. cbn [snd]. split; [lia|]. split; [intros ? ? ? ? []|auto].
  - inv_bind H. inv_bind H. injection H as <-. cbn [snd]. destruct (interval_max _ _ _ _ _ Ha) as (H1 & H2 & H3). cbn [is_max] in H1, H3.
    destruct (IH _ _ _ Ha0) as (H4 & H5 & H6). split; [lia|]. split.
    + intros d e t c' [<-|Hin] Hx; [specialize (H2 d e t Hx); lia|eauto].
    + destruct H6 as [H6|(x & c' & Hc' & Hx & H6)]; [|right; exists x, c'; split; [right; exact Hc'|auto]].
      destruct H3 as [H3|(x & Hx & H3)]; [left; lia|]. right. exists x, ch. split; [left; reflexivity|]. split; [exact Hx|lia].
Qed.

(** ** The number of messages *)
Lemma indicator_sum z n : forall a, (list_sum (map (fun c => if (z =? Z.of_nat c)%Z then 1 else 0) (seq a n)) <= if (z <? Z.of_nat a)%Z then 0 else 1)%nat.
Proof.
  induction n as [|n IH]; intros a; cbn [seq map list_sum fold_right]; [destruct (z <? Z.of_nat a); lia|].
  unfold list_sum in IH. specialize (IH (S a)). destruct (Z.eqb_spec z (Z.of_nat a)), (Z.ltb_spec z (Z.of_nat a)), (Z.ltb_spec z (Z.of_nat (S a))); lia.
Qed.
Lemma list_sum_plus {A} (f g : A -> nat) l : list_sum (map (fun x => f x + g x)%nat l) = (list_sum (map f l) + list_sum (map g l))%nat.
Proof. unfold list_sum. induction l as [|x l IH]; cbn [map fold_right]; lia. Qed.
Lemma channel_sizes (l : list tmsg) : (list_sum (map (fun c => length (filter (for_channel c) l)) (seq 0 16)) <= length l)%nat.
Proof.
  induction l as [|x l IH]; [cbn; lia|].
  rewrite (map_ext _ (fun c => ((if for_channel c x then 1 else 0) + length (filter (for_channel c) l))%nat)).
  2:{ intros c. cbn [filter]. destruct (for_channel c x); reflexivity. }
  rewrite list_sum_plus. cbn [length].
  assert (H : (list_sum (map (fun c => if for_channel c x then 1 else 0)%nat (seq 0 16)) <= 1)%nat); [|lia].
  unfold for_channel. destruct (addressee (fst x)) as [z|]; [|cbn; lia]. pose proof (indicator_sum z 16 0) as H. destruct (z <? Z.of_nat 0); lia.
Qed.
Lemma timed_length l : forall now, length (timed now l) = length l.
Proof. induction l as [|m l IH]; intros now; cbn [timed length]; [reflexivity|]. rewrite IH. reflexivity. Qed.
Lemma file_size_timed ts : length (flat_map (timed 0) ts) = file_size ts.
Proof. induction ts as [|t ts IH]; [reflexivity|]. cbn [flat_map]. rewrite app_length, timed_length, IH. reflexivity. Qed.
Lemma concat_length {A} (ls : list (list A)) : length (concat ls) = list_sum (map (@length A) ls).
Proof. unfold list_sum. induction ls as [|l ls IH]; [reflexivity|]. cbn [concat map fold_right]. rewrite app_length, IH. reflexivity. Qed.
Lemma map_nth_seq {A B} (f : A -> B) l d : map (fun c => f (nth c l d)) (seq 0 (length l)) = map f l.
Proof.
  apply nth_ext with (d := f d) (d' := f d); [rewrite !map_length, seq_length; reflexivity|].
  intros n Hn. rewrite map_length, seq_length in Hn.
  rewrite (map_nth f). change (f d) with ((fun c => f d) (length l)).
  rewrite nth_indep with (d' := (fun c => f (nth c l d)) 0%nat) by (rewrite map_length, seq_length; exact Hn).
  rewrite (map_nth (fun c => f (nth c l d))), seq_nth by exact Hn. reflexivity.
Qed.
Lemma merged_size ts chs m : length chs = 16%nat -> (forall c, stable_sort_of (file_order ts c) (nth c chs [])) ->
  interleave chs m -> (length m <= file_size ts)%nat.
Proof.
  intros HL Hs Hm. rewrite (Permutation_length (interleave_perm _ _ Hm)), concat_length.
  rewrite <- (map_nth_seq (@length tmsg) chs []), HL.
  rewrite (map_ext _ (fun c => length (filter (for_channel c) (flat_map (timed 0) ts)))).
  2:{ intros c. destruct (Hs c) as [Hp _]. symmetry. exact (Permutation_length Hp). }
  rewrite channel_sizes, file_size_timed. lia.
Qed.

(** ** The voices of a renderable file *)
Lemma in_timed l : forall now m t, In (m, t) (timed now l) -> In m l.
Proof.
  induction l as [|m0 l IH]; intros now m t H; [destruct H|]. cbn [timed] in H. destruct H as [H|H]; [injection H as -> _; left; reflexivity|].
  right. eapply IH; exact H.
Qed.
Lemma timed_valid ts x : Forall (Forall midi_valid) ts -> In x (flat_map (timed 0) ts) -> midi_valid (fst x).
Proof.
  intros HF Hx. apply in_flat_map in Hx. destruct Hx as (l & Hl & Hx). destruct x as [m t]. apply in_timed in Hx.
  rewrite Forall_forall in HF. specialize (HF l Hl). rewrite Forall_forall in HF. exact (HF m Hx).
Qed.
Lemma callbacks_ticks cbs : forall s s', ofold on_callback cbs s = Ok s' ->
  r_tpb s' = fold_left (fun tpb c => match c with CHeader _ _ d => d | _ => tpb end) cbs (r_tpb s).
Proof.
  induction cbs as [|c cbs IH]; intros s s' H; [injection H as <-; reflexivity|]. cbn [ofold] in H. inv_bind H.
  rewrite (IH _ _ H). cbn [fold_left]. f_equal. destruct c; cbn [on_callback] in Ha.
  - destruct (format =? 1); [|discriminate]. injection Ha as <-. reflexivity.
  - inv_bind Ha. injection Ha as <-. reflexivity.
  - inv_bind Ha. injection Ha as <-. reflexivity.
  - inv_bind Ha. injection Ha as <-. reflexivity.
  - injection Ha as <-. reflexivity.
Qed.
Lemma filter_flat_map {A B} (f : A -> list B) g l : filter g (flat_map f l) = flat_map (fun x => filter g (f x)) l.
Proof. induction l as [|x l IH]; [reflexivity|]. cbn [flat_map]. rewrite filter_app, IH. reflexivity. Qed.
Lemma forall2_flat_map {A B C} (R : B -> C -> Prop) (f : A -> list B) (g : A -> list C) l :
  (forall x, In x l -> Forall2 R (f x) (g x)) -> Forall2 R (flat_map f l) (flat_map g l).
Proof.
  induction l as [|x l IH]; intros H; [constructor|]. cbn [flat_map]. apply Forall2_app; [apply H; left; reflexivity|].
  apply IH. intros y Hy. apply H. right. exact Hy.
Qed.
Lemma forall2_in_l {A B} (R : A -> B -> Prop) l1 l2 x : Forall2 R l1 l2 -> In x l1 -> exists y, In y l2 /\ R x y.
Proof. induction 1 as [|a b' l l' H _ IH]; intros Hin; [destruct Hin|]. destruct Hin as [<-|Hin]; [exists b'; split; [left; reflexivity|exact H]|].
  destruct (IH Hin) as (y & Hy & HR). exists y. split; [right; exact Hy|exact HR]. Qed.
Lemma filter_perm {A} (f : A -> bool) l l' : Permutation l l' -> Permutation (filter f l) (filter f l').
Proof.
  induction 1 as [|x l l' _ IH|x y l|l1 l2 l3 _ IH1 _ IH2]; cbn [filter].
  - constructor.
  - destruct (f x); [constructor|]; exact IH.
  - destruct (f x), (f y); try reflexivity. constructor.
  - etransitivity; eauto.
Qed.

Lemma sorted_tail {A} (R : A -> A -> Prop) l1 l2 : StronglySorted R (l1 ++ l2) -> StronglySorted R l2.
Proof. induction l1 as [|x l1 IH]; intros H; [exact H|]. inversion H; auto. Qed.

(** The parts of a reading. *)
Record reading (ts : list (list message)) (voices : list (list tmsg)) (chs : list (list tmsg)) (base : list nat) (m : list tmsg) (s : vstate) : Prop := mk_reading {
  rd_chs : channels_ok chs;
  rd_base : base_ok base;
  rd_sorts : forall c, stable_sort_of (file_order ts c) (nth c chs []);
  rd_merge : interleave chs m;
  rd_sorted : StronglySorted not_after m;
  rd_typed : Forall typed m;
  rd_run : ofold (vstep base) m (vstate0 base) = Ok s;
  rd_voices : v_voices s = voices;
  rd_snares : snares_released (drums m);
  rd_calm : pcs_calm base m;
  rd_together : forall c c', (c < 16)%nat -> (c' < 16)%nat -> c <> c' -> together (nth c chs []) (nth c' chs []) ->
    nth c base 0%nat <> nth c' base 0%nat
}.
Lemma file_reading b cbs order h : Forall callback_typed cbs -> (forall k, permutes (order k)) ->
  midi_read b cbs true order = Ok h -> renderable (beat_ticks cbs) (tracks_of cbs) ->
  exists chs base m s, reading (tracks_of cbs) (h_voices h) chs base m s /\
    channels_to_voices chs base order = Ok (h_voices h) /\
    exists mx ivs, all_intervals b chs 0 0 = Ok (ivs, mx) /\ h_max_time h = mx /\ h_ticks_per_beat h = beat_ticks cbs.
Proof.
  intros Hty Ho H Hrf.
  destruct (midi_read_inv _ _ _ _ _ H Hty) as (r & chs & ivs & mx & base & Hr & _ & Hc & Hok & Hiv & Hfb & Hb & Hv & Htpb & Hmx).
  destruct (read_ok_tracks _ _ _ _ _ H) as (_ & _ & tpb' & Hr'). rewrite Hr in Hr'. injection Hr' as ->. cbn [r_tracks r_tpb] in *.
  pose proof (callbacks_ticks _ _ _ Hr) as Eb. cbn [r_tpb] in Eb. change (tpb' = beat_ticks cbs) in Eb. subst tpb'.
  set (ts := tracks_of cbs) in *. set (tpb := beat_ticks cbs) in *.
  destruct (merge_ok b ts (rf_ok _ _ Hrf)) as (chs' & Hc' & HL & Hs). rewrite Hc in Hc'. injection Hc' as <-.
  pose proof Hv as Hcv.
  destruct (channels_merge chs Hok) as (m & Hm & Hsm & Htm & _ & Hrun).
  rewrite Hrun in Hv by exact Ho. inv_bind Hv. injection Hv as Hv.
  assert (Hfile : forall ch x, In ch chs -> In x ch -> In x (flat_map (timed 0) ts)).
  { intros ch x Hch Hx. apply In_nth with (d := []) in Hch. destruct Hch as (c & _ & <-). destruct (Hs c) as [Hp _].
    apply (Permutation_in x (Permutation_sym Hp)) in Hx. apply filter_In in Hx. apply Hx. }
  assert (Hmem : forall x, In x m -> exists ch, In ch chs /\ In x ch).
  { intros x Hx. apply (Permutation_in x (interleave_perm _ _ (ordered_interleave _ _ Hm))) in Hx. apply in_concat in Hx.
    destruct Hx as (ch & Hch & Hx). exists ch. auto. }
  assert (Hmf : forall x, In x m -> In x (flat_map (timed 0) ts)) by (intros x Hx; destruct (Hmem x Hx) as (ch & Hch & Hx'); eauto).
  assert (Htogether : forall c c', (c < 16)%nat -> (c' < 16)%nat -> c <> c' -> together (nth c chs []) (nth c' chs []) ->
    nth c base 0%nat <> nth c' base 0%nat).
  { intros c c' Hc0 Hc1 Hne (B1 & B2 & u & U0 & U1 & U2 & U3 & U4) Heq. destruct Hb as [HbL HbF].
    apply (base_voices_sound b ts chs ivs mx base c c' (nth c chs []) (nth c' chs [])
      (nth c base 0%nat) u (tracks_typed _ Hty) Hc Hiv Hfb).
    + congruence.
    + apply nth_error_nth'. lia.
    + apply nth_error_nth'. lia.
    + right. split; [exact B1|exact B2].
    + apply nth_error_nth'. lia.
    + rewrite Heq. apply nth_error_nth'. lia.
    + exact U0.
    + exact U1.
    + exact U2.
    + split; [exact U3|exact U4]. }
  assert (Hsn : snares_released (drums m)).
  { apply (rf_snares _ _ Hrf). unfold drums. rewrite (channel_of_merge chs m 9 Hok (ordered_interleave _ _ Hm)) by lia. apply Hs. }
  assert (Hpf : pcs_calm base m).
  { intros p1 d c pr t p2 c' k' E Hc' (l1 & x & l2 & -> & Hk1 & Hk2 & Hk3).
    set (y := (MidiEvent d (ProgramChange c pr), t)) in *.
    assert (Hyin : In y m) by (rewrite E; apply in_or_app; right; left; reflexivity).
    assert (Hcy : 0 <= c < 16). { rewrite Forall_forall in Htm. destruct (Htm y Hyin) as (Hcy & _). exact Hcy. }
    pose proof (channel_of_merge chs m (Z.to_nat c') Hok (ordered_interleave _ _ Hm) ltac:(lia)) as Ech.
    destruct (rf_programs _ _ Hrf y (Z.to_nat c) (Z.to_nat c') (nth (Z.to_nat c) chs []) (nth (Z.to_nat c') chs [])) as [Hne Htog].
    - exact (Hmf y Hyin).
    - reflexivity.
    - cbn. lia.
    - apply Hs.
    - apply Hs.
    - lia.
    - rewrite <- Ech, E, <- app_assoc. cbn [app]. rewrite filter_app. cbn [filter].
      assert (Hx9 : for_channel (Z.to_nat c') x = true).
      { unfold for_channel. destruct (fst x) as [|? []| |]; cbn in *; try discriminate; lia. }
      rewrite Hx9. exists (filter (for_channel (Z.to_nat c')) l1), (fst x), (snd x), (filter (for_channel (Z.to_nat c')) (l2 ++ y :: p2)).
      split; [destruct x; reflexivity|]. split; [exact Hk2|].
      rewrite E, <- app_assoc in Hsm. cbn [app] in Hsm. apply sorted_tail in Hsm. inversion Hsm as [|? ? Hsm1 Hsm2]; subst.
      rewrite Forall_forall in Hsm2. split.
      + assert (Hna : not_after x y) by (apply Hsm2, in_or_app; right; left; reflexivity).
        unfold not_after, rank in Hna. rewrite Hk2 in Hna. unfold y in Hna. cbn [fst snd note_on note_off] in Hna. unfold y. cbn [snd].
        destruct (note_off (fst x)) eqn:Eo; [|lia]. destruct (fst x) as [|d' []| |]; cbn in Hk2, Eo; try discriminate. rewrite Eo in Hk2. discriminate.
      + intros z Hz Hzk. apply filter_In in Hz. destruct Hz as [Hz Hzc]. apply in_app_or in Hz.
        assert (Hzon : on_key c' k' (fst z) = true).
        { unfold for_channel in Hzc. destruct (fst x) as [|? []| |]; cbn in *; try discriminate;
          destruct (fst z) as [|? []| |]; cbn in *; try discriminate; injection Hzk as ->; lia. }
        destruct Hz as [Hz|[<-|Hz]].
        * rewrite Forall_forall in Hk3. rewrite (Hk3 z Hz) in Hzon. discriminate.
        * discriminate.
        * apply sorted_tail in Hsm1. inversion Hsm1 as [|? ? _ Hsm3]; subst. rewrite Forall_forall in Hsm3. specialize (Hsm3 z Hz).
          unfold not_after, rank, y in Hsm3. cbn [fst snd note_on note_off] in Hsm3. unfold y. cbn [snd].
          destruct (note_off (fst z)) eqn:Eo; [lia|]. destruct (note_on (fst z)) eqn:En; [destruct Hsm3; [left; lia|right; split; [lia|reflexivity]]|].
          destruct (fst z) as [|? []| |]; cbn in Hzon, En, Eo; try discriminate. rewrite Eo in En. discriminate.
    - split; [lia|]. apply not_eq_sym. apply Htogether; [lia|lia|lia|exact Htog]. }
  exists chs, base, m, a. split; [|split; [exact Hcv|exists mx, ivs; split; [exact Hiv|split; [exact Hmx|exact Eb]]]].
  constructor; try assumption. apply ordered_interleave; exact Hm.
Qed.
Lemma file_voices_calm b cbs order h : Forall callback_typed cbs -> (forall k, permutes (order k)) ->
  midi_read b cbs true order = Ok h -> renderable (beat_ticks cbs) (tracks_of cbs) ->
  h_ticks_per_beat h = beat_ticks cbs /\ length (h_voices h) = 8%nat /\
  voices_ok (h_ticks_per_beat h) (h_max_time h) (6 * file_size (tracks_of cbs)) (h_voices h) /\
  Forall (fun v => alternates None v /\ StronglySorted time_le v /\ calm None v) (h_voices h) /\
  exists notes, file_notes (tracks_of cbs) notes /\
    Permutation (flat_map (fun v => filter ended (voice_notes v)) (h_voices h)) (filter ended (map drum notes)).
Proof.
  intros Hty Ho H Hrf.
  destruct (file_reading b cbs order h Hty Ho H Hrf) as (chs & base & m & a & [Hok Hb Hs Hm Hsm Htm Ha Hv Hsn Hpf _] & Hcv & mx & ivs & Hiv & Hmx & Htpb).
  set (ts := tracks_of cbs) in *. set (tpb := beat_ticks cbs) in *. assert (HL : length chs = 16%nat) by apply Hok.
  destruct (distribution _ _ _ _ Hok Hb Ho Hcv) as (Hv8 & Halt & Hperm).
  pose proof (distribution_sorted _ _ _ _ Hok Hb Ho Hcv) as Hsort.
  assert (Hfn : file_notes ts (flat_map channel_notes chs)) by (exists chs; auto).
  assert (Hfile : forall ch x, In ch chs -> In x ch -> In x (flat_map (timed 0) ts)).
  { intros ch x Hch Hx. apply In_nth with (d := []) in Hch. destruct Hch as (c & _ & <-). destruct (Hs c) as [Hp _].
    apply (Permutation_in x (Permutation_sym Hp)) in Hx. apply filter_In in Hx. apply Hx. }
  assert (Hmem : forall x, In x m -> exists ch, In ch chs /\ In x ch).
  { intros x Hx. apply (Permutation_in x (interleave_perm _ _ Hm)) in Hx. apply in_concat in Hx.
    destruct Hx as (ch & Hch & Hx). exists ch. auto. }
  assert (Hmf : forall x, In x m -> In x (flat_map (timed 0) ts)) by (intros x Hx; destruct (Hmem x Hx) as (ch & Hch & Hx'); eauto).
  destruct (intervals_max _ _ _ _ _ Hiv) as (_ & Hmax & Hmx'). cbn [snd] in Hmax, Hmx'.
  pose proof (rf_beat _ _ Hrf) as Hbeat.
  assert (Hmt : 24 * (mx + 1) <= 32510 * tpb /\ mx + tpb < 2 ^ 24 /\ 0 <= mx).
  { destruct Hmx' as [->|(x & ch & Hch & Hx & ->)]; [lia|]. destruct (rf_length _ _ Hrf x (Hfile ch x Hch Hx)).
    assert (0 <= snd x); [|lia]. destruct Hok as (_ & Hok & _). rewrite Forall_forall in Hok. specialize (Hok ch Hch).
    rewrite Forall_forall in Hok. apply (Hok x Hx). }
  assert (Hkept : kept m a) by (eapply kept_run; eauto).
  assert (Hval : Forall (fun x => midi_valid (fst x)) m).
  { apply Forall_forall. intros x Hx. apply (timed_valid ts); [apply (rf_valid _ _ Hrf)|auto]. }
  destruct (Hkept Hval) as (Hmsgs & _ & _ & _ & Hlen). clear Hkept.
  assert (Hkeyed : keyed_inv base m a) by (eapply keyed_run; eauto).
  destruct (Hkeyed Hsn Hpf) as ((Hcalm & _) & _). clear Hkeyed.
  assert (Hnote : forall v n, In v (h_voices h) -> In n (voice_notes v) -> 24 <= nt_key n <= 95 /\ In n (map drum (flat_map channel_notes chs))).
  { intros v n Hin Hn. assert (Hn' : In n (map drum (flat_map channel_notes chs))).
    { eapply Permutation_in; [exact Hperm|]. apply in_flat_map. exists v. auto. }
    split; [|exact Hn']. apply in_map_iff in Hn'. destruct Hn' as (n0 & <- & Hn0). pose proof (rf_notes _ _ Hrf _ Hfn) as HF.
    rewrite Forall_forall in HF. exact (HF n0 Hn0). }
  assert (HN : spaced tpb mx (map drum (flat_map channel_notes chs))).
  { destruct (rf_lengths _ _ Hrf _ Hfn) as [HF|[Hbr HA]].
    - left. apply Forall_forall. intros n Hn. apply in_map_iff in Hn. destruct Hn as (n0 & <- & Hn0). rewrite Forall_forall in HF. exact (HF n0 Hn0).
    - destruct (Z_lt_ge_dec (24 * (mx + 1) + tpb) (2 ^ 23)) as [Hs23|Hs23].
      + right. split; [exact Hs23|]. intros n off Hn E. apply in_map_iff in Hn. destruct Hn as (n0 & <- & Hn0).
        destruct (HA n0 off Hn0 E) as (H1 & H2). split; [exact H1|]. intros n' e Hn' E' Hle. apply in_map_iff in Hn'. destruct Hn' as (n1 & <- & Hn1).
        exact (H2 n1 e Hn1 E' Hle).
      + exfalso. destruct Hmx' as [->|(x & ch & Hch & Hx & ->)]; [lia|]. specialize (Hbr x (Hfile ch x Hch Hx)). lia. }
  assert (Hvoice : forall v, In v (h_voices h) -> alternates None v /\ StronglySorted time_le v /\ calm None v /\
     (length v <= 6 * file_size ts)%nat /\ Forall (fun x => midi_valid (fst x) /\ 0 <= snd x < 2 ^ 31 /\
       (raw_note (fst x) = true \/ is_pc (fst x) = true -> snd x <= mx)) v).
  { intros v Hin. rewrite Forall_forall in Halt, Hsort. split; [auto|]. split; [auto|].
    rewrite <- Hv in Hin. apply In_nth with (d := []) in Hin. destruct Hin as (j & _ & <-).
    change (nth j (v_voices a) []) with (vv a j). split; [apply Hcalm|]. split.
    - specialize (Hlen j). pose proof (merged_size ts chs m HL Hs Hm). lia.
    - apply Forall_forall. intros x Hx. destruct (Hmsgs j x Hx) as (Hx1 & y & Hy & Hy2 & Hy3). split; [exact Hx1|].
      rewrite Forall_forall in Htm. destruct (Htm y Hy) as (_ & Hyt & _). destruct (rf_length _ _ Hrf y (Hmf y Hy)) as [_ Hyl].
      split; [lia|]. intros Hor. destruct (Hy3 Hor) as (d & e & Ey). destruct (Hmem y Hy) as (ch & Hch & Hych).
      destruct y as [ym yt]. cbn [fst snd] in *. subst ym. rewrite <- Hy2. eapply Hmax; eauto. }
  assert (Hsame : forall v, In v (h_voices h) -> Forall2 same_note (notes_of v) (filter ended (voice_notes v))).
  { intros v Hin. destruct (Hvoice v Hin) as (H1 & _ & H3 & _). exact (notes_agree v None 0 H1 H3). }
  split; [exact Htpb|]. split; [exact Hv8|]. rewrite Htpb, Hmx. split; [|split].
  - apply Forall_forall. intros v Hin. destruct (Hvoice v Hin) as (H1 & H2 & H3 & H4 & H5). split; [|split; [exact H4|]].
    + apply (voice_from_parts tpb mx) with (c := 0) (N := map drum (flat_map channel_notes chs)); try assumption; try lia.
      * apply Forall_forall. intros x Hx. rewrite Forall_forall in H5. destruct (H5 x Hx) as (_ & H6 & _). lia.
      * intros n Hn. apply (Hnote v n Hin Hn).
      * intros ? [=].
      * intros ? ? [=].
    + intros x Hx. destruct (forall2_in_l _ _ _ _ (Hsame v Hin) Hx) as (n & Hn & _ & _ & -> & _). apply filter_In in Hn.
      apply (Hnote v n Hin). apply Hn.
  - apply Forall_forall. intros v Hin. destruct (Hvoice v Hin) as (H1 & H2 & H3 & _). auto.
  - exists (flat_map channel_notes chs). split; [exact Hfn|]. rewrite <- filter_flat_map. apply filter_perm. exact Hperm.
Qed.
Lemma file_voices b cbs order h : Forall callback_typed cbs -> (forall k, permutes (order k)) ->
  midi_read b cbs true order = Ok h -> renderable (beat_ticks cbs) (tracks_of cbs) ->
  h_ticks_per_beat h = beat_ticks cbs /\ length (h_voices h) = 8%nat /\
  voices_ok (h_ticks_per_beat h) (h_max_time h) (6 * file_size (tracks_of cbs)) (h_voices h) /\
  exists notes ns, file_notes (tracks_of cbs) notes /\ Permutation ns (filter ended (map drum notes)) /\
    Forall2 same_note (flat_map notes_of (h_voices h)) ns.
Proof.
  intros Hty Ho H Hrf. destruct (file_voices_calm _ _ _ _ Hty Ho H Hrf) as (H1 & H2 & H3 & H4 & notes & H5 & H6).
  split; [exact H1|]. split; [exact H2|]. split; [exact H3|]. exists notes. eexists. split; [exact H5|]. split; [exact H6|].
  clear - H4. induction H4 as [|v l (A1 & _ & A3) _ IH]; [constructor|]. cbn [flat_map]. apply Forall2_app; [|exact IH].
  exact (notes_agree v None 0 A1 A3).
Qed.

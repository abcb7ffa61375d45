(** VolumeProofs.v: the volume in force when a note starts (C65). *)
From Coq Require Import ZArith List Bool Lia ZifyBool ZifyNat Permutation Sorted.
From Verif Require Import Base ProofLib F32 Messages Command Track SeqTree Song Paths Manifest Midi Json Cli SpecMidi SpecNotes SpecVoices SpecVoice SpecNspc
  SpecLoop SpecRom SpecAram SpecSong SpecPlayback SpecFile SpecControl SpecHeard SpecVolume MergeProofs LoopProofs VoiceProofs DistributeProofs ReadProofs ReadProofs2 InstrProofs
  TotalProofs AramMore SongProofs PlaybackProofs FileProofs FileExamples HeardProofs SettingProofs FileSettings.
Ltac Zify.zify_post_hook ::= Z.div_mod_to_equations.
Open Scope Z_scope.
Open Scope list_scope.

(** ** The last volume of a list *)
Definition ov (a b : option Z) : option Z := match a with Some q => Some q | None => b end.
Lemma last_volume_app l1 l2 : last_volume (l1 ++ l2) = ov (last_volume l2) (last_volume l1).
Proof.
  induction l1 as [|x l1 IH]; cbn [app last_volume]; [destruct (last_volume l2); reflexivity|].
  rewrite IH. destruct (last_volume l2); reflexivity.
Qed.
Lemma last_volume_none l : Forall (fun x => is_volume x = false) l -> last_volume l = None.
Proof.
  induction 1 as [|x l H _ IH]; [reflexivity|]. cbn [last_volume]. rewrite IH. unfold is_volume in H. destruct (volume_of (fst x)); [discriminate|reflexivity].
Qed.
Lemma last_volume_none_iff l : last_volume l = None <-> Forall (fun x => is_volume x = false) l.
Proof.
  split; [|apply last_volume_none]. induction l as [|x l IH]; [constructor|]. cbn [last_volume]. intros H.
  destruct (last_volume l); [discriminate|]. constructor; [unfold is_volume; now rewrite H|now apply IH].
Qed.
Definition no_vol (l : list (option message)) : Prop := Forall (fun o => match o with Some m => volume_of m = None | None => True end) l.
Lemma no_vol_opt l c t : no_vol l -> last_volume (opt_msg (nth c l None) t) = None.
Proof.
  intros H. destruct (Nat.lt_ge_cases c (length l)) as [Hc|Hc].
  - unfold no_vol in H. rewrite Forall_forall in H. specialize (H (nth c l None) (nth_In _ _ Hc)). destruct (nth c l None); [|reflexivity]. cbn. exact H.
  - rewrite nth_overflow by exact Hc. reflexivity.
Qed.
Definition vol (s : vstate) (c : nat) : option Z := last_volume (opt_msg (nth c (v_ctrl s) None) 0).
Lemma last_volume_opt o t : last_volume (opt_msg o t) = last_volume (opt_msg o 0).
Proof. destruct o; reflexivity. Qed.
Definition same_channel (s : vstate) (v : nat) (c : Z) : bool :=
  match nth v (v_chan s) None with Some c' => Z.of_nat c' =? c | None => false end.
Lemma prelude_volume s c k d t v : no_vol (v_prog s) -> no_vol (v_pitch s) ->
  last_volume (prelude s c k d t v) = if same_channel s v c then None else vol s (Z.to_nat c).
Proof.
  intros H1 H2. unfold prelude, same_channel. rewrite last_volume_app.
  assert (E : last_volume (if (c =? 9) && negb (v_perc s =? instr_of k) then [(MidiEvent d (ProgramChange c (instr_of k)), t)] else []) = None)
    by (destruct ((c =? 9) && negb (v_perc s =? instr_of k)); reflexivity).
  rewrite E. cbn [ov]. destruct (match nth v (v_chan s) None with Some c' => Z.of_nat c' =? c | None => false end); [reflexivity|].
  rewrite !last_volume_app, (no_vol_opt _ _ _ H1), (no_vol_opt _ _ _ H2), last_volume_opt. reflexivity.
Qed.
Lemma on_voice_volume o d c k vel t v : last_volume (on_voice o (MidiEvent d (NoteOff c k vel), t) v) = None.
Proof. unfold on_voice. destruct o; [|reflexivity]. destruct (Nat.eqb v n); reflexivity. Qed.

(** ** The remembered volumes *)
Definition volinv (p : list tmsg) (s : vstate) : Prop :=
  no_vol (v_prog s) /\ no_vol (v_pitch s) /\ forall c, (c < 16)%nat -> vol s c = last_volume (filter (for_channel c) p).
Lemma control_exact base s d c ctl dat t s1 : vstep base s (MidiEvent d (ControlChange c ctl dat), t) = Ok s1 ->
  if ctl =? 7 then set_nth (v_ctrl s) (Z.to_nat c) (Some (MidiEvent d (ControlChange c ctl dat))) = Some (v_ctrl s1) else v_ctrl s1 = v_ctrl s.
Proof.
  unfold vstep, voice_step. cbn [fst]. intros E. inv_bind E. inv_bind E. injection E as <-. cbn [v_ctrl].
  destruct (ctl =? 7); [|now injection Ha0]. destruct (set_nth (v_ctrl s) (Z.to_nat c) _) eqn:Es; [|discriminate]. cbn [or_panic] in Ha0. congruence.
Qed.
Lemma vol_keep p s x s1 : volinv p s -> is_volume x = false -> v_ctrl s1 = v_ctrl s ->
  forall c, (c < 16)%nat -> vol s1 c = last_volume (filter (for_channel c) (p ++ [x])).
Proof.
  intros (_ & _ & H) Hx E c Hc. unfold vol. rewrite E. fold (vol s c). rewrite (H c Hc), filter_snoc, last_volume_app.
  rewrite (last_volume_none (if for_channel c x then [x] else [])); [reflexivity|]. destruct (for_channel c x); constructor; [exact Hx|constructor].
Qed.
Lemma step_volinv base p s m t s1 : typed (m, t) -> vstep base s (m, t) = Ok s1 -> step_spec base s m t s1 -> volinv p s -> volinv (p ++ [(m, t)]) s1.
Proof.
  intros Hty E (px & _ & Hstep) Hi. pose proof Hi as (H1 & H2 & H3). pose proof (vol_keep p s (m, t) s1 Hi) as Hk.
  destruct m as [? [] ?|d [c k vel|c k vel|c k vel|c ctl dat|c pr|c pr|c dat|c]|? ? ?|].
  all: try (destruct Hstep as (_ & _ & _ & _ & E1 & E2 & E3); split; [rewrite E1; exact H1|split; [rewrite E3; exact H2|apply Hk; [reflexivity|exact E2]]]; fail).
  - destruct Hstep as (_ & _ & E1 & E2 & E3 & _). split; [rewrite E2; exact H1|split; [rewrite E3; exact H2|apply Hk; [reflexivity|exact E1]]].
  - destruct Hstep as (E1 & E2 & Hstep). split; [|split; [rewrite E2; exact H2|apply Hk; [reflexivity|exact E1]]].
    destruct (0 <? vel).
    + destruct Hstep as (voice & _ & _ & _ & _ & Hpe). destruct ((c =? 9) && negb (v_perc s =? instr_of k)).
      * destruct Hpe as [_ Hset]. eapply forall_set_nth; [exact H1| |exact Hset]. reflexivity.
      * destruct Hpe as [_ ->]. exact H1.
    + destruct Hstep as (_ & _ & -> & _). exact H1.
  - destruct Hstep as (_ & _ & _ & _ & E1 & E2 & _). split; [rewrite E1; exact H1|split; [rewrite E2; exact H2|]].
    pose proof (control_exact _ _ _ _ _ _ _ _ E) as Ex. destruct (ctl =? 7) eqn:E7.
    + intros c' Hc'. unfold vol. rewrite (set_nth_nth _ _ _ _ None Ex), filter_snoc, last_volume_app.
      destruct Hty as (Hc & _). unfold channel_ok in Hc. cbn [fst addressee event_channel] in Hc.
      unfold for_channel at 1. cbn [fst addressee event_channel]. destruct (Nat.eqb_spec c' (Z.to_nat c)) as [He|He].
      * subst c'. replace (c =? Z.of_nat (Z.to_nat c)) with true by lia. cbn [opt_msg last_volume volume_of fst]. rewrite E7. reflexivity.
      * replace (c =? Z.of_nat c') with false by lia. cbn [last_volume ov]. apply H3. exact Hc'.
    + apply Hk; [unfold is_volume; cbn [fst volume_of]; now rewrite E7|exact Ex].
  - destruct Hstep as (_ & _ & _ & _ & E1 & E2 & E3). split; [eapply forall_set_nth; [exact H1| |exact E1]; reflexivity|split; [rewrite E3; exact H2|apply Hk; [reflexivity|exact E2]]].
  - destruct Hstep as (_ & _ & _ & _ & E1 & E2 & E3). split; [rewrite E1; exact H1|split; [eapply forall_set_nth; [exact H2| |exact E3]; reflexivity|apply Hk; [reflexivity|exact E2]]].
Qed.
Lemma volinv0 base : volinv [] (vstate0 base).
Proof.
  split; [unfold vstate0; cbn [v_prog]; repeat constructor|]. split; [unfold vstate0; cbn [v_pitch]; repeat constructor|].
  intros c _. unfold vol, vstate0. cbn [v_ctrl]. rewrite nth_repeat. reflexivity.
Qed.
(** Everything known after processing [p]. *)
Definition known (base : list nat) (p : list tmsg) (s : vstate) : Prop := iinv2 base p s /\ volinv p s /\ sound_inv s.
Lemma known0 base : known base [] (vstate0 base).
Proof. split; [apply iinv2_0|split; [apply volinv0|apply sound_inv0]]. Qed.
Lemma step_known base p s m t s1 : base_ok base -> known base p s -> typed (m, t) -> vstep base s (m, t) = Ok s1 ->
  known base (p ++ [(m, t)]) s1 /\ step_spec base s m t s1.
Proof.
  intros Hb (H1 & H2 & H3) Hty E. destruct (step_iinv2 base p s m t s1 Hb H1 Hty E) as [Hi1 Hst]. split; [|exact Hst]. split; [exact Hi1|]. split.
  - eapply step_volinv; eassumption.
  - eapply sound_step; [apply H1|apply Hty|exact Hst|apply H1|exact H3].
Qed.

(** ** One step *)
Lemma volume_control d c ctl dat t : last_volume [(MidiEvent d (ControlChange c ctl dat), t)] = if ctl =? 7 then Some dat else None.
Proof. reflexivity. Qed.
Lemma step_volume base s m t s1 v : step_spec base s m t s1 ->
  match m with
  | MidiEvent d (NoteOn c k vel) => 0 < vel -> False
  | _ => True
  end ->
  last_volume (vv s1 v) =
  match m with
  | MidiEvent _ (ControlChange c ctl dat) => if (ctl =? 7) && hears s base c v then Some dat else last_volume (vv s v)
  | _ => last_volume (vv s v)
  end.
Proof.
  intros (px & Hpx & Hstep) Hm. rewrite Hpx, last_volume_app.
  assert (Hone : is_volume (m, t) = false -> (px v = [] \/ px v = [(m, t)]) -> ov (last_volume (px v)) (last_volume (vv s v)) = last_volume (vv s v)).
  { intros He [E|E]; rewrite E; [reflexivity|]. rewrite last_volume_none; [reflexivity|constructor; [exact He|constructor]]. }
  destruct m as [? [] ?|d [c k vel|c k vel|c k vel|c ctl dat|c pr|c pr|c dat|c]|? ? ?|].
  all: try (apply Hone; [reflexivity|]; destruct Hstep as (_ & _ & _ & Hp & _); apply Hp; fail).
  all: try (apply Hone; [reflexivity|]; destruct Hstep as (_ & _ & _ & Hp & _); rewrite Hp; destruct (hears _ _ _ _); auto; fail).
  - destruct Hstep as (Hp & _). rewrite Hp, on_voice_volume. reflexivity.
  - destruct Hstep as (_ & _ & Hstep). destruct (0 <? vel) eqn:Ev; [exfalso; apply Hm; lia|]. destruct Hstep as (Hp & _). rewrite Hp, on_voice_volume. reflexivity.
  - destruct Hstep as (_ & _ & _ & Hp & _). rewrite Hp. destruct (hears s base c v).
    + rewrite volume_control, andb_true_r. destruct (ctl =? 7); reflexivity.
    + rewrite andb_false_r. reflexivity.
Qed.
Lemma step_volume_on base s d c k vel t s1 : step_spec base s (MidiEvent d (NoteOn c k vel)) t s1 -> 0 < vel ->
  exists voice, (voice = nth (Z.to_nat c) base 0%nat \/ ~ In voice base) /\
    (forall v, last_volume (vv s1 v) = if Nat.eqb v voice then ov (last_volume (prelude s c k d t voice)) (last_volume (vv s v)) else last_volume (vv s v)) /\
    (forall v, nth v (v_chan s1) None = if Nat.eqb v voice then Some (Z.to_nat c) else nth v (v_chan s) None).
Proof.
  intros (px & Hpx & _ & _ & Hstep) Hv. destruct (0 <? vel) eqn:E; [|lia].
  destruct Hstep as (voice & (_ & _ & Hvb & _) & Hp & _ & Hch & Hpe). exists voice. split; [exact Hvb|]. split; [|exact Hch].
  intros v. rewrite Hpx, Hp, !last_volume_app, on_voice_volume. destruct (Nat.eqb_spec v voice) as [He|He].
  - subst v. rewrite last_volume_app. cbn [last_volume volume_of fst ov]. destruct (last_volume (prelude s c k d t voice)); reflexivity.
  - reflexivity.
Qed.
Lemma step_ons base s m t s1 : remembered s -> step_spec base s m t s1 -> forall v Q, each_on Q (vv s v) ->
    (forall d c k vel o, m = MidiEvent d (NoteOn c k vel) -> 0 < vel -> last_volume o = None ->
       (v = nth (Z.to_nat c) base 0%nat \/ ~ In v base) ->
       Q (vv s v ++ o ++ prelude s c k d t v) (MidiEvent d (NoteOn c (drum_key c k) vel), t)) ->
    each_on Q (vv s1 v).
Proof.
  intros Hrem (px & Hpx & Hstep) v Q HQ Hon.
  assert (Hq : Forall (fun x => is_on (fst x) = false) (px v) -> each_on Q (vv s1 v)).
  { intros HF. rewrite Hpx. apply each_on_quiet; assumption. }
  assert (Hone : is_on m = false -> (px v = [] \/ px v = [(m, t)]) -> each_on Q (vv s1 v)).
  { intros He [E|E]; apply Hq; rewrite E; [constructor|constructor; [exact He|constructor]]. }
  destruct m as [? [] ?|d [c k vel|c k vel|c k vel|c ctl dat|c pr|c pr|c dat|c]|? ? ?|].
  all: try (apply Hone; [reflexivity|]; destruct Hstep as (_ & _ & _ & Hp & _); apply Hp; fail).
  all: try (apply Hone; [reflexivity|]; destruct Hstep as (_ & _ & _ & Hp & _); rewrite Hp; destruct (hears _ _ _ _); auto; fail).
  - destruct Hstep as (Hp & _). apply Hq. rewrite Hp. apply on_voice_not_on.
  - destruct Hstep as (_ & _ & Hstep). destruct (0 <? vel) eqn:Evel.
    + destruct Hstep as (voice & (_ & _ & Hvb & _) & Hp & _ & Hch & _). destruct (Nat.eqb_spec v voice) as [He|He].
      * subst voice. specialize (Hp v). rewrite Nat.eqb_refl in Hp. rewrite app_assoc in Hp.
        rewrite Hpx, Hp. apply each_on_snoc; [exact HQ| |].
        -- apply Forall_app. split; [apply on_voice_not_on|]. apply quiet_not_on, prelude_quiet, Hrem.
        -- intros _. eapply Hon; [reflexivity|lia|apply on_voice_volume|exact Hvb].
      * apply Hq. rewrite Hp. destruct (Nat.eqb_spec v voice); [congruence|]. rewrite app_nil_r. apply on_voice_not_on.
    + destruct Hstep as (Hp & _). apply Hq. rewrite Hp. apply on_voice_not_on.
Qed.

Lemma vol_step base p s m t s1 c : known base p s -> known base (p ++ [(m, t)]) s1 -> (c < 16)%nat ->
  vol s1 c = if for_channel c (m, t) then ov (volume_of m) (vol s c) else vol s c.
Proof.
  intros (_ & (_ & _ & H) & _) (_ & (_ & _ & H1) & _) Hc. rewrite (H1 c Hc), (H c Hc), filter_snoc, last_volume_app.
  destruct (for_channel c (m, t)); [|reflexivity]. cbn [last_volume fst]. reflexivity.
Qed.
Lemma volume_at_split l1 l2 m t : StronglySorted not_after (l1 ++ (m, t) :: l2) -> note_on m = true ->
  volume_at (l1 ++ (m, t) :: l2) t = last_volume l1.
Proof.
  intros Hs Hm. unfold volume_at. rewrite filter_app. cbn [filter snd]. rewrite Z.leb_refl, last_volume_app.
  assert (H1 : filter (fun x : tmsg => snd x <=? t) l1 = l1).
  { clear Hm. induction l1 as [|x l1 IH]; [reflexivity|]. cbn [app] in Hs. inversion Hs as [|? ? Hs' HF]; subst. cbn [filter].
    rewrite Forall_forall in HF. assert (Hx : not_after x (m, t)) by (apply HF, in_or_app; right; left; reflexivity).
    assert (snd x <= t) by (destruct Hx as [Hx|[Hx _]]; cbn in Hx; lia). replace (snd x <=? t) with true by lia. f_equal. auto. }
  change (message * Z)%type with tmsg in *. rewrite H1. apply sorted_tail in Hs. inversion Hs as [|? ? _ HF]; subst.
  match goal with |- ov (last_volume ?L) _ = _ => rewrite (last_volume_none L) end; [reflexivity|].
  constructor; [destruct m as [|? []| |]; try reflexivity; discriminate|].
  apply Forall_forall. intros x Hx. apply filter_In in Hx. destruct Hx as [Hx Ht]. rewrite Forall_forall in HF. specialize (HF x Hx).
  destruct HF as [HF|[He Hr]]; cbn [fst snd] in *; [lia|]. unfold rank in Hr.
  assert (Hoff : note_off m = false) by (destruct m as [|? []| |]; try reflexivity; try discriminate; cbn in *; lia).
  rewrite Hoff, Hm in Hr. destruct x as [mx tx]. cbn [fst] in *. destruct mx as [|? []| |]; try reflexivity. cbn in Hr. lia.
Qed.
Lemma volume_now base p s d c k vel t q m : known base p s -> m = p ++ (MidiEvent d (NoteOn c k vel), t) :: q ->
  StronglySorted not_after m -> 0 <= c < 16 -> 0 < vel ->
  volume_at (filter (for_channel (Z.to_nat c)) m) t = vol s (Z.to_nat c).
Proof.
  intros (_ & (_ & _ & H) & _) -> Hs Hc Hv. rewrite H by lia.
  apply (sorted_filter _ (for_channel (Z.to_nat c))) in Hs. rewrite filter_app in *. cbn [filter] in *.
  replace (for_channel (Z.to_nat c) (MidiEvent d (NoteOn c k vel), t)) with true in *
    by (unfold for_channel; cbn [fst addressee event_channel]; lia).
  apply volume_at_split; [exact Hs|]. cbn. lia.
Qed.

(** ** Notes on the channel's base voice *)
Definition vown (m : list tmsg) (c : Z) (l1 : list tmsg) (x : tmsg) : Prop :=
  forall d k vel t, x = (MidiEvent d (NoteOn c k vel), t) -> last_volume l1 = volume_at (filter (for_channel (Z.to_nat c)) m) t.
Definition lone (base : list nat) (m : list tmsg) (c : Z) : Prop :=
  forall i, 0 <= i < 16 -> i <> c -> nth (Z.to_nat i) base 0%nat = nth (Z.to_nat c) base 0%nat ->
    last_volume (filter (for_channel (Z.to_nat i)) m) = None.
Lemma lone_vol base p s m q i : known base p s -> m = p ++ q -> 0 <= i < 16 ->
  last_volume (filter (for_channel (Z.to_nat i)) m) = None -> vol s (Z.to_nat i) = None.
Proof.
  intros (_ & (_ & _ & H) & _) -> Hi HN. rewrite H by lia. rewrite filter_app, last_volume_app in HN.
  destruct (last_volume (filter (for_channel (Z.to_nat i)) q)); [discriminate|exact HN].
Qed.
Lemma lone_control m i d ctl dat t : In (MidiEvent d (ControlChange i ctl dat), t) m -> 0 <= i ->
  last_volume (filter (for_channel (Z.to_nat i)) m) = None -> ctl =? 7 = false.
Proof.
  intros Hin Hi HN. apply last_volume_none_iff in HN. rewrite Forall_forall in HN. specialize (HN _ (in_channel _ _ i Hin eq_refl Hi)).
  unfold is_volume in HN. cbn [fst volume_of] in HN. destruct (ctl =? 7); [discriminate|reflexivity].
Qed.
Lemma vrun_base base c m : base_ok base -> 0 <= c < 16 -> Forall typed m -> StronglySorted not_after m -> lone base m c ->
  let v := nth (Z.to_nat c) base 0%nat in
  forall q p s s', m = p ++ q -> known base p s -> last_volume (vv s v) = vol s (Z.to_nat c) -> each_on (vown m c) (vv s v) ->
    ofold (vstep base) q s = Ok s' -> each_on (vown m c) (vv s' v).
Proof.
  intros Hb Hc Hty Hsort Hun v. assert (HvIn : In v base) by (apply base_in; [exact Hb|lia]).
  induction q as [|[ev t] q IH]; intros p s s' Hm Hi HP HE H; cbn [ofold] in H.
  - injection H as <-. exact HE.
  - inv_bind H. rename a into s1.
    assert (Hin : In (ev, t) m) by (rewrite Hm; apply in_or_app; right; left; reflexivity).
    assert (Hx : typed (ev, t)) by (rewrite Forall_forall in Hty; apply Hty; exact Hin).
    destruct (step_known base p s ev t s1 Hb Hi Hx Ha) as [Hi1 Hstep].
    pose proof (proj1 Hx) as Hci. unfold channel_ok in Hci. cbn [fst] in Hci.
    pose proof (proj1 (proj2 Hi)) as (Hnp & Hnw & _).
    assert (HP1 : last_volume (vv s1 v) = vol s1 (Z.to_nat c)).
    { rewrite (vol_step base p s ev t s1 _ Hi Hi1) by lia.
      assert (Hq : volume_of ev = None -> vol s (Z.to_nat c) = if for_channel (Z.to_nat c) (ev, t) then ov (volume_of ev) (vol s (Z.to_nat c)) else vol s (Z.to_nat c)).
      { intros E. rewrite E. destruct (for_channel _ _); reflexivity. }
      destruct ev as [? [] ?|d [i k vel|i k vel|i k vel|i ctl dat|i pr|i pr|i dat|i]|? ? ?|].
      all: try (rewrite (step_volume base s _ t s1 v Hstep I), HP; apply Hq; reflexivity).
      - rewrite <- Hq by reflexivity. destruct (Z.lt_ge_cases 0 vel) as [Hv|Hv].
        + destruct (step_volume_on base s d i k vel t s1 Hstep Hv) as (voice & Hvb & Hlp & _).
          rewrite Hlp. destruct (Nat.eqb_spec v voice) as [He|He]; [|exact HP]. subst voice.
          destruct Hvb as [Hvb|Hvb]; [|contradiction]. rewrite (prelude_volume _ _ _ _ _ _ Hnp Hnw).
          destruct (same_channel s v i); [exact HP|]. destruct (Z.eq_dec i c) as [Hic|Hic].
          * subst i. rewrite HP. destruct (vol s (Z.to_nat c)); reflexivity.
          * cbn [addressee event_channel] in Hci. rewrite (lone_vol base p s m _ i Hi Hm Hci); [exact HP|]. apply Hun; auto.
        + rewrite (step_volume base s _ t s1 v Hstep); [exact HP|]. lia.
      - rewrite (step_volume base s _ t s1 v Hstep I). cbn [addressee event_channel] in Hci. rewrite (hears_base base p s i v (proj1 Hi) Hci HvIn).
        unfold for_channel. cbn [fst addressee event_channel volume_of]. destruct (Z.eq_dec i c) as [Hic|Hic].
        + subst i. fold v. rewrite Nat.eqb_refl, andb_true_r. replace (c =? Z.of_nat (Z.to_nat c)) with true by lia.
          destruct (ctl =? 7); [reflexivity|exact HP].
        + replace (i =? Z.of_nat (Z.to_nat c)) with false by lia. destruct (Nat.eqb_spec v (nth (Z.to_nat i) base 0%nat)) as [He|He]; [|rewrite andb_false_r; exact HP].
          rewrite (lone_control m i d ctl dat t Hin ltac:(lia)); [exact HP|]. apply Hun; auto. }
    apply (IH (p ++ [(ev, t)]) s1); [rewrite <- app_assoc; exact Hm|exact Hi1|exact HP1| |exact H].
    eapply step_ons; [apply (proj1 Hi)|exact Hstep|exact HE|].
    intros d i k vel o -> Hv Ho Hvb d' k' vel' t' Hinj. injection Hinj as E1 E2 E3 E4 E5. subst d' i k' vel' t'.
    rewrite !last_volume_app, Ho, (prelude_volume _ _ _ _ _ _ Hnp Hnw), (volume_now base p s _ c _ _ _ q m Hi Hm Hsort Hc Hv), HP.
    destruct (same_channel s v c); [reflexivity|]. destruct (vol s (Z.to_nat c)); reflexivity.
Qed.

(** ** Notes on voices that are nobody's base voice *)
Definition volumes_over (l : list tmsg) : Prop :=
  forall l1 x l2, l = l1 ++ x :: l2 -> note_on (fst x) = true -> Forall (fun y => is_volume y = false) l2.
Definition vown_some (m : list tmsg) (c : Z) (l1 : list tmsg) (x : tmsg) : Prop :=
  forall d k vel t p, x = (MidiEvent d (NoteOn c k vel), t) -> volume_at (filter (for_channel (Z.to_nat c)) m) t = Some p ->
    last_volume l1 = Some p.
Definition begun (c : Z) (p : list tmsg) : Prop := exists x, In x (filter (for_channel (Z.to_nat c)) p) /\ note_on (fst x) = true.
Lemma no_more_volumes m p q c d ctl dat t : volumes_over (filter (for_channel (Z.to_nat c)) m) ->
  m = p ++ (MidiEvent d (ControlChange c ctl dat), t) :: q -> 0 <= c -> begun c p -> ctl =? 7 = false.
Proof.
  intros Hpf -> Hc (x & Hx & Hon). apply in_split in Hx. destruct Hx as (a & b & E).
  rewrite filter_app in Hpf. cbn [filter] in Hpf.
  replace (for_channel (Z.to_nat c) (MidiEvent d (ControlChange c ctl dat), t)) with true in Hpf
    by (unfold for_channel; cbn [fst addressee event_channel]; lia).
  change (message * Z)%type with tmsg in *. rewrite E, <- app_assoc in Hpf. cbn [app] in Hpf. specialize (Hpf a x _ eq_refl Hon). rewrite Forall_forall in Hpf.
  specialize (Hpf (MidiEvent d (ControlChange c ctl dat), t)). unfold is_volume in Hpf. cbn [fst volume_of] in Hpf.
  destruct (ctl =? 7); [|reflexivity]. apply Hpf. apply in_or_app. right. now left.
Qed.
Lemma vrun_free base c m v : base_ok base -> 0 <= c < 16 -> Forall typed m -> StronglySorted not_after m ->
  volumes_over (filter (for_channel (Z.to_nat c)) m) -> ~ In v base ->
  forall q p s s', m = p ++ q -> known base p s ->
    (nth v (v_chan s) None = Some (Z.to_nat c) -> begun c p /\ forall pr, vol s (Z.to_nat c) = Some pr -> last_volume (vv s v) = Some pr) ->
    each_on (vown_some m c) (vv s v) ->
    ofold (vstep base) q s = Ok s' -> each_on (vown_some m c) (vv s' v).
Proof.
  intros Hb Hc Hty Hsort Hpf Hv.
  induction q as [|[ev t] q IH]; intros p s s' Hm Hi HP HE H; cbn [ofold] in H.
  - injection H as <-. exact HE.
  - inv_bind H. rename a into s1.
    assert (Hin : In (ev, t) m) by (rewrite Hm; apply in_or_app; right; left; reflexivity).
    assert (Hx : typed (ev, t)) by (rewrite Forall_forall in Hty; apply Hty; exact Hin).
    destruct (step_known base p s ev t s1 Hb Hi Hx Ha) as [Hi1 Hstep].
    pose proof (proj1 Hx) as Hci. unfold channel_ok in Hci. cbn [fst] in Hci.
    pose proof (proj1 (proj2 Hi)) as (Hnp & Hnw & _).
    assert (Hmore : begun c p -> begun c (p ++ [(ev, t)])).
    { intros (x & Hx1 & Hx2). exists x. split; [|exact Hx2]. rewrite filter_app. apply in_or_app. left. exact Hx1. }
    assert (Hpre : forall i k d, nth v (v_chan s) None = Some (Z.to_nat c) \/ i = c -> forall pr, vol s (Z.to_nat c) = Some pr -> i = c ->
       ov (last_volume (prelude s i k d t v)) (last_volume (vv s v)) = Some pr).
    { intros i k d _ pr Hpr ->. rewrite (prelude_volume _ _ _ _ _ _ Hnp Hnw). unfold same_channel. rewrite Hpr.
      destruct (nth v (v_chan s) None) as [c'|] eqn:Ec; [|reflexivity].
      destruct (Z.eqb_spec (Z.of_nat c') c) as [Hcc|Hcc]; [|reflexivity]. cbn [ov]. apply HP; [f_equal; lia|exact Hpr]. }
    assert (HP1 : nth v (v_chan s1) None = Some (Z.to_nat c) ->
       begun c (p ++ [(ev, t)]) /\ forall pr, vol s1 (Z.to_nat c) = Some pr -> last_volume (vv s1 v) = Some pr).
    { rewrite (vol_step base p s ev t s1 _ Hi Hi1) by lia.
      assert (Hq : volume_of ev = None -> (if for_channel (Z.to_nat c) (ev, t) then ov (volume_of ev) (vol s (Z.to_nat c)) else vol s (Z.to_nat c)) = vol s (Z.to_nat c)).
      { intros E. rewrite E. destruct (for_channel _ _); reflexivity. }
      assert (Hkeep : nth v (v_chan s1) None = nth v (v_chan s) None -> last_volume (vv s1 v) = last_volume (vv s v) ->
        nth v (v_chan s1) None = Some (Z.to_nat c) ->
       begun c (p ++ [(ev, t)]) /\ forall pr, vol s (Z.to_nat c) = Some pr -> last_volume (vv s1 v) = Some pr).
      { intros E1 E2 E3. rewrite E1 in E3. destruct (HP E3) as [Hp1 Hp2]. split; [auto|]. rewrite E2. exact Hp2. }
      pose proof (step_volume base s _ t s1 v Hstep) as Hlp.
      pose proof Hstep as (px & _ & Hst).
      destruct ev as [? [] ?|d [i k vel|i k vel|i k vel|i ctl dat|i pr|i pr|i dat|i]|? ? ?|].
      all: try (rewrite Hq by reflexivity; destruct Hst as (_ & Hch & _); apply Hkeep; [rewrite Hch; reflexivity|exact (Hlp I)]; fail).
      - rewrite Hq by reflexivity. destruct Hst as (_ & _ & _ & _ & _ & Hch & _). apply Hkeep; [rewrite Hch; reflexivity|exact (Hlp I)].
      - rewrite Hq by reflexivity. destruct (0 <? vel) eqn:Ev.
        + assert (Hv0 : 0 < vel) by lia. cbn [addressee event_channel] in Hci.
          destruct (step_volume_on base s d i k vel t s1 Hstep Hv0) as (voice & Hvb & Hlp' & Hch).
          destruct (Nat.eqb_spec v voice) as [He|He].
          2:{ apply Hkeep; [rewrite Hch|rewrite Hlp']; destruct (Nat.eqb_spec v voice); congruence. }
          subst voice. specialize (Hch v). specialize (Hlp' v). rewrite Nat.eqb_refl in Hch, Hlp'. rewrite Hch. intros [= He].
          assert (i = c) by lia. subst i. split.
          * exists (MidiEvent d (NoteOn c k vel), t). split; [|cbn; lia]. apply in_channel; [|reflexivity|lia].
            apply in_or_app. right. left. reflexivity.
          * intros pr Hpr. rewrite Hlp'. apply Hpre; auto.
        + destruct Hst as (_ & _ & Hst). try rewrite Ev in Hst. destruct Hst as (_ & _ & _ & Hch & _).
          apply Hkeep; [rewrite Hch; reflexivity|apply Hlp; lia].
      - destruct Hst as (_ & Hch & _). rewrite Hch. cbn [addressee event_channel] in Hci. intros Hvc. destruct (HP Hvc) as [Hp1 Hp2].
        split; [auto|]. unfold for_channel. cbn [fst addressee event_channel volume_of]. rewrite (Hlp I). destruct (Z.eq_dec i c) as [Hic|Hic].
        + subst i. rewrite (no_more_volumes m p q c d ctl dat t Hpf Hm ltac:(lia) Hp1). cbn [andb ov]. destruct (c =? Z.of_nat (Z.to_nat c)); exact Hp2.
        + replace (i =? Z.of_nat (Z.to_nat c)) with false by lia.
          destruct (hears s base i v) eqn:Eh; [|rewrite andb_false_r; exact Hp2]. exfalso.
          pose proof (hears_other base p s i v (proj1 Hi) Hb Hci Hv Eh) as Hvi. rewrite Hvi in Hvc. injection Hvc as Hvc. lia. }
    apply (IH (p ++ [(ev, t)]) s1); [rewrite <- app_assoc; exact Hm|exact Hi1|exact HP1| |exact H].
    eapply step_ons; [apply (proj1 Hi)|exact Hstep|exact HE|].
    intros d i k vel o -> Hv0 Ho Hvb d' k' vel' t' pr Hinj. injection Hinj as E1 E2 E3 E4 E5. subst d' i k' vel' t'.
    rewrite (volume_now base p s _ c _ _ _ q m Hi Hm Hsort Hc Hv0). intros Hpr.
    rewrite !last_volume_app, Ho. pose proof (Hpre c k d (or_intror eq_refl) pr Hpr eq_refl) as HX.
    destruct (last_volume (prelude s c k d t v)); exact HX.
Qed.

(** ** No volume during a note *)
Fixpoint playing (cur : option Z) (l : list tmsg) : option Z :=
  match l with
  | [] => cur
  | (MidiEvent _ (NoteOn c _ _), _) :: r => playing (Some c) r
  | (MidiEvent _ (NoteOff _ _ _), _) :: r => playing None r
  | _ :: r => playing cur r
  end.
Lemma playing_app l1 : forall cur l2, playing cur (l1 ++ l2) = playing (playing cur l1) l2.
Proof. induction l1 as [|[m t] l1 IH]; intros cur l2; [reflexivity|]. cbn [app]. destruct m as [|? []| |]; cbn [playing]; apply IH. Qed.
Lemma playing_quiet l : quiet l -> forall cur, playing cur l = cur.
Proof. induction 1 as [|[m t] l H _ IH]; intros cur; [reflexivity|]. cbn [fst] in H. destruct m as [|? []| |]; cbn [playing]; try discriminate; apply IH. Qed.
Lemma playing_one m t cur : raw_note m = false -> playing cur [(m, t)] = cur.
Proof. intros H. apply playing_quiet. constructor; [exact H|constructor]. Qed.
Definition play_inv (s : vstate) : Prop :=
  forall v c, playing None (vv s v) = Some c -> 0 <= c < 16 /\ exists k, lookup (v_active s) c k = Some v.
Lemma play_off L c k x v cur : (exists d kk vel t, x = (MidiEvent d (NoteOff c kk vel), t)) ->
  (forall c', cur = Some c' -> 0 <= c' < 16 /\ exists k', L c' k' = Some v) ->
  forall c', playing cur (on_voice (L c k) x v) = Some c' -> 0 <= c' < 16 /\ exists k', without L c k c' k' = Some v.
Proof.
  intros (d & kk & vel & t & ->) HL c' H.
  assert (Hne : L c k <> Some v -> (forall c', cur = Some c' -> 0 <= c' < 16 /\ exists k', without L c k c' k' = Some v)).
  { intros Hn c1 Hc1. destruct (HL c1 Hc1) as (Hr & k' & Hk). split; [exact Hr|]. exists k'. unfold without.
    destruct ((c1 =? c) && (k' =? k)) eqn:E; [|exact Hk]. assert (c1 = c) by lia. assert (k' = k) by lia. subst. contradiction. }
  unfold on_voice in H. destruct (L c k) as [w|] eqn:El; [|apply Hne; [discriminate|exact H]].
  destruct (Nat.eqb_spec v w) as [He|He]; [discriminate|]. apply Hne; [congruence|exact H].
Qed.
Lemma step_play base s m t s1 : vinv s -> remembered s -> typed (m, t) -> step_spec base s m t s1 -> play_inv s -> play_inv s1.
Proof.
  intros Hs Hrem Hty (px & Hpx & Hstep) HI v c'. rewrite Hpx, playing_app. specialize (HI v). revert HI. generalize (playing None (vv s v)). intros cur HI.
  destruct Hty as (Hc & _). unfold channel_ok in Hc. cbn [fst] in Hc.
  assert (Hq : raw_note m = false -> v_active s1 = v_active s -> (px v = [] \/ px v = [(m, t)]) -> playing cur (px v) = Some c' ->
    0 <= c' < 16 /\ exists k, lookup (v_active s1) c' k = Some v).
  { intros Hr Ha [E|E] H; rewrite E in H; rewrite Ha; [apply HI; exact H|]. rewrite playing_one in H by exact Hr. apply HI. exact H. }
  destruct m as [? [] ?|d [c k vel|c k vel|c k vel|c ctl dat|c pr|c pr|c dat|c]|? ? ?|].
  all: try (destruct Hstep as (Ha & _ & _ & Hp & _); apply Hq; [reflexivity|exact Ha|apply Hp]; fail).
  all: try (destruct Hstep as (Ha & _ & _ & Hp & _); apply Hq; [reflexivity|exact Ha|]; rewrite Hp; destruct (hears _ _ _ _); auto; fail).
  - destruct Hstep as (Hp & HL & _). rewrite Hp. intros H. eapply play_off in H; [|eauto|exact HI].
    destruct H as (Hr & k' & Hk). split; [exact Hr|]. exists k'. rewrite HL by exact Hr. exact Hk.
  - cbn [addressee event_channel] in Hc. destruct Hstep as (_ & _ & Hstep). destruct (0 <? vel).
    + destruct Hstep as (voice & (_ & Hnu & _) & Hp & HL & _). rewrite Hp, playing_app. destruct (Nat.eqb_spec v voice) as [He|He].
      * subst v. rewrite playing_app. rewrite (playing_quiet (prelude s c k d t voice)) by (apply prelude_quiet; exact Hrem). cbn [playing]. intros [= <-]. split; [exact Hc|]. exists k.
        rewrite HL by exact Hc. unfold with_. rewrite !Z.eqb_refl. reflexivity.
      * cbn [playing]. intros H. eapply play_off in H; [|eauto|exact HI]. destruct H as (Hr & k' & Hk). split; [exact Hr|]. exists k'.
        rewrite HL by exact Hr. unfold with_. destruct ((c' =? c) && (k' =? k)) eqn:E; [|exact Hk].
        unfold without in Hk. rewrite E in Hk. discriminate.
    + destruct Hstep as (Hp & HL & _). rewrite Hp. intros H. eapply play_off in H; [|eauto|exact HI].
      destruct H as (Hr & k' & Hk). split; [exact Hr|]. exists k'. rewrite HL by exact Hr. exact Hk.
Qed.
Definition steady (c : Z) (l : list tmsg) : Prop :=
  forall l1 x l2, l = l1 ++ x :: l2 -> is_volume x = true -> playing None l1 <> Some c.
Lemma steady_app c l px : steady c l -> (forall l1 x l2, px = l1 ++ x :: l2 -> is_volume x = true -> playing None (l ++ l1) <> Some c) -> steady c (l ++ px).
Proof.
  intros H Hp l1 x l2 E Hx. apply app_split in E. destruct E as [(r & ->)|(r & -> & ->)]; [eapply H; eauto|]. eapply Hp; eauto.
Qed.
Lemma steady_quiet c l px : steady c l -> Forall (fun x => is_volume x = false) px -> steady c (l ++ px).
Proof.
  intros H HF. apply steady_app; [exact H|]. intros l1 x l2 -> Hx. apply Forall_app in HF. destruct HF as [_ HF]. inversion HF; subst. congruence.
Qed.
Lemma on_voice_no_volume o d c k vel t v : Forall (fun x => is_volume x = false) (on_voice o (MidiEvent d (NoteOff c k vel), t) v).
Proof. apply last_volume_none_iff, on_voice_volume. Qed.
(** Every volume of the channel comes when its keys are released. *)
Definition vols_calm (base : list nat) (m : list tmsg) (c : Z) : Prop :=
  forall p1 d i dat t p2 k, m = p1 ++ (MidiEvent d (ControlChange i 7 dat), t) :: p2 -> 0 <= i < 16 -> ringing p1 c k ->
  i <> c /\ nth (Z.to_nat i) base 0%nat <> nth (Z.to_nat c) base 0%nat.
Lemma vols_prefix base l1 l2 c : vols_calm base (l1 ++ l2) c -> vols_calm base l1 c.
Proof. intros H p1 d i dat t p2 k ->. apply (H p1 d i dat t (p2 ++ l2)). rewrite <- app_assoc. reflexivity. Qed.
Lemma run_steady base m c : base_ok base -> Forall typed m -> snares_released (drums m) -> pcs_calm base m -> 0 <= c < 16 -> vols_calm base m c ->
  forall p q s, m = p ++ q -> ofold (vstep base) p (vstate0 base) = Ok s -> play_inv s /\ forall v, steady c (vv s v).
Proof.
  intros Hb Hty Hsn Hpc Hc Hvc p. induction p as [|[ev t] p IH] using rev_ind; intros q s Hm E.
  - injection E as <-. split; intros v; rewrite vv0; [discriminate|]. intros l1 x l2 E. destruct l1; discriminate.
  - rewrite ofold_app in E. inv_bind E. cbn [ofold] in E. inv_bind E. injection E as <-. rename a into s. rename a0 into s1.
    rewrite <- app_assoc in Hm. cbn [app] in Hm.
    assert (Htp : Forall typed p) by (rewrite Hm in Hty; apply Forall_app in Hty; apply Hty).
    assert (Hx : typed (ev, t)) by (rewrite Forall_forall in Hty; apply Hty; rewrite Hm; apply in_or_app; right; left; reflexivity).
    pose proof (run_iinv2 base p Hb s Htp Ha) as Hii.
    destruct (step_iinv2 base p s ev t s1 Hb Hii Hx Ha0) as [Hii1 Hstep].
    assert (Hsp : snares_released (drums p)). { rewrite Hm in Hsn. unfold drums in *. rewrite filter_app in Hsn. now apply snares_prefix in Hsn. }
    assert (Hpp : pcs_calm base p). { rewrite Hm in Hpc. now apply pcs_prefix in Hpc. }
    destruct (keyed_run base p s Hb Htp Ha Hsp Hpp) as (_ & Hring & _).
    destruct (IH ((ev, t) :: q) s Hm Ha) as [HI HS]. split; [eapply step_play; [apply Hii|apply Hii|exact Hx|exact Hstep|exact HI]|].
    intros v. specialize (HS v). pose proof (proj1 Hx) as Hci. unfold channel_ok in Hci. cbn [fst] in Hci.
    destruct Hstep as (px & Hpx & Hstep). rewrite Hpx.
    assert (Hone : is_volume (ev, t) = false -> (px v = [] \/ px v = [(ev, t)]) -> steady c (vv s v ++ px v)).
    { intros He [E|E]; apply steady_quiet; try exact HS; rewrite E; [constructor|constructor; [exact He|constructor]]. }
    destruct ev as [? [] ?|d [i k vel|i k vel|i k vel|i ctl dat|i pr|i pr|i dat|i]|? ? ?|].
    all: try (apply Hone; [reflexivity|]; destruct Hstep as (_ & _ & _ & Hp & _); apply Hp; fail).
    all: try (apply Hone; [reflexivity|]; destruct Hstep as (_ & _ & _ & Hp & _); rewrite Hp; destruct (hears _ _ _ _); auto; fail).
    + destruct Hstep as (Hp & _). apply steady_quiet; [exact HS|]. rewrite Hp. apply on_voice_no_volume.
    + cbn [addressee event_channel] in Hci. destruct Hstep as (_ & _ & Hstep). destruct (0 <? vel).
      * destruct Hstep as (voice & (_ & Hnu & _) & Hp & _). rewrite Hp. destruct (Nat.eqb_spec v voice) as [He|He].
        2:{ rewrite app_nil_r. apply steady_quiet; [exact HS|apply on_voice_no_volume]. }
        subst voice. rewrite app_assoc. apply steady_app; [apply steady_quiet; [exact HS|apply on_voice_no_volume]|].
        intros l1 x l2 E Hxv. rewrite !playing_app.
        assert (Hq : quiet l1).
        { pose proof (prelude_quiet s i k d t v (ii_rem _ _ _ Hii)) as HQ. destruct l2 as [|y l2] using rev_ind.
          - apply app_inj_tail in E. destruct E as [_ <-]. discriminate Hxv.
          - clear IHl2. rewrite app_comm_cons, app_assoc in E. apply app_inj_tail in E. destruct E as [E _]. rewrite E in HQ. apply Forall_app in HQ. apply HQ. }
        rewrite playing_quiet by exact Hq. intros HC.
        eapply play_off in HC; [|eauto|exact (HI v)]. destruct HC as (Hr & k' & Hk). apply Hnu. exists c, k'. auto.
      * destruct Hstep as (Hp & _). apply steady_quiet; [exact HS|]. rewrite Hp. apply on_voice_no_volume.
    + destruct Hstep as (_ & _ & _ & Hp & _). rewrite Hp. destruct (hears s base i v) eqn:Eh; [|rewrite app_nil_r; exact HS].
      destruct (Z.eqb_spec ctl 7) as [E7|E7]; [subst ctl|].
      2:{ apply steady_quiet; [exact HS|]. constructor; [|constructor]. unfold is_volume. cbn [fst volume_of]. destruct (Z.eqb_spec ctl 7); [contradiction|reflexivity]. }
      apply steady_app; [exact HS|]. intros l1 x l2 E _. destruct l1 as [|? l1]; [|destruct l1; discriminate E]. rewrite app_nil_r. intros HC.
      destruct (HI v c HC) as (_ & k & Hl). cbn [addressee event_channel] in Hci.
      destruct (Hvc p d i dat t q k Hm Hci (Hring c k v Hc Hl)) as [Hne Hnb].
      destruct (hears_sounding base p s i v Hii Hci Eh) as [He|[k' Hl']].
      * destruct (ii_voice _ _ _ Hii c k v Hc Hl) as [[Hbb|Hbb] _]; [congruence|]. apply Hbb. rewrite He. apply base_in; [exact Hb|lia].
      * destruct (vi_inj _ (ii_vinv _ _ _ Hii) c k i k' v Hc Hci Hl Hl') as [He _]. congruence.
Qed.

(** ** Notes of a voice with the volumes at their starts and at their ends *)
Fixpoint until (cur : option Z) (l : list tmsg) : option Z :=
  match l with
  | [] => cur
  | (MidiEvent _ (NoteOn _ _ _), _) :: _ => cur
  | (MidiEvent _ (NoteOff _ _ _), _) :: _ => cur
  | (m, _) :: r => until (ov (volume_of m) cur) r
  end.
Fixpoint vstruck (cur : option Z) (l : list tmsg) : list (note * (option Z * option Z)) :=
  match l with
  | [] => []
  | (MidiEvent _ (NoteOn c k v), t) :: r => (mk_note c k t (voice_end r) v, (cur, until cur r)) :: vstruck cur r
  | (m, _) :: r => vstruck (ov (volume_of m) cur) r
  end.
Lemma vstruck_notes l : forall cur, map fst (vstruck cur l) = voice_notes l.
Proof.
  induction l as [|[m t] l IH]; intros cur; [reflexivity|].
  destruct m as [|d [c k vel|c k vel|c k vel|c ctl dat|c pr|c pr|c dat|c]| |]; cbn [vstruck voice_notes map fst]; try apply IH. f_equal. apply IH.
Qed.
Lemma ov_assoc a b c : ov a (ov b c) = ov (ov a b) c.
Proof. destruct a; reflexivity. Qed.
Lemma vstruck_in l : forall cur n q r, In (n, (q, r)) (vstruck cur l) ->
  exists l1 d l2, l = l1 ++ (MidiEvent d (NoteOn (nt_ch n) (nt_key n) (nt_vel n)), nt_on n) :: l2 /\ q = ov (last_volume l1) cur /\ r = until q l2.
Proof.
  induction l as [|[m t] l IH]; intros cur n q r Hin; [destruct Hin|].
  assert (Hskip : In (n, (q, r)) (vstruck (ov (volume_of m) cur) l) ->
    exists l1 d l2, (m, t) :: l = l1 ++ (MidiEvent d (NoteOn (nt_ch n) (nt_key n) (nt_vel n)), nt_on n) :: l2 /\ q = ov (last_volume l1) cur /\ r = until q l2).
  { intros Hi. destruct (IH _ n q r Hi) as (l1 & d & l2 & -> & -> & ->). exists ((m, t) :: l1), d, l2. split; [reflexivity|].
    assert (E : ov (last_volume l1) (ov (volume_of m) cur) = ov (last_volume ((m, t) :: l1)) cur).
    { rewrite ov_assoc. cbn [last_volume fst]. destruct (last_volume l1); reflexivity. }
    rewrite E. split; reflexivity. }
  destruct m as [|d [c k vel|c k vel|c k vel|c ctl dat|c pr|c pr|c dat|c]| |]; cbn [vstruck] in Hin; try (apply Hskip; exact Hin).
  destruct Hin as [Hin|Hin]; [|apply Hskip; exact Hin]. injection Hin as <- <- <-. exists [], d, l. auto.
Qed.
Lemma steady_until c l : forall l1 cur, steady c (l1 ++ l) -> playing None l1 = Some c -> until cur l = cur.
Proof.
  induction l as [|[m t] l IH]; intros l1 cur Hs Hp; [reflexivity|].
  assert (Hskip : raw_note m = false -> until (ov (volume_of m) cur) l = cur).
  { intros Hr. destruct (volume_of m) eqn:Ev.
    - exfalso. apply (Hs l1 (m, t) l eq_refl); [unfold is_volume; cbn [fst]; now rewrite Ev|exact Hp].
    - cbn [ov]. apply (IH (l1 ++ [(m, t)])); [rewrite <- app_assoc; exact Hs|]. rewrite playing_app, Hp. now apply playing_one. }
  destruct m as [|d [c' k vel|c' k vel|c' k vel|c' ctl dat|c' pr|c' pr|c' dat|c']| |]; cbn [until]; try reflexivity; apply Hskip; reflexivity.
Qed.
Definition vol_end (x : note * (option Z * option Z)) : option Z := Some (channel_volume (snd (snd x))).
Definition vends (x : note * (option Z * option Z)) : bool := ended (fst x).
Lemma volumes_agree tf l : Forall (fun x => midi_valid (fst x)) l -> forall cur,
  (alternates None l -> calm None l ->
     sets_of VOLUME (Some (channel_volume cur)) (outline_from tf None l) = map vol_end (filter vends (vstruck cur l))) /\
  (forall c k on vel q, alternates (Some (c, k)) l -> calm (Some k) l ->
     sets_of VOLUME (Some (channel_volume cur)) (outline_from tf (Some vel) l) =
     map vol_end (filter vends ((mk_note c k on (voice_end l) vel, (q, until cur l)) :: vstruck cur l))).
Proof.
  induction 1 as [|[m t] l Hm _ IH]; intros cur; [split; reflexivity|].
  destruct (IH cur) as [IH1 IH2]. cbn [fst] in Hm. split.
  - intros Ha Hc. destruct m as [d [|] data|d [c' k vel|c' k vel|c' k vel|c' ctl dat|c' pr|c' pr|c' dat|c']| |];
      cbn [alternates calm outline_from control_of vstruck volume_of ov] in *; try (exact (IH1 Ha Hc)).
    + cbn [midi_valid] in Hm. destruct data as [|x [|y [|z data]]]; cbn [List.length] in Hm; try lia. exact (IH1 Ha Hc).
    + destruct Ha as [(k' & Ha & _) _]. discriminate.
    + destruct Ha as (_ & _ & Ha). exact (IH2 c' k t vel cur Ha Hc).
    + destruct (ctl =? 7); [|exact (IH1 Ha Hc)]. destruct (IH (Some dat)) as [IH3 _]. exact (IH3 Ha Hc).
    + destruct Hc as [_ Hc]. exact (IH1 Ha Hc).
  - intros c k on vel0 q Ha Hc. destruct m as [d [|] data|d [c' k' vel|c' k' vel|c' k' vel|c' ctl dat|c' pr|c' pr|c' dat|c']| |];
      cbn [alternates calm outline_from control_of vstruck voice_end until volume_of ov] in *; try (exact (IH2 c k on vel0 q Ha Hc)).
    + cbn [midi_valid] in Hm. destruct data as [|x [|y [|z data]]]; cbn [List.length] in Hm; try lia. exact (IH2 c k on vel0 q Ha Hc).
    + destruct Hc as [Hc1 Hc]. destruct Ha as [_ Ha]. cbn [sets_of filter]. unfold vends at 1. cbn [fst ended nt_off]. cbn [map]. f_equal. exact (IH1 Ha Hc).
    + destruct Ha as [Ha _]. discriminate.
    + destruct (ctl =? 7); [|exact (IH2 c k on vel0 q Ha Hc)]. destruct (IH (Some dat)) as [_ IH4]. exact (IH4 c k on vel0 q Ha Hc).
    + destruct Hc as [Hc1 _]. discriminate.
Qed.
Lemma vfilter_ends l cur : map fst (filter vends (vstruck cur l)) = filter ended (voice_notes l).
Proof.
  rewrite <- (vstruck_notes l cur). induction (vstruck cur l) as [|x r IH]; [reflexivity|]. cbn [filter map]. unfold vends at 1.
  destruct (ended (fst x)); cbn [map]; rewrite IH; reflexivity.
Qed.
Lemma voice_volumes tf v : Forall (fun x => midi_valid (fst x)) v -> alternates None v -> calm None v ->
  Forall2 (fun x y => same_note (fst x) (fst y) /\ snd x = vol_end y)
    (combine (notes_of v) (sets_of VOLUME (Some 0xc8) (outline_of tf v))) (filter vends (vstruck None v)).
Proof.
  intros Hv Ha Hc. destruct (volumes_agree tf v Hv None) as [E _]. specialize (E Ha Hc). unfold outline_of.
  change (channel_volume None) with 0xc8 in E. rewrite E.
  pose proof (notes_agree v None 0 Ha Hc) as HN. change (notes_from None v) with (notes_of v) in HN. rewrite <- (vfilter_ends v None) in HN. revert HN. clear.
  generalize (notes_of v). induction (filter vends (vstruck None v)) as [|y r IH]; intros ns HN; inversion HN; subst; cbn [map combine]; constructor; auto.
Qed.

(** ** The volumes of a song *)
Definition plays_volume (ts : list (list message)) (n : note) (set : option Z) : Prop :=
  forall c l, nt_ch n = Z.of_nat c -> keeps_volume ts c -> stable_sort_of (file_order ts c) l ->
    set = Some (channel_volume (volume_at l (nt_on n))).
Lemma first_between l : volume_first l -> volume_between l.
Proof.
  intros [_ H] l1 x l2 y l3 E Hx Hy. exfalso. specialize (H l1 x _ E Hx). rewrite Forall_forall in H.
  rewrite (H y) in Hy; [discriminate|]. apply in_or_app. right. now left.
Qed.
Lemma volume_first_at l : StronglySorted not_after l -> volume_first l -> forall l1 m t l2, l = l1 ++ (m, t) :: l2 -> note_on m = true ->
  exists d, volume_at l t = Some d.
Proof.
  intros Hs [Hn Hf] l1 m t l2 -> Hm. rewrite volume_at_split by assumption. destruct (last_volume l1) as [d|] eqn:E; [now exists d|].
  exfalso. apply Hn. rewrite last_volume_app, E. cbn [last_volume].
  rewrite (last_volume_none l2) by (eapply Hf; [reflexivity|exact Hm]). destruct m as [|? []| |]; try discriminate Hm. reflexivity.
Qed.
Lemma reading_volumes ts voices chs base m s order : reading ts voices chs base m s -> channels_to_voices chs base order = Ok voices ->
  (forall k, permutes (order k)) -> forall v x, In v voices -> In x (vstruck None v) -> plays_volume ts (fst x) (vol_end x).
Proof.
  intros [Hok Hb Hs Hm Hsm Htm Hrun Hv Hsn Hpf Htog] Hcv Ho v [n [q r]] Hin Hx. cbn [fst].
  apply In_nth with (d := []) in Hin. destruct Hin as (j & _ & Ev).
  destruct (vstruck_in v None n q r Hx) as (l1 & d & l2 & El & Eq & Er).
  intros c l Hn (Hc & Hk) Hl. rewrite (stable_sort_unique _ _ _ Hl (Hs c)) in *. clear l Hl. destruct (Hk _ (Hs c)) as (Hsh & Hcase). clear Hk.
  assert (El' : nth j voices [] = l1 ++ (MidiEvent d (NoteOn (Z.of_nat c) (nt_key n) (nt_vel n)), nt_on n) :: l2) by (rewrite Ev, <- Hn; exact El).
  assert (Evv : vv s j = l1 ++ (MidiEvent d (NoteOn (Z.of_nat c) (nt_key n) (nt_vel n)), nt_on n) :: l2) by (unfold vv; rewrite Hv; exact El').
  assert (Hf : filter (for_channel c) m = nth c chs []) by (apply channel_of_merge; assumption).
  assert (Hc' : 0 <= Z.of_nat c < 16) by lia.
  assert (Hbt : volume_between (nth c chs [])) by (destruct Hcase as [Hcase|[Hcase _]]; [now apply first_between|exact Hcase]).
  assert (Hlone : lone base m (Z.of_nat c)).
  { intros i Hi Hne Hbi. rewrite (channel_of_merge chs m (Z.to_nat i) Hok Hm) by lia. rewrite Nat2Z.id in Hbi.
    destruct (Hsh (Z.to_nat i) (nth (Z.to_nat i) chs []) ltac:(lia) ltac:(lia) (Hs (Z.to_nat i))) as [Ht|Hq]; [|exact Hq].
    exfalso. apply (Htog c (Z.to_nat i) Hc ltac:(lia) ltac:(lia) Ht). now symmetry. }
  (* the volume does not change during the note *)
  assert (Hst : until q l2 = q).
  { assert (Hvc : vols_calm base m (Z.of_nat c)).
    { intros p1 d0 i dat t0 p2 k E Hi Hr. assert (Hnd : i <> Z.of_nat c).
      - intros ->. destruct Hr as (a1 & y & a2 & -> & Hy1 & Hy2 & Hy3). destruct (on_key_key _ _ _ Hy1) as [Hyk Hya].
        assert (Hyc : for_channel c y = true) by (unfold for_channel; rewrite Hya; lia).
        destruct (Hbt (filter (for_channel c) a1) y (filter (for_channel c) a2) (MidiEvent d0 (ControlChange (Z.of_nat c) 7 dat), t0) (filter (for_channel c) p2)) as (z & Hz & Hzk).
        + rewrite <- Hf, E, <- app_assoc, filter_app. cbn [app filter]. rewrite Hyc, filter_app. cbn [filter].
          replace (for_channel c (MidiEvent d0 (ControlChange (Z.of_nat c) 7 dat), t0)) with true by (unfold for_channel; cbn [fst addressee event_channel]; lia). reflexivity.
        + exact Hy2.
        + reflexivity.
        + rewrite Hyk in Hzk. pose proof (filter_key c k a2 z Hz Hzk) as Hzo. apply filter_In in Hz. destruct Hz as [Hz _].
          rewrite Forall_forall in Hy3. rewrite (Hy3 z Hz) in Hzo. discriminate.
      - split; [exact Hnd|]. intros Hbi. specialize (Hlone i Hi Hnd Hbi).
        assert (Hin : In (MidiEvent d0 (ControlChange i 7 dat), t0) m) by (rewrite E; apply in_or_app; right; now left).
        pose proof (lone_control m i d0 7 dat t0 Hin ltac:(lia) Hlone) as HX. discriminate HX. }
    destruct (run_steady base m (Z.of_nat c) Hb Htm Hsn Hpf Hc' Hvc m [] s (eq_sym (app_nil_r m)) Hrun) as [_ HS]. specialize (HS j).
    apply (steady_until (Z.of_nat c) l2 (l1 ++ [(MidiEvent d (NoteOn (Z.of_nat c) (nt_key n) (nt_vel n)), nt_on n)])).
    - rewrite <- app_assoc. cbn [app]. rewrite <- Evv. exact HS.
    - rewrite playing_app. reflexivity. }
  unfold vol_end. cbn [snd]. rewrite Er, Hst, Eq. f_equal. f_equal.
  assert (Hov : ov (last_volume l1) None = last_volume l1) by (destruct (last_volume l1); reflexivity). rewrite Hov. clear Hov.
  assert (Hplace : j = nth c base 0%nat \/ ~ In j base).
  { pose proof (run_place base m j Hb Htm m [] (vstate0 base) s eq_refl (iinv2_0 base)) as HR. rewrite vv0 in HR.
    specialize (HR (each_on_nil _) Hrun _ _ _ Evv eq_refl d (Z.of_nat c) _ _ _ eq_refl). rewrite Nat2Z.id in HR. exact HR. }
  destruct Hplace as [Hj|Hj].
  - pose proof (vrun_base base (Z.of_nat c) m Hb Hc' Htm Hsm Hlone m [] (vstate0 base) s eq_refl (known0 base)) as HR. cbn zeta in HR.
    rewrite Nat2Z.id, <- Hj in HR. rewrite vv0 in HR.
    assert (HR' : each_on (vown m (Z.of_nat c)) (vv s j)).
    { apply HR; [|apply each_on_nil|exact Hrun]. unfold vol, vstate0. cbn [v_ctrl]. rewrite nth_repeat. reflexivity. }
    rewrite (HR' _ _ _ Evv eq_refl d _ _ _ eq_refl), Nat2Z.id, Hf. reflexivity.
  - destruct Hcase as [Hfirst|(_ & Hone & Hap)].
    + assert (Hover : volumes_over (filter (for_channel (Z.to_nat (Z.of_nat c))) m)) by (rewrite Nat2Z.id, Hf; exact (proj2 Hfirst)).
      pose proof (vrun_free base (Z.of_nat c) m j Hb Hc' Htm Hsm Hover Hj m [] (vstate0 base) s eq_refl (known0 base)) as HR. rewrite vv0 in HR.
      assert (HR' : each_on (vown_some m (Z.of_nat c)) (vv s j)).
      { apply HR; [|apply each_on_nil|exact Hrun]. intros Hch. exfalso. unfold vstate0 in Hch. cbn [v_chan] in Hch.
        destruct (Nat.lt_ge_cases j 8) as [H8|H8].
        2:{ rewrite nth_overflow in Hch by (rewrite map_length, seq_length; lia). discriminate. }
        rewrite (nth_indep _ None (first_channel_of base 0)) in Hch by (rewrite map_length, seq_length; lia).
        rewrite map_nth, seq_nth in Hch by lia. cbn [plus] in Hch. unfold first_channel_of in Hch.
        assert (Hfi : forall l i, find_index (fun bv => Nat.eqb bv j) l = Some i -> In j l).
        { induction l as [|y l IHl]; cbn; intros i Hi; [discriminate|]. destruct (Nat.eqb_spec y j); [left; assumption|].
          destruct (find_index _ l) eqn:E; [|discriminate]. right. eapply IHl. reflexivity. }
        apply Hj. eapply Hfi. exact Hch. }
      assert (Hat : exists dd, volume_at (nth c chs []) (nt_on n) = Some dd).
      { assert (Hsrt : StronglySorted not_after (nth c chs [])) by (rewrite <- Hf; apply sorted_filter; exact Hsm).
        assert (Hnote : exists a1 mm a2, nth c chs [] = a1 ++ (mm, nt_on n) :: a2 /\ note_on mm = true).
        { assert (HQ : forall q0 p0 s0 s', m = p0 ++ q0 -> known base p0 s0 -> each_on (fun _ x => forall d k vel t, x = (MidiEvent d (NoteOn (Z.of_nat c) k vel), t) ->
             exists mm, In (mm, t) m /\ for_channel c (mm, t) = true /\ note_on mm = true) (vv s0 j) -> ofold (vstep base) q0 s0 = Ok s' ->
             each_on (fun _ x => forall d k vel t, x = (MidiEvent d (NoteOn (Z.of_nat c) k vel), t) -> exists mm, In (mm, t) m /\ for_channel c (mm, t) = true /\ note_on mm = true) (vv s' j)).
          { induction q0 as [|[ev t0] q0 IH]; intros p0 s0 s' Em Hi HE H; cbn [ofold] in H; [injection H as <-; exact HE|]. inv_bind H. rename a into s1.
            assert (Hin : In (ev, t0) m) by (rewrite Em; apply in_or_app; right; left; reflexivity).
            assert (Hxx : typed (ev, t0)) by (rewrite Forall_forall in Htm; apply Htm; exact Hin).
            destruct (step_known base p0 s0 ev t0 s1 Hb Hi Hxx Ha) as [Hi1 Hstep].
            apply (IH (p0 ++ [(ev, t0)]) s1); [rewrite <- app_assoc; exact Em|exact Hi1| |exact H].
            eapply step_ons; [apply (proj1 Hi)|exact Hstep|exact HE|]. intros d1 i k vel o -> Hv0 _ _ d' k' vel' t' Hinj.
            injection Hinj as E1 E2 E3 E4 E5. subst. eexists. split; [exact Hin|]. split; [unfold for_channel; cbn [fst addressee event_channel]; lia|]. cbn. lia. }
          specialize (HQ m [] (vstate0 base) s eq_refl (known0 base)). rewrite vv0 in HQ. specialize (HQ (each_on_nil _) Hrun _ _ _ Evv eq_refl d _ _ _ eq_refl).
          destruct HQ as (mm & Hmm & Hmc & Hmo). assert (Hi : In (mm, nt_on n) (nth c chs [])) by (rewrite <- Hf; apply filter_In; auto).
          apply in_split in Hi. destruct Hi as (a1 & a2 & E). exists a1, mm, a2. auto. }
        destruct Hnote as (a1 & mm & a2 & E & Hmo). eapply volume_first_at; eauto. }
      destruct Hat as (dd & Hat). rewrite Hat. eapply HR'; [exact Evv|reflexivity|reflexivity|]. rewrite Nat2Z.id, Hf. exact Hat.
    + exfalso. assert (He : j = nth c base 0%nat); [|apply Hj; rewrite He; apply base_in; assumption].
      pose proof (run_mono base m c Hb Htm Hsm Hsn Hpf Hc) as HR. rewrite Hf in HR. specialize (HR Hone).
      assert (HA : forall i, (i < 16)%nat -> i <> c -> nth i base 0%nat = nth c base 0%nat -> apart (nth c chs []) (filter (for_channel i) m)).
      { intros i Hi Hne Hbi. rewrite (channel_of_merge chs m i Hok Hm Hi). destruct (Hap i _ Hi Hne (Hs i)) as [Ht|Ha]; [|exact Ha].
        exfalso. apply (Htog c i Hc Hi (not_eq_sym Hne) Ht). now symmetry. }
      specialize (HR HA m [] s (eq_sym (app_nil_r m)) Hrun j). exact (HR _ _ _ Evv eq_refl d _ _ _ eq_refl).
Qed.
Lemma file_volumes b w order opt p tf s s0 cbs mem a lp at_ :
  midi_file w p = (cbs, true) -> Forall callback_typed cbs -> (forall k, permutes (order k)) ->
  renderable (beat_ticks cbs) (tracks_of cbs) ->
  song_from_midi_file b w order opt p tf = Ok s -> song_from_midi_file b w order false p tf = Ok s0 ->
  Forall seven_bit (tracks s0) -> (opt = true -> keeps_music (tracks s0) (tracks s)) ->
  song_in mem a lp s at_ -> mem 0 = None ->
  exists notes ns ess, file_notes (tracks_of cbs) notes /\ Permutation ns (filter ended (map drum notes)) /\ song_plays mem a ess /\
    Forall2 (fun x n =>
        heard_at (beat_ticks cbs) (tolerance (beat_ticks cbs) (6 * file_size (tracks_of cbs))) (so_on x, so_pitch x) (nt_on n) (nt_key n) /\
        (forall c l, nt_ch n = Z.of_nat c -> keeps_volume (tracks_of cbs) c -> stable_sort_of (file_order (tracks_of cbs) c) l ->
           so_set x = Some (channel_volume (volume_at l (nt_on n)))))
      (flat_map (sounds_with VOLUME) ess) ns.
Proof.
  intros Ew Hty Ho Hrf Hs Hs0 Hsb Hopt Hin H0. unfold song_from_midi_file in Hs, Hs0. rewrite Ew in Hs, Hs0.
  inv_bind Hs0. rename a0 into h. rename Ha into Hh. rewrite Hh in Hs. cbn [bind] in Hs.
  unfold song_from_midi in Hs0. inv_bind Hs0. cbv zeta in Hs0. injection Hs0 as <-. cbn [tracks] in *. rename a0 into trs.
  apply convert_voices_spec in Ha. rename Ha into Htr.
  destruct (file_voices_calm b cbs order h Hty Ho Hh Hrf) as (Etpb & Hv8 & Hvok & Hcalm & notes & Hfn & Hperm). rewrite Etpb in *.
  destruct (file_reading b cbs order h Hty Ho Hh Hrf) as (chs & base & m & vs & Hrd & Hcv & _).
  assert (Hv8' : (length (h_voices h) <= 8)%nat) by (rewrite Hv8; constructor).
  destruct (song_volumes b _ _ _ _ _ _ _ _ _ _ _ _ Hs Hv8' (rf_beat _ _ Hrf) Hvok Htr Hsb Hopt Hin H0) as (ess & Hess & HF).
  exists notes, (map fst (flat_map (fun v => filter vends (vstruck None v)) (h_voices h))), ess. split; [exact Hfn|]. split; [|split; [exact Hess|]].
  { assert (E : map fst (flat_map (fun v => filter vends (vstruck None v)) (h_voices h)) = flat_map (fun v => filter ended (voice_notes v)) (h_voices h)); [|rewrite E; exact Hperm].
    clear. induction (h_voices h) as [|v l IH]; [reflexivity|]. cbn [flat_map]. rewrite map_app, vfilter_ends, IH. reflexivity. }
  assert (HG : Forall2 (fun x y => same_note (fst x) (fst y) /\ snd x = vol_end y)
    (flat_map (fun v => combine (notes_of v) (sets_of VOLUME (Some 0xc8) (outline_of tf v))) (h_voices h)) (flat_map (fun v => filter vends (vstruck None v)) (h_voices h))).
  { clear - Hvok Hcalm. induction Hvok as [|v l (Hv & _) _ IH]; [constructor|]. inversion Hcalm as [|? ? (A1 & _ & A3) Hcalm']; subst. cbn [flat_map].
    apply Forall2_app; [|now apply IH]. apply voice_volumes; [exact (voice_valid _ _ _ Hv)|exact A1|exact A3]. }
  assert (HP : forall y, In y (flat_map (fun v => filter vends (vstruck None v)) (h_voices h)) -> plays_volume (tracks_of cbs) (fst y) (vol_end y)).
  { intros y Hy. apply in_flat_map in Hy. destruct Hy as (v & Hv & Hy). apply filter_In in Hy. destruct Hy as [Hy _].
    eapply reading_volumes; eassumption. }
  clear - HF HG HP. revert HG HP. generalize (flat_map (fun v => filter vends (vstruck None v)) (h_voices h)).
  induction HF as [|x z l1 l2 (E1 & E2) _ IH]; intros l HG HP; inversion HG as [|? y ? l' ((G1 & _ & G3 & _) & G2) HG']; subst; cbn [map]; constructor.
  - rewrite G1, G3 in E1. rewrite E2, G2. split; [exact E1|]. exact (HP y (or_introl eq_refl)).
  - apply IH; [exact HG'|]. intros y' Hy'. apply HP. now right.
Qed.

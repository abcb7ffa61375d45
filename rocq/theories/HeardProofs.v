(** HeardProofs.v: lengths and velocities of the notes the driver plays (C60). *)
From Coq Require Import ZArith List Bool Lia ZifyBool ZifyNat Permutation.
From Verif Require Import Base F32 Messages Command Track Song ProofLib SpecTime SpecVoice SpecNspc SpecLoop SpecRom SpecAram
  SpecSong SpecNotes SpecPlayback SpecGate SplitProofs TrackProofs SlideProofs OptExpand AramProofs AramMore SongProofs ControlProofs
  PlaybackProofs GateProofs.
Ltac Zify.zify_post_hook ::= Z.div_mod_to_equations.
Open Scope list_scope.

(** ** Strikes and what is heard *)
Lemma attacks_strikes es : forall now prev, attacks_from now prev es = map (fun x => (k_on x, k_pitch x)) (strikes_from now prev es).
Proof.
  induction es as [|e es IH]; intros now prev; [reflexivity|]. cbn [attacks_from strikes_from]. rewrite map_app, IH.
  f_equal. destruct (attack_of prev (ev_token e)); reflexivity.
Qed.
Definition same_strike (x y : strike) : Prop :=
  k_on x = k_on y /\ k_pitch x = k_pitch y /\ k_steps x = k_steps y /\ k_ties x = k_ties y /\ k_slid x = k_slid y /\
  (k_slid x = false -> k_vs x = k_vs y).
Lemma held_heard es1 : forall es2, map (heard true) es1 = map (heard true) es2 -> held es1 = held es2.
Proof.
  induction es1 as [|e1 es1 IH]; intros [|e2 es2] H; try discriminate; [reflexivity|].
  cbn [map] in H. injection H as H1 H2 H3 H4. cbn [held]. rewrite H1 in *. destruct (ev_token e2); try reflexivity.
  cbn [SpecAram.sounding] in H2. rewrite H2. f_equal. now apply IH.
Qed.
Lemma strikes_heard es1 : forall es2 now prev, map (heard true) es1 = map (heard true) es2 ->
  Forall2 same_strike (strikes_from now prev es1) (strikes_from now prev es2).
Proof.
  induction es1 as [|e1 es1 IH]; intros [|e2 es2] now prev H; try discriminate; [constructor|].
  cbn [map] in H. injection H as H1 H2 H3 H4. cbn [strikes_from]. rewrite H1 in *. pose proof (held_heard _ _ H4) as Hh.
  apply Forall2_app.
  - unfold attack_of. destruct (ev_token e2) eqn:E; try constructor.
    + unfold same_strike. cbn [k_on k_pitch k_steps k_ties k_slid k_vs]. cbn [SpecAram.sounding is_tnote andb] in *.
      rewrite H2, Hh. auto 10.
    + constructor.
    + destruct (slid_to prev); constructor; [|constructor].
      unfold same_strike. cbn [k_on k_pitch k_steps k_ties k_slid k_vs]. cbn [SpecAram.sounding is_tnote andb negb] in *.
      rewrite H2, Hh. repeat split. discriminate.
  - destruct (SpecAram.sounding (ev_token e2)); [rewrite H2|]; now apply IH.
Qed.
Lemma strikes_prev es now p q : slid_to p = slid_to q -> strikes_from now p es = strikes_from now q es.
Proof. intros H. destruct es as [|e es]; [reflexivity|]. cbn [strikes_from]. unfold attack_of. now rewrite H. Qed.

(** ** Slots and strikes *)
Lemma lasting_steps dur pc : lasting pc ->
  (if SpecAram.sounding (token_of (cmd pc)) then oelse (prescribed_dur dur pc) 0 else 0) = steps pc.
Proof.
  unfold lasting, prescribed_dur, steps. destruct (SpecAram.sounding (token_of (cmd pc))).
  - intros (d & -> & Hd). unfold positive. replace (0 <? d) with true by lia. reflexivity.
  - intros ->. reflexivity.
Qed.
Lemma held_ties l : forall dur vs, vel_from false l -> Forall lasting l -> held (prescribed l dur vs) = tie_steps l.
Proof.
  induction l as [|pc l IH]; intros dur vs HV HL; [reflexivity|].
  destruct HV as (Hv & HV). inversion HL as [|? ? Hpc HL']; subst.
  cbn [prescribed held tie_steps ev_token ev_dur]. pose proof (lasting_steps dur pc Hpc) as Hs.
  unfold vel_rule in Hv. unfold bare_tie. unfold slide_cmd in HV. destruct (cmd pc); cbn [token_of] in *; try reflexivity.
  rewrite Hv. cbn [SpecAram.sounding] in Hs. rewrite Hs. f_equal. apply IH; assumption.
Qed.
Definition matches (s : slot) (x : strike) : Prop :=
  k_on x = s_onset s /\ k_slid x = negb (s_struck s) /\ k_steps x = s_steps s /\ k_ties x = s_ties s /\
  (s_struck s = true -> exists e, s_sustain s = Some e /\ 1 <= e <= 7 /\ 0 <= s_vel s <= 15 /\ k_vs x = Some (e * 16 + s_vel s)).
Definition nibbles (pc : pcmd) : Prop := in_range 0 7 (sustain pc) /\ in_range 0 15 (velocity pc).
Lemma slots_strikes l : forall last now prev dur vs, Forall lasting l -> Forall full l -> Forall nibbles l -> vel_from last l ->
  (if last then slid_to prev <> None else slid_to prev = None) ->
  Forall2 matches (slots_from now l) (strikes_from now prev (prescribed l dur vs)).
Proof.
  induction l as [|pc l IH]; intros last now prev dur vs HL HFu HN HV HP; [constructor|].
  inversion HL as [|? ? Hpc HL']; subst. inversion HFu as [|? ? Hfu HFu']; subst. inversion HN as [|? ? Hni HN']; subst.
  cbn [vel_from] in HV. destruct HV as (Hv & HV).
  cbn [prescribed slots_from strikes_from ev_token ev_dur ev_vs].
  pose proof (lasting_steps dur pc Hpc) as Hs. rewrite Hs.
  assert (HP' : if slide_cmd pc then slid_to (Some (token_of (cmd pc))) <> None else slid_to (Some (token_of (cmd pc))) = None).
  { rewrite slid_token. unfold slide_cmd. destruct (cmd pc); try reflexivity. discriminate. }
  specialize (IH (slide_cmd pc) (now + steps pc) (Some (token_of (cmd pc))) (prescribed_dur dur pc) (prescribed_vs vs pc) HL' HFu' HN' HV HP').
  apply Forall2_app; [|exact IH]. unfold vel_rule in Hv. unfold attack_of.
  assert (HE : slide_cmd pc = false -> held (prescribed l (prescribed_dur dur pc) (prescribed_vs vs pc)) = tie_steps l).
  { intros Hsl. rewrite Hsl in HV. now apply held_ties. }
  destruct (cmd pc) eqn:E; cbn [token_of]; try (rewrite Hv; constructor).
  - destruct (velocity pc) as [v|] eqn:Ev; [|congruence]. constructor; [|constructor].
    cbn [token_of SpecAram.sounding] in Hs. unfold slide_cmd in HE. rewrite E in HE. rewrite (HE eq_refl), Hs. unfold matches.
    cbn [k_on k_steps k_ties k_slid k_vs s_onset s_steps s_ties s_struck s_sustain s_vel is_note is_tnote negb].
    repeat (split; [reflexivity|]). intros _. unfold full in Hfu. unfold needs_dur in Hfu. rewrite E in Hfu.
    destruct Hfu as (F1 & F2); [left; reflexivity|]. rewrite Ev in F1. destruct Hni as (N1 & N2). rewrite Ev in N2.
    destruct (sustain pc) as [e|] eqn:Es; [|cbn in F2; congruence]. cbn [in_range] in N1, N2. unfold positive in F1, F2.
    destruct (0 <? v) eqn:E1; [|congruence]. destruct (0 <? e) eqn:E2; [|congruence].
    exists e. split; [reflexivity|]. split; [lia|]. split; [lia|].
    unfold prescribed_vs. rewrite Es, Ev, E. unfold positive. rewrite E1, E2. cbn [is_note].
    destruct (oelse vs (7, 13)) as [q0 v0]. reflexivity.
  - destruct last.
    + destruct (slid_to prev) as [p|]; [|congruence]. destruct (velocity pc) as [v|] eqn:Ev; [|congruence]. constructor; [|constructor].
      cbn [token_of SpecAram.sounding] in Hs. unfold slide_cmd in HE. rewrite E in HE. rewrite (HE eq_refl), Hs. unfold matches.
      cbn [k_on k_steps k_ties k_slid k_vs s_onset s_steps s_ties s_struck s_sustain s_vel is_note is_tnote negb].
      repeat (split; [reflexivity|]). discriminate.
    + rewrite Hv, HP. constructor.
Qed.

(** ** One converted voice *)
Lemma dur_ok_nibbles pc : dur_ok' pc -> nibbles pc.
Proof.
  intros [H|(p & d & Hc & Hd & Hr & (v & Hv & Hvr) & Hs & _)].
  - unfold dur_ok in H. unfold nibbles. destruct (cmd pc); [| | |destruct H as (_ & -> & -> & _); split; exact I..].
    + destruct H as (_ & (v & -> & Hv) & Hs & _). split; [exact Hs|exact Hv].
    + destruct H as (_ & -> & ->). split; exact I.
    + destruct H as (_ & Hv & Hs). split; assumption.
  - unfold nibbles. rewrite Hv. split; [exact Hs|exact Hvr].
Qed.

(** Commands without velocity have no sustain (notes have a velocity). *)
Definition sus_ok (pc : pcmd) : Prop := is_note (cmd pc) = false -> velocity pc = None -> sustain pc = None.
Lemma sus_plain cmds c : Forall sus_ok cmds -> Forall sus_ok (cmds ++ [plain_cmd c]).
Proof. intros H. apply Forall_app. split; [exact H|]. constructor; [intros _ _; reflexivity|constructor]. Qed.
Lemma sus_rests b cmds e t tpb cmds' e' : Forall sus_ok cmds -> insert_rest b cmds e t tpb = Ok (cmds', e') -> Forall sus_ok cmds'.
Proof.
  intros H0. unfold insert_rest. destruct (e <? t); [|intros [= <- _]; assumption].
  intros H. inv_bind H. inv_bind H. injection H as <- _.
  assert (Forall sus_ok (cmds ++ repeat (rest_cmd 0x7f) (Z.to_nat (overflow_count a)))).
  { apply Forall_app. split; [assumption|]. apply Forall_forall. intros x Hx. apply repeat_spec in Hx. subst. intros _ _. reflexivity. }
  destruct (0 <? d_length a); [|assumption]. apply Forall_app. split; [assumption|]. constructor; [intros _ _; reflexivity|constructor].
Qed.
Lemma sus_step b tpb tf s ev s' : Forall sus_ok (commands s) -> track_step b tpb tf s ev = Ok s' -> Forall sus_ok (commands s').
Proof.
  intros HI H. destruct ev as [m t]. cbn [track_step] in H. destruct m as [dt ev data|dt ev|dt ev data|].
  - destruct ev as [|kd]; cbn [on_meta] in H; [|injection H as <-; exact HI]. inv_bind H. injection H as <-. now apply sus_plain.
  - destruct ev as [ch k v|ch k v|ch k v|ch ctl d|ch p|ch p|ch d|ch]; try (injection H as <-; exact HI).
    + unfold on_note_off in H. destruct (note_start s); [|injection H as <-; exact HI].
      inv_bind H. inv_bind H. inv_bind H. inv_bind H. injection H as <-. cbn [commands]. apply Forall_app. split; [exact HI|].
      constructor; [discriminate 2|]. unfold overflow_ties. destruct (0 <? overflow_count a0); [|constructor]. apply Forall_app. split.
      * apply Forall_forall. intros x Hx. apply repeat_spec in Hx. subst. intros _ _. reflexivity.
      * constructor; [intros _ _; reflexivity|constructor].
    + unfold on_note_on in H. inv_bind H. destruct a as [c1 e]. inv_bind H. destruct (note_start s); [discriminate|]. injection H as <-. cbn [commands].
      pose proof (sus_rests _ _ _ _ _ _ _ HI Ha) as H1. unfold push_slide in Ha0.
      destruct (portamento s); [|injection Ha0 as <-; exact H1]. destruct (last_opt c1) as [lc|]; [|injection Ha0 as <-; exact H1].
      inv_bind Ha0. inv_bind Ha0. destruct (create_pitch_slide lc (d_length a0) a1) as [sl|] eqn:E; injection Ha0 as <-; [|exact H1].
      apply Forall_app. split; [exact H1|]. constructor; [|constructor]. unfold create_pitch_slide in E. intros _ _.
      destruct (cmd lc); try discriminate; destruct (duration lc); try discriminate; injection E as <-; reflexivity.
    + unfold on_control_change in H. destruct (ctl =? 5); [injection H as <-; exact HI|]. destruct (ctl =? 7).
      { inv_bind H. injection H as <-. now apply sus_plain. }
      destruct (ctl =? 37); [injection H as <-; exact HI|]. destruct (ctl =? 65); injection H as <-; exact HI.
    + unfold on_program_change in H. inv_bind H. destruct a as [c1 e]. inv_bind H. injection H as <-. cbn [commands].
      apply sus_plain. eapply sus_rests; eassumption.
  - injection H as <-; exact HI.
  - injection H as <-; exact HI.
Qed.
Lemma sus_pass n : forall l l', (length l <= n)%nat -> Forall sus_ok l -> sustain_pass l = Ok l' -> Forall sus_ok l'.
Proof.
  induction n as [|n IH]; intros l l' Hn Hl H.
  { destruct l; [|cbn in Hn; lia]. injection H as <-. exact Hl. }
  destruct l as [|c [|next l]]; [injection H as <-; exact Hl|injection H as <-; exact Hl|].
  rewrite sustain_pass_cons in H. inv_bind H. destruct a as [skip c']. inv_bind H. injection H as <-.
  inversion Hl as [|? ? Hc Hl']; subst. inversion Hl' as [|? ? Hnx Hl'']; subst.
  assert (Ha1 : Forall sus_ok a).
  { destruct skip; [eapply (IH l)|eapply (IH (next :: l))]; try eassumption; cbn in *; lia. }
  constructor; [|exact Ha1]. unfold set_sustain in Ha.
  destruct (cmd c); try (injection Ha as <- <-; exact Hc). destruct (cmd next); try (injection Ha as <- <-; exact Hc).
  inv_bind Ha. inv_bind Ha. cbv zeta in Ha. destruct (_ =? 0); [discriminate|]. destruct (_ || _); injection Ha as <- <-; [|exact Hc].
  discriminate 1.
Qed.
Lemma track_sus b events tpb mt tf tr : track_new b events tpb mt tf = Ok tr -> Forall sus_ok tr.
Proof.
  unfold track_new. intros H. inv_bind H.
  assert (A : Forall sus_ok (commands a)).
  { refine (ofold_inv (fun s => Forall sus_ok (commands s)) _ _ _ _ _ _ Ha); [|constructor].
    intros s x s' _ Hs Hx. eapply sus_step; eassumption. }
  destruct (commands a) as [|c0 cs] eqn:Ec; [injection H as <-; constructor|]. rewrite <- Ec in *. inv_bind H. destruct a0 as [c e].
  cbn [fst] in H. eapply sus_pass; [apply le_n| |exact H].
  destruct (last_note_end a <? mt); [eapply sus_rests; eassumption|]. injection Ha0 as <- _. exact A.
Qed.
Lemma slot_of l pc v : forall now, In pc l -> velocity pc = Some v ->
  exists s, In s (slots_from now l) /\ s_vel s = v /\ s_sustain s = sustain pc.
Proof.
  induction l as [|c l IH]; intros now Hin Hv; [contradiction|]. destruct Hin as [->|Hin]; cbn [slots_from].
  - rewrite Hv. eexists. split; [left; reflexivity|]. split; reflexivity.
  - destruct (IH (now + steps c) Hin Hv) as (s & H1 & H2). exists s. split; [|exact H2]. apply in_app_iff. now right.
Qed.
Lemma Forall2_in_l {A B} (R : A -> B -> Prop) l1 l2 x : Forall2 R l1 l2 -> In x l1 -> exists y, In y l2 /\ R x y.
Proof.
  induction 1 as [|a b l1 l2 Hab _ IH]; [contradiction|]. intros [->|Hin]; [exists b; split; [now left|assumption]|].
  destruct (IH Hin) as (y & H1 & H2). exists y. split; [now right|assumption].
Qed.
Lemma vel_note l : forall last pc, vel_from last l -> In pc l -> is_note (cmd pc) = true -> velocity pc <> None.
Proof.
  induction l as [|c l IH]; intros last pc HV Hin Hn; [contradiction|]. destruct HV as (Hc & Hl). destruct Hin as [->|Hin]; [|eapply IH; eassumption].
  unfold vel_rule in Hc. destruct (cmd pc); try discriminate. exact Hc.
Qed.
Lemma converted_full b events tpb mt tf tr : 1 <= tpb <= 65535 -> voice_ok tpb mt events ->
  (forall n, In n (notes_of events) -> 8 <= n_vel n) -> track_new b events tpb mt tf = Ok tr -> Forall full tr.
Proof.
  intros Hg HV Hvel H. pose proof (conversion_lasts b tpb tf events mt tr Hg HV H) as HL. apply Forall_forall. intros pc Hin Hn.
  assert (Hv : exists v, velocity pc = Some v).
  { destruct (velocity pc) as [v|] eqn:Ev; [eauto|]. exfalso. destruct Hn as [Hn|[Hn|Hn]].
    - exact (vel_note tr false pc (track_vel _ _ _ _ _ _ H) Hin Hn Ev).
    - destruct (is_note (cmd pc)) eqn:En; [exact (vel_note tr false pc (track_vel _ _ _ _ _ _ H) Hin En Ev)|].
      pose proof (track_sus _ _ _ _ _ _ H) as HS. rewrite Forall_forall in HS. rewrite (HS pc Hin En Ev) in Hn. now apply Hn.
    - rewrite Ev in Hn. now apply Hn. }
  destruct Hv as (v & Hv). destruct (slot_of tr pc v 0 Hin Hv) as (s & Hs & S1 & S2).
  destruct (Forall2_in_l _ _ _ _ HL Hs) as (n & Hnn & (_ & L1 & k & _ & L2 & _)). specialize (Hvel n Hnn).
  rewrite Hv, <- S2. rewrite <- S1, L1. unfold positive. split.
  - replace (0 <? n_vel n / 8) with true by lia. discriminate.
  - unfold sounds_for in L2. destruct L2 as [(-> & _)|[(_ & _ & e & -> & He & _)|(_ & _ & -> & _)]]; try discriminate.
    replace (0 <? e) with true by lia. discriminate.
Qed.

Lemma converted_strikes b events tpb mt tf tr prev : 1 <= tpb <= 65535 -> voice_ok tpb mt events ->
  (forall n, In n (notes_of events) -> 8 <= n_vel n) -> track_new b events tpb mt tf = Ok tr -> slid_to prev = None ->
  Forall2 (fun x n => heard_fully tpb (tolerance tpb (length events)) x (n_on n) (n_off n) (n_key n) (n_vel n))
    (strikes_from 0 prev (prescribed tr None None)) (notes_of events).
Proof.
  intros Hg HV Hvel H Hp. pose proof (conversion_lasts b tpb tf events mt tr Hg HV H) as HL.
  pose proof (converted_attacks b events tpb mt tf tr prev Hg HV H Hp) as HA. rewrite attacks_strikes in HA.
  destruct (track_converts b tpb tf events mt Hg HV) as (tr' & H' & _ & _ & Hd). rewrite H in H'. injection H' as <-.
  assert (HM : Forall2 matches (slots tr) (strikes_from 0 prev (prescribed tr None None))).
  { apply (slots_strikes tr false); [| | |exact (track_vel _ _ _ _ _ _ H)|exact Hp].
    - eapply Forall_impl; [|exact Hd]. exact dur_ok_lasting.
    - eapply converted_full; eassumption.
    - eapply Forall_impl; [|exact Hd]. exact dur_ok_nibbles. }
  revert HL HM HA. generalize (slots tr) (strikes_from 0 prev (prescribed tr None None)) (notes_of events).
  intros ss xs ns HL. revert xs. induction HL as [|s n ss ns Hl _ IH]; intros xs HM HA; inversion HM as [|? x ? xs' Hm HM']; subst; [constructor|].
  cbn [map] in HA. inversion HA as [|? ? ? ? Ha HA']; subst. constructor; [|apply IH; assumption].
  destruct Hm as (M1 & M2 & M3 & M4 & M5). destruct Hl as (L1 & L2 & k & L3 & L4 & L5). destruct Ha as (A1 & A2).
  cbn [fst snd] in A1, A2. split; [exact A1|]. split; [exact A2|]. exists k. split; [exact L3|]. rewrite M1. split; [exact L5|].
  rewrite M2. destruct (s_struck s) eqn:Est; cbn [negb].
  - destruct (M5 eq_refl) as (e & E1 & E2 & E3 & E4). exists (e * 16 + s_vel s). split; [exact E4|].
    replace ((e * 16 + s_vel s) mod 16) with (s_vel s) by lia. replace ((e * 16 + s_vel s) / 16) with e by lia.
    split; [exact L2|]. rewrite M3, M4. unfold sounds_for in *. cbn [s_onset s_struck s_steps s_vel s_sustain s_ties]. rewrite E1, Est in L4. exact L4.
  - rewrite M3, M4. destruct L4 as [(_ & L4)|[(L4 & _)|(L4 & _)]]; congruence.
Qed.

(** ** A whole song *)
Lemma frame_strikes s n i pre es : parts s = [seq 0 n] -> (i < n)%nat -> frame_cmds s i pre ->
  exists prev, slid_to prev = None /\ strikes (control_events pre ++ es) = strikes_from 0 prev es.
Proof.
  intros Hp Hi (H1 & H2 & _). rewrite Hp in *. destruct i as [|i].
  - rewrite H1; [|exists (seq 1 (n - 1)); destruct n; [lia|left; cbn [seq Nat.sub]; now rewrite Nat.sub_0_r]].
    exists (Some (TControl 0xed [0xc8])). split; reflexivity.
  - rewrite H2.
    + exists (Some (TControl 0xed [0xc8])). split; reflexivity.
    + intros q [Hq|[]]. destruct n; [lia|]. cbn [seq] in Hq. discriminate.
    + exists (seq 0 n). split; [now left|]. apply in_seq. lia.
Qed.
(** Loop calls leave no velocity behind that changes a later note. *)
Definition loud_ok (loud : bool) (opt : bool) (s : song) (trs : list track) : Prop :=
  loud = true -> Forall (Forall full) trs /\ (opt = true -> Forall (velocity_safe (tracks s)) (tracks s)).
Lemma free_safe song tr : loop_free tr -> velocity_safe song tr.
Proof.
  intros Hfree x n1 mid n2 y Ex _ _ _ pc t k body Hin Ec _. exfalso. unfold loop_free in Hfree. rewrite Forall_forall in Hfree.
  eapply (Hfree pc); [|exact Ec]. rewrite Ex. apply in_app_iff. right. right. apply in_app_iff. left. exact Hin.
Qed.
Lemma song_events loud b voices tpb mt n tf opt s trs mem a lp at_ :
  song_from_midi b voices tpb mt tf opt = Ok s -> (length voices <= 8)%nat -> 1 <= tpb <= 65535 -> voices_ok tpb mt n voices ->
  voice_tracks b voices tpb mt tf trs -> Forall seven_bit trs -> (opt = true -> keeps_music trs (tracks s)) ->
  loud_ok loud opt s trs -> song_in mem a lp s at_ -> mem 0 = None ->
  exists ess, song_plays mem a (ess ++ repeat [] (8 - length trs)) /\ parts s = [seq 0 (length trs)] /\
    Forall2 (fun es tr => exists i pre es', (i < length trs)%nat /\ frame_cmds s i pre /\ es = control_events pre ++ es' /\
      map (heard loud) es' = map (heard loud) (prescribed tr None None)) ess trs.
Proof.
  intros H Hv8 Hg HV Htr Hsh Hopt Hloud Hin H0.
  destruct Htr as (ts & HF & Etrs).
  assert (Hconv : exists trs', voice_tracks b voices tpb mt tf trs' /\ (length trs' <= length voices)%nat /\ parts s = [seq 0 (length trs')] /\
     (opt = false -> tracks s = trs') /\ (opt = true -> optimize_call_loops b trs' (length trs') = Ok (tracks s))).
  { unfold song_from_midi in H. inv_bind H. cbv zeta in H. apply convert_voices_spec in Ha. exists a0.
    split; [exact Ha|]. split; [exact (voice_tracks_length _ _ _ _ _ _ Ha)|].
    destruct opt.
    - inv_bind H. injection H as <-. cbn [parts tracks]. split; [reflexivity|]. split; [discriminate|]. intros _. exact Ha0.
    - injection H as <-. cbn [parts tracks]. split; [reflexivity|]. split; [reflexivity|discriminate]. }
  destruct Hconv as (trs' & (ts' & HF' & Etrs') & Hlen & Hpart & Hf & Ht).
  assert (ts' = ts).
  { clear - HF HF'. revert ts' HF'. induction HF as [|v t vs ts0 E _ IH]; intros ts' HF'; inversion HF' as [|? ? ? ? E' HF'']; subst; [reflexivity|].
    rewrite E in E'. injection E' as <-. f_equal. now apply IH. }
  subst ts'. rewrite <- Etrs in Etrs'. clear HF'. rewrite Etrs' in *. clear trs' Etrs'.
  assert (HP : Forall (fun tr : track => tr <> [] /\ Forall playable tr /\ loop_free tr) trs).
  { rewrite Etrs in *. clear - HF HV Hg Hsh. revert HV Hsh. induction HF as [|v t vs ts E _ IH]; intros HV Hsh; [constructor|].
    inversion HV as [|? ? (Hv1 & Hv2 & Hv3) HV']; subst. cbn [filter] in *. destruct t as [|c t]; [apply IH; assumption|].
    inversion Hsh as [|? ? Hs1 Hs2]; subst. constructor; [|apply IH; assumption]. split; [discriminate|].
    exact (converted_playable b v tpb mt tf (c :: t) Hg Hv1 Hv3 E Hs1). }
  assert (Hfree : Forall loop_free trs) by (eapply Forall_impl; [|exact HP]; intros ? (? & ? & ?); assumption).
  assert (Hplay : Forall (fun tr : track => Forall playable tr) trs) by (eapply Forall_impl; [|exact HP]; intros ? (? & ? & ?); assumption).
  assert (Hshape : well_formed_loops (length trs) (tracks s) /\ (length trs <= length (tracks s))%nat /\
     Forall (fun tr : track => Forall playable tr) (tracks s) /\
     (loud = true -> Forall (Forall full) (tracks s) /\ forall i tr, (i < length trs)%nat -> nth_error (tracks s) i = Some tr -> velocity_safe (tracks s) tr) /\
     forall i o, nth_error trs i = Some o -> exists tr, nth_error (tracks s) i = Some tr /\ plays_as (tracks s) tr o).
  { destruct opt.
    - specialize (Ht eq_refl). split; [now apply (optimize_wfl b)|]. split; [now apply (optimize_top b)|]. split; [now apply (optimize_playable b trs)|].
      split.
      { intros El. destruct (Hloud El) as (L1 & L2). split; [eapply optimize_full; eassumption|]. intros i tr _ Hi.
        specialize (L2 eq_refl). rewrite Forall_forall in L2. eapply L2, nth_error_In; exact Hi. }
      intros i o Ho. apply (Hopt eq_refl); exact Ho.
    - rewrite (Hf eq_refl). split; [now apply free_wfl|]. split; [lia|]. split; [exact Hplay|]. split.
      { intros El. destruct (Hloud El) as (L1 & L2). split; [exact L1|]. intros i tr _ Hi. apply free_safe.
        rewrite Forall_forall in Hfree. eapply Hfree, nth_error_In; exact Hi. }
      intros i o Ho. exists o. split; [exact Ho|].
      apply plays_free. rewrite Forall_forall in Hfree. eapply Hfree, nth_error_In; exact Ho. }
  destruct Hshape as (Hw & Hl & Hpl & Hfu & Hsame).
  destruct (finite_choice (fun i es => voice_plays mem (nth i at_ 0) es /\ exists o pre es', nth_error trs i = Some o /\ frame_cmds s i pre /\
     es = control_events pre ++ es' /\ map (heard loud) es' = map (heard loud) (prescribed o None None)) (length trs)) as (ess & Hel & Hess).
  { intros i Hi. destruct (nth_error trs i) as [o|] eqn:Eo; [|apply nth_error_None in Eo; lia].
    destruct (Hsame i o Eo) as (tr & Et & Hpa).
    assert (Hne : tr <> []).
    { intros ->. inversion Hpa; subst. rewrite Forall_forall in HP. apply nth_error_In in Eo. destruct (HP _ Eo) as [Hx _]. now apply Hx. }
    assert (Hshp : SpecAram.song_shape (length trs) s).
    { split; [exact Hl|]. split; [exact Hw|]. rewrite Hpart. intros p [<-|[]]. split.
      + destruct (length trs); [lia|discriminate].
      + apply Forall_forall. intros t Hin'. apply in_seq in Hin'. lia. }
    destruct (track_heard_shape loud mem a lp s at_ (length trs) i tr o Hin Hshp Hpl) as (pre & es & st & C1 & C2 & C3); try assumption.
    { intros El. destruct (Hfu El) as (F1 & F2). split; [exact F1|]. eapply F2; eassumption. }
    exists (control_events pre ++ es). split.
    - unfold voice_plays. replace (nth i at_ 0 =? 0) with false; [eauto|]. symmetry. apply Z.eqb_neq. eapply run_somewhere; eassumption.
    - exists o, pre, es. auto. }
  exists ess. split; [|split; [exact Hpart|]].
  - exists (a + header_size lp). split; [apply (si_header _ _ _ _ _ Hin)|]. split; [rewrite app_length, repeat_length; lia|].
    destruct (si_part _ _ _ _ _ Hin) as (part & Ep & Hw8). rewrite Hpart in Ep. injection Ep as <-. intros k es Ek.
    assert (Hk : (k < 8)%nat). { apply nth_error_lt in Ek. rewrite app_length, repeat_length in Ek. lia. }
    eexists. split; [exact (Hw8 k Hk)|].
    destruct (Nat.lt_ge_cases k (length trs)) as [Hk'|Hk'].
    + rewrite nth_error_app1 in Ek by lia. destruct (Hess k es Ek) as (Hp1 & _).
      rewrite (nth_error_nth' (seq 0 (length trs)) 0%nat) by (rewrite seq_length; lia). rewrite seq_nth by lia. exact Hp1.
    + rewrite nth_error_app2 in Ek by lia. rewrite (proj2 (nth_error_None (seq 0 (length trs)) k)) by (rewrite seq_length; lia).
      apply nth_error_In, repeat_spec in Ek. exact Ek.
  - apply forall2_nth; [exact Hel|]. intros i e o Ee Eo. destruct (Hess i e Ee) as (_ & o' & pre & es' & Eo' & E2 & E3 & E4).
    assert (Eq : Some o' = Some o) by (rewrite <- Eo'; exact Eo). injection Eq as ->. exists i, pre, es'.
    split; [eapply nth_error_lt; exact Eo|]. auto.
Qed.
Lemma heard_fully_mono tpb t1 t2 x on off key vel : t1 <= t2 -> heard_fully tpb t1 x on off key vel -> heard_fully tpb t2 x on off key vel.
Proof. intros Ht (H1 & H2 & k & H3 & H4 & H5). split; [lia|]. split; [exact H2|]. exists k. split; [exact H3|]. split; [lia|exact H5]. Qed.
Lemma heard_fully_same tpb tol x y on off key vel : same_strike x y -> heard_fully tpb tol y on off key vel -> heard_fully tpb tol x on off key vel.
Proof.
  intros (S1 & S2 & S3 & S4 & S5 & S6) (H1 & H2 & k & H3 & H4 & H5). split; [now rewrite S1|]. split; [now rewrite S2|].
  exists k. split; [exact H3|]. split; [now rewrite S1|]. rewrite S5, S1, S3, S4 in *. destruct (k_slid y) eqn:Ek; [exact H5|].
  rewrite (S6 eq_refl). exact H5.
Qed.
Lemma forall2_impl {A B} (P Q : A -> B -> Prop) : (forall x y, P x y -> Q x y) -> forall l1 l2, Forall2 P l1 l2 -> Forall2 Q l1 l2.
Proof. intros H l1 l2 HF. induction HF; constructor; auto. Qed.
Lemma song_fully b voices tpb mt n tf opt s trs mem a lp at_ :
  song_from_midi b voices tpb mt tf opt = Ok s -> (length voices <= 8)%nat -> 1 <= tpb <= 65535 -> voices_ok tpb mt n voices ->
  voice_tracks b voices tpb mt tf trs -> Forall seven_bit trs ->
  (forall v x, In v voices -> In x (notes_of v) -> 8 <= n_vel x) ->
  (opt = true -> keeps_music trs (tracks s) /\ Forall (velocity_safe (tracks s)) (tracks s)) ->
  song_in mem a lp s at_ -> mem 0 = None ->
  exists ess, song_plays mem a ess /\
    Forall2 (fun x v => heard_fully tpb (tolerance tpb n) x (n_on v) (n_off v) (n_key v) (n_vel v))
      (flat_map strikes ess) (flat_map notes_of voices).
Proof.
  intros H Hv8 Hg HV Htr Hsh Hvel Hopt Hin H0.
  assert (HFu : Forall (Forall full) trs).
  { destruct Htr as (ts & HF & ->). clear - HF HV Hg Hvel. revert HV Hvel. induction HF as [|v t vs ts E _ IH]; intros HV Hvel; [constructor|].
    inversion HV as [|? ? (Hv1 & Hv2 & Hv3) HV']; subst. cbn [filter].
    assert (Ht : Forall full t) by (eapply converted_full; [exact Hg|exact Hv1|intros x; apply Hvel; now left|exact E]).
    assert (IH' := IH HV' ltac:(intros v' x Hi; apply Hvel; now right)). destruct t; [exact IH'|constructor; assumption]. }
  destruct (song_events true b voices tpb mt n tf opt s trs mem a lp at_ H Hv8 Hg HV Htr Hsh) as (ess & Hp & Hpart & Hess); try assumption.
  { intros Eo. now apply Hopt. }
  { intros _. split; [exact HFu|]. intros Eo. now apply Hopt. }
  exists (ess ++ repeat [] (8 - length trs)). split; [exact Hp|].
  rewrite flat_map_app. assert (Er : forall m, flat_map strikes (repeat [] m) = []) by (induction m; [reflexivity|exact IHm]).
  rewrite Er, app_nil_r. clear Er Hp.
  assert (Hall : Forall2 (fun es (tr : track) => exists prev, slid_to prev = None /\
      Forall2 same_strike (strikes es) (strikes_from 0 prev (prescribed tr None None))) ess trs).
  { eapply forall2_impl; [|exact Hess]. intros es tr (i & pre & es' & Hi & Hf & -> & E).
    destruct (frame_strikes s (length trs) i pre es' Hpart Hi Hf) as (prev & Hs & ->). exists prev. split; [exact Hs|]. now apply strikes_heard. }
  clear Hess. destruct Htr as (ts & HF & ->). clear - HF HV Hg Hvel Hall. revert ess HV Hvel Hall.
  induction HF as [|v t vs ts E _ IH]; intros ess HV Hvel Hall.
  { cbn [filter] in Hall. inversion Hall; subst. constructor. }
  inversion HV as [|? ? (Hv1 & Hv2 & Hv3) HV']; subst.
  assert (Hc : forall prev, slid_to prev = None ->
     Forall2 (fun x n0 => heard_fully tpb (tolerance tpb n) x (n_on n0) (n_off n0) (n_key n0) (n_vel n0)) (strikes_from 0 prev (prescribed t None None)) (notes_of v)).
  { intros prev Hs. eapply forall2_impl; [|eapply converted_strikes; [exact Hg|exact Hv1|intros x; apply Hvel; now left|exact E|exact Hs]].
    intros x y Hx. eapply heard_fully_mono; [|exact Hx]. now apply tolerance_mono. }
  assert (Hvel' : forall v' x, In v' vs -> In x (notes_of v') -> 8 <= n_vel x) by (intros v' x Hi; apply Hvel; now right).
  cbn [filter flat_map] in *. destruct t as [|c t].
  - specialize (Hc None eq_refl). cbn [prescribed strikes_from] in Hc. destruct (notes_of v); [|inversion Hc]. cbn [app]. now apply IH.
  - inversion Hall as [|es ? ess' ? (prev & Hs & Hsame) Hall']; subst. cbn [flat_map]. apply Forall2_app; [|now apply IH].
    specialize (Hc prev Hs). clear - Hc Hsame. revert Hc. generalize (notes_of v). induction Hsame as [|x y l1 l2 Hxy _ IH]; intros l Hc; inversion Hc; subst; constructor; auto.
    eapply heard_fully_same; eassumption.
Qed.

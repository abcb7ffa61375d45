(** ControlProofs.v: proofs for PropControl.v. *)
From Coq Require Import Lia Psatz.
From Verif Require Import Base F32 Messages Command Track ProofLib SpecTime SpecVoice SpecControl SplitProofs TrackProofs SlideProofs.
Open Scope list_scope.

Lemma instrument_table p : 0 <= p < 128 -> nth_error INSTRUMENT_MAP (Z.to_nat p) = Some (instrument_of_program p).
Proof.
  intros H. unfold instrument_of_program.
  assert (E : flat_map (fun r => repeat (snd r) (fst r)) program_runs = INSTRUMENT_MAP) by (vm_compute; reflexivity).
  rewrite E. apply nth_error_nth'. change (length INSTRUMENT_MAP) with 128%nat. lia.
Qed.

Definition neutral (pc : pcmd) : Prop := is_control (cmd pc) = false /\ velocity pc = None.
Definition rest_silent (pc : pcmd) : Prop := cmd pc = Rest -> velocity pc = None.

Lemma outline_app a b : track_outline (a ++ b) = track_outline a ++ track_outline b.
Proof. apply flat_map_app. Qed.
Lemma timed_app a b : forall now, timed_controls now (a ++ b) = timed_controls now a ++ timed_controls (now + total_steps a) b.
Proof.
  induction a as [|c a IH]; intros now; cbn [app timed_controls].
  - change (total_steps []) with 0. now rewrite Z.add_0_r.
  - rewrite IH, <- app_assoc. do 3 f_equal. change (total_steps (c :: a)) with (steps c + total_steps a). lia.
Qed.
Lemma neutral_outline l : Forall neutral l -> track_outline l = [] /\ forall now, timed_controls now l = [].
Proof.
  induction 1 as [|c l (H1 & H2) _ (IH1 & IH2)]; [split; reflexivity|]. split.
  - unfold track_outline in *. cbn [flat_map]. now rewrite IH1, H1, H2.
  - intros now. cbn [timed_controls]. now rewrite H1, IH2.
Qed.
Lemma neutral_silent l : Forall neutral l -> Forall rest_silent l.
Proof. apply Forall_impl. intros c (_ & H) _. exact H. Qed.

Lemma insert_rest_neutral b cmds e t tpb cmds' e' :
  insert_rest b cmds e t tpb = Ok (cmds', e') -> exists l, cmds' = cmds ++ l /\ Forall neutral l.
Proof.
  unfold insert_rest. destruct (e <? t); [|intros [= <- _]; exists []; rewrite app_nil_r; split; [reflexivity|constructor]].
  intros H. inv_bind H. inv_bind H. injection H as <- _.
  destruct (0 <? d_length a).
  - eexists. rewrite <- app_assoc. split; [reflexivity|]. apply Forall_app. split; [|repeat constructor].
    apply Forall_forall. intros x Hx. apply repeat_spec in Hx. now subst.
  - eexists. split; [reflexivity|]. apply Forall_forall. intros x Hx. apply repeat_spec in Hx. now subst.
Qed.
Lemma push_slide_neutral b s cmds k tpb cmds' :
  push_slide b s cmds k tpb = Ok cmds' -> exists l, cmds' = cmds ++ l /\ Forall neutral l.
Proof.
  unfold push_slide. destruct (portamento s); [|intros [= <-]; exists []; rewrite app_nil_r; auto].
  destruct (last_opt cmds) as [lc|]; [|intros [= <-]; exists []; rewrite app_nil_r; auto].
  intros H. inv_bind H. inv_bind H.
  destruct (create_pitch_slide lc (d_length a) a0) as [sl|] eqn:E; injection H as <-; [|exists []; rewrite app_nil_r; auto].
  exists [sl]. split; [reflexivity|]. constructor; [|constructor].
  unfold create_pitch_slide in E. destruct (duration lc) as [d|].
  - destruct (cmd lc); try discriminate; injection E as <-; split; reflexivity.
  - destruct (cmd lc); discriminate.
Qed.

Definition vel_open (s : tstate) : option Z := match note_start s with Some _ => Some (note_velocity s) | None => None end.

(** What one event appends. *)
Lemma step_outline b tpb tf s m t s' : midi_valid m -> track_step b tpb tf s (m, t) = Ok s' ->
  exists l, commands s' = commands s ++ l /\
    (forall r, track_outline l ++ outline_from tf (vel_open s') r = outline_from tf (vel_open s) ((m, t) :: r)) /\
    Forall rest_silent l /\
    (forall now, timed_controls now l = match control_of tf m with Some c => [(now + total_steps l, c)] | None => [] end).
Proof.
  intros Hm H.
  assert (Hsame : forall s' : tstate, commands s' = commands s -> vel_open s' = vel_open s ->
    (forall r, outline_from tf (vel_open s) ((m, t) :: r) = outline_from tf (vel_open s) r) -> control_of tf m = None ->
    exists l, commands s' = commands s ++ l /\
    (forall r, track_outline l ++ outline_from tf (vel_open s') r = outline_from tf (vel_open s) ((m, t) :: r)) /\
    Forall rest_silent l /\
    (forall now, timed_controls now l = match control_of tf m with Some c => [(now + total_steps l, c)] | None => [] end)).
  { intros s0 H1 H2 H3 H4. exists []. rewrite app_nil_r, H1, H2, H4. repeat split; auto. intros r. now rewrite H3. }
  assert (Hone : forall c, control_of tf m = Some c -> is_control c = true ->
    exists l, commands s ++ [plain_cmd c] = commands s ++ l /\
    (forall r, track_outline l ++ outline_from tf (vel_open s) r = outline_from tf (vel_open s) ((m, t) :: r)) /\
    Forall rest_silent l /\
    (forall now, timed_controls now l = match control_of tf m with Some c => [(now + total_steps l, c)] | None => [] end)).
  { intros c Hc Hi. exists [plain_cmd c]. split; [reflexivity|]. cbn [outline_from]. rewrite Hc. split; [|split].
    - intros r. unfold track_outline. cbn [flat_map plain_cmd cmd]. rewrite Hi. reflexivity.
    - repeat constructor.
    - intros now. cbn [timed_controls plain_cmd cmd]. rewrite Hi. cbn [app].
      change (total_steps [mk_pcmd None None None c]) with 0. now rewrite Z.add_0_r. }
  cbn [track_step] in H. destruct m as [dt ev data|dt ev|dt ev data|].
  - destruct ev as [|kd]; cbn [on_meta] in H.
    + cbn [midi_valid] in Hm. destruct data as [|d0 [|d1 [|d2 data]]]; cbn [length] in Hm; try lia.
      cbn [usec_of_data nth_error or_panic bind] in H. injection H as <-. cbn [set_commands commands].
      replace (d0 * 0x10000 + d1 * 0x100 + d2) with (65536 * d0 + 256 * d1 + d2) by lia. now apply Hone.
    + injection H as <-. apply Hsame; reflexivity.
  - destruct ev as [ch k v|ch k v|ch k v|ch ctl d|ch p|ch p|ch d|ch].
    + unfold on_note_off in H. destruct (note_start s) as [st|] eqn:Est.
      * inv_bind H. inv_bind H. inv_bind H. inv_bind H. injection H as <-. cbn [commands].
        eexists. split; [reflexivity|].
        assert (Hties : forall n len, Forall neutral (overflow_ties n len)).
        { intros n len. unfold overflow_ties. destruct (0 <? n); [|constructor]. apply Forall_app. split; [|repeat constructor].
          apply Forall_forall. intros x Hx. apply repeat_spec in Hx. subst x. split; reflexivity. }
        assert (Hc : is_control a1 = false /\ a1 <> Rest).
        { destruct (match last_opt (commands s) with Some c => is_slide c | None => false end).
          - injection Ha1 as <-. split; [reflexivity|discriminate].
          - inv_bind Ha1. injection Ha1 as <-. split; [reflexivity|discriminate]. }
        destruct Hc as (Hc1 & Hc2). unfold vel_open. rewrite Est. cbn [note_start].
        match goal with |- context [overflow_ties ?n ?len] => pose proof (Hties n len) as HT; destruct (neutral_outline _ HT) as (T1 & T2) end.
        split; [|split].
        -- intros r. unfold track_outline in *. cbn [flat_map cmd velocity]. rewrite Hc1, T1. reflexivity.
        -- constructor; [intros E; cbn [cmd] in E; contradiction|now apply neutral_silent].
        -- intros now. cbn [timed_controls cmd control_of]. rewrite Hc1, T2. reflexivity.
      * injection H as <-. apply Hsame; try reflexivity. intros r. unfold vel_open. rewrite Est. reflexivity.
    + unfold on_note_on in H. inv_bind H. destruct a as [c1 e]. inv_bind H. destruct (note_start s) eqn:Est; [discriminate|].
      injection H as <-. cbn [commands]. apply insert_rest_neutral in Ha. destruct Ha as (l1 & -> & H1).
      apply push_slide_neutral in Ha0. destruct Ha0 as (l2 & -> & H2). exists (l1 ++ l2). split; [now rewrite app_assoc|].
      assert (HN : Forall neutral (l1 ++ l2)) by (apply Forall_app; auto).
      destruct (neutral_outline _ HN) as (T1 & T2). unfold vel_open. rewrite Est. cbn [note_start note_velocity].
      split; [intros r; rewrite T1; reflexivity|]. split; [now apply neutral_silent|]. intros now. rewrite T2. reflexivity.
    + injection H as <-. apply Hsame; reflexivity.
    + cbn [midi_valid] in Hm. unfold on_control_change in H.
      destruct (Z.eqb_spec ctl 5) as [->|]; [injection H as <-; apply Hsame; reflexivity|].
      destruct (Z.eqb_spec ctl 7) as [->|].
      { rewrite arith_exact in H by lia. cbn [bind] in H. injection H as <-. cbn [set_commands commands].
        replace (d * 2) with (2 * d) by lia. now apply Hone. }
      assert (E7 : (ctl =? 7) = false) by lia.
      assert (Hn : control_of tf (MidiEvent dt (ControlChange ch ctl d)) = None) by (cbn [control_of]; now rewrite E7).
      destruct (ctl =? 37); [injection H as <-; apply Hsame; auto; intros r; cbn [outline_from]; rewrite Hn; reflexivity|].
      destruct (ctl =? 65); injection H as <-; apply Hsame; auto; intros r; cbn [outline_from]; rewrite Hn; reflexivity.
    + cbn [midi_valid] in Hm. unfold on_program_change in H. inv_bind H. destruct a as [c1 e]. rewrite instrument_table in H by lia.
      assert (Hi : (if ch =? 9 then Ok p else or_panic PIndex (Some (instrument_of_program p))) = Ok (if ch =? 9 then p else instrument_of_program p))
        by (destruct (ch =? 9); reflexivity).
      rewrite Hi in H. cbn [bind] in H. injection H as <-. cbn [commands].
      apply insert_rest_neutral in Ha. destruct Ha as (l1 & -> & H1). destruct (neutral_outline _ H1) as (T1 & T2).
      eexists. rewrite <- app_assoc. split; [reflexivity|]. split; [|split].
      * intros r. rewrite outline_app, T1. reflexivity.
      * apply Forall_app. split; [now apply neutral_silent|]. constructor; [intros E; reflexivity|constructor].
      * intros now. rewrite timed_app, T2. cbn [timed_controls plain_cmd cmd is_control control_of app]. rewrite total_steps_app.
        change (total_steps [mk_pcmd None None None (SetInstrument (if ch =? 9 then p else instrument_of_program p))]) with 0.
        now rewrite Z.add_0_r.
    + injection H as <-. apply Hsame; reflexivity.
    + injection H as <-. apply Hsame; reflexivity.
    + injection H as <-. apply Hsame; reflexivity.
  - injection H as <-. apply Hsame; reflexivity.
  - injection H as <-. apply Hsame; reflexivity.
Qed.

Lemma loop_outline b tpb tf events : forall s s', Forall (fun ev => midi_valid (fst ev)) events ->
  ofold (track_step b tpb tf) events s = Ok s' -> Forall rest_silent (commands s) ->
  track_outline (commands s') = track_outline (commands s) ++ outline_from tf (vel_open s) events /\
  Forall rest_silent (commands s').
Proof.
  induction events as [|[m t] r IH]; intros s s' Hv H Hs; cbn [ofold] in H.
  - injection H as <-. cbn [outline_from]. rewrite app_nil_r. auto.
  - inv_bind H. inversion Hv as [|? ? Hv1 Hv2]; subst.
    destruct (step_outline b tpb tf s m t a) as (l & H1 & H2 & H3 & _); auto.
    destruct (IH a s') as (I1 & I2); auto.
    { rewrite H1. apply Forall_app; auto. }
    split; [|assumption]. rewrite I1, H1, outline_app, <- app_assoc, H2. reflexivity.
Qed.

Lemma sustain_outline n : forall l l', (length l <= n)%nat -> Forall rest_silent l -> sustain_pass l = Ok l' ->
  track_outline l' = track_outline l.
Proof.
  induction n as [|n IH]; intros l l' Hn Hl H.
  { destruct l; [|cbn in Hn; lia]. injection H as <-. reflexivity. }
  destruct l as [|c [|next l]]; [injection H as <-; reflexivity|injection H as <-; reflexivity|].
  rewrite sustain_pass_cons in H. inv_bind H. destruct a as [skip c']. inv_bind H. injection H as <-.
  inversion Hl as [|? ? Hc Hl1]; subst. inversion Hl1 as [|? ? Hnx Hl2]; subst.
  assert (Hcase : (skip = false /\ c' = c) \/ (skip = true /\ cmd next = Rest /\ cmd c' = cmd c /\ velocity c' = velocity c)).
  { unfold set_sustain in Ha. destruct (cmd c) eqn:Ec; try (injection Ha as <- <-; auto; fail).
    destruct (cmd next); try (injection Ha as <- <-; auto; fail).
    inv_bind Ha. inv_bind Ha. destruct (_ =? 0); [discriminate|]. destruct (_ || _); injection Ha as <- <-; auto. }
  unfold track_outline in *. cbn [flat_map]. destruct Hcase as [(-> & ->)|(-> & E1 & E2 & E3)].
  - specialize (IH (next :: l) a ltac:(cbn in *; lia) Hl1 Ha0). cbn [flat_map] in IH. now rewrite IH.
  - rewrite (IH l a ltac:(cbn in *; lia) Hl2 Ha0), E2, E3, E1, (Hnx E1). reflexivity.
Qed.

Theorem track_outline_kept b events tpb mt tf tr :
  Forall (fun ev => midi_valid (fst ev)) events -> track_new b events tpb mt tf = Ok tr ->
  track_outline tr = outline_of tf events.
Proof.
  intros Hv H. unfold track_new in H. inv_bind H.
  destruct (loop_outline _ _ _ _ _ _ Hv Ha) as (A & B); [constructor|]. cbn [tstate0 commands] in A. cbn [track_outline flat_map app] in A.
  change (vel_open tstate0) with (@None Z) in A. fold (outline_of tf events) in A.
  destruct (commands a) as [|c0 cs] eqn:Ec; [injection H as <-; exact A|]. rewrite <- Ec in *.
  inv_bind H. rewrite <- A.
  assert (HX : exists l, fst a0 = commands a ++ l /\ Forall neutral l).
  { destruct (last_note_end a <? mt).
    - destruct a0 as [c1 e]. apply insert_rest_neutral in Ha0. exact Ha0.
    - injection Ha0 as <-. exists []. rewrite app_nil_r. auto. }
  destruct HX as (l & El & Hl). rewrite El in H.
  assert (HS : Forall rest_silent (commands a ++ l)) by (apply Forall_app; split; [exact B|now apply neutral_silent]).
  rewrite (sustain_outline _ _ _ (le_n _) HS H), outline_app.
  destruct (neutral_outline l Hl) as (-> & _). apply app_nil_r.
Qed.

(** ** When *)
Definition is_open (open : option (Z * Z)) : bool := match open with Some _ => true | None => false end.
Definition next_prev (prev : Z) (open : option (Z * Z)) (ev : tmsg) : Z :=
  if anchors (is_open open) (fst ev) then snd ev else prev.
Definition next_open (open : option (Z * Z)) (ev : tmsg) : option (Z * Z) :=
  match ev with
  | (MidiEvent _ (NoteOn _ k _), t) => Some (t, k)
  | (MidiEvent _ (NoteOff _ _ _), _) => None
  | _ => open
  end.

Definition next_fin (fin : option Z) (open : option (Z * Z)) (ev : tmsg) : option Z :=
  match ev, open with
  | (MidiEvent _ (NoteOff _ _ _), t), Some _ => Some t
  | _, _ => fin
  end.

(** One event keeps the timing invariant. *)
Lemma tinv_step b tpb tol tf mt : ppq_ok tpb -> forall m t r D prev fin open s done,
  voice_from tpb mt prev fin open ((m, t) :: r) -> tinv tpb tol D prev fin open s done -> tpb + D <= tol -> tpb + loss tpb <= tol ->
  exists s' done', track_step b tpb tf s (m, t) = Ok s' /\
    tinv tpb tol (D + loss tpb) (next_prev prev open (m, t)) (next_fin fin open (m, t)) (next_open open (m, t)) s' done' /\
    voice_from tpb mt (next_prev prev open (m, t)) (next_fin fin open (m, t)) (next_open open (m, t)) r /\
    midi_valid m /\ (prev <= t -> prev <= next_prev prev open (m, t) <= t).
Proof.
  intros Hg m t r D prev fin open s done HV HI Ht1 Ht2. pose proof (loss_range tpb) as HL. cbn [voice_from] in HV.
  destruct HV as (Hm & Ht & HV).
  assert (HI' : tinv tpb tol (D + loss tpb) prev fin open s done) by (apply tinv_weaken; assumption).
  destruct m as [dt ev data|dt ev|dt ev data|].
  - destruct (meta_step tpb tol _ prev fin open s done ev data tf HI') as (s1 & H1 & H2 & H3).
    { intros ->. exact Hm. }
    exists s1, done. split; [exact H1|]. split; [exact H2|]. split; [exact HV|]. split; [exact Hm|]. unfold next_prev; cbn [anchors fst]; lia.
  - destruct ev as [ch k v|ch k v|ch k v|ch ctl d|ch p|ch p|ch d|ch]; cbn [track_step]; unfold next_prev, next_fin, next_open; cbn [fst snd].
    + destruct open as [[on k']|].
      * destruct HV as (<- & Hlen & Hnear & HV). destruct HI as (Hp & Habs & Hov & Hprev & Hst & Hk & Hvel & HE). subst prev.
        destruct (note_off_step tpb tol D b s k t (last_note_end s) on done Hg Hst Ht Hk HE ltac:(lia) ltac:(lia) Habs (starts_before _ _ _ _ _ _ _ _ _ _ Hg Hov Habs HE Hlen) Hnear Hvel)
          as (s1 & H1 & H2 & H3 & H4 & H5).
        exists s1. eexists. split; [exact H1|]. split; [split; [lia|]; split; [exact H5|]; split; [exact (overrun_off _ _ _ _ _ _ _ Hov H5)|]; split; [exact H2|exact H4]|].
        split; [exact HV|]. split; [exact Hm|]. cbn [anchors is_open]. lia.
      * pose proof HI' as (Hp & Habs & Hov & Hst & HE). unfold on_note_off. rewrite Hst. exists s, done.
        split; [reflexivity|]. split; [exact HI'|]. split; [exact HV|]. split; [exact Hm|]. cbn [anchors is_open]. lia.
    + destruct HV as (-> & Hnear & HV). destruct HI as (Hp & Habs & Hov & Hst & HE). destruct Hm as (Hk & Hv).
      destruct (note_on_step tpb tol D b s k v t prev done Hg Hst Ht Hk Hp HE Habs Hnear)
        as (s1 & H1 & H2 & H3 & H4 & H5 & H6 & H7).
      exists s1, done. split; [exact H1|]. split.
      { split; [lia|]. split; [assumption|]. split; [apply (overrun_on tpb D prev fin (last_note_end s)); try assumption; [apply HE|apply Hg]|]. rewrite H3. auto. }
      split; [exact HV|]. split; [split; assumption|]. cbn [anchors]. lia.
    + exists s, done. split; [reflexivity|]. split; [exact HI'|]. split; [exact HV|]. split; [exact Hm|]. cbn [anchors]. lia.
    + destruct (control_step tpb tol _ b prev fin open s done ctl d HI' Hm) as (s1 & H1 & H2 & H3).
      exists s1, done. split; [exact H1|]. split; [exact H2|]. split; [exact HV|]. split; [exact Hm|]. cbn [anchors]. lia.
    + destruct HV as (-> & Hnear & HV). destruct HI as (Hp & Habs & Hov & Hst & HE).
      destruct (program_step tpb tol D b s ch p t prev done Hg Ht Hm HE Habs Hnear) as (s1 & H1 & H2 & H3 & H4 & H5 & H6).
      exists s1, done. split; [exact H1|]. split.
      { split; [lia|]. split; [assumption|]. split; [apply (overrun_on tpb D prev fin (last_note_end s)); try assumption; [apply HE|apply Hg]|]. split; [congruence|assumption]. }
      split; [exact HV|]. split; [exact Hm|]. cbn [anchors]. lia.
    + exists s, done. split; [reflexivity|]. split; [exact HI'|]. split; [exact HV|]. split; [exact Hm|]. cbn [anchors]. lia.
    + exists s, done. split; [reflexivity|]. split; [exact HI'|]. split; [exact HV|]. split; [exact Hm|]. cbn [anchors]. lia.
    + exists s, done. split; [reflexivity|]. split; [exact HI'|]. split; [exact HV|]. split; [exact Hm|]. cbn [anchors]. lia.
  - exists s, done. split; [reflexivity|]. split; [exact HI'|]. split; [exact HV|]. split; [exact Hm|]. unfold next_prev; cbn [anchors fst]; lia.
  - exists s, done. split; [reflexivity|]. split; [exact HI'|]. split; [exact HV|]. split; [exact Hm|]. unfold next_prev; cbn [anchors fst]; lia.
Qed.

Definition on_time (tpb tol : Z) (x : Z * command) (c : change) : Prop :=
  snd x = ch_cmd c /\ Z.abs (fst x * tpb - 24 * ch_anchor c) < tol.

Lemma tinv_clock tpb tol D prev fin open s done : tinv tpb tol D prev fin open s done ->
  0 <= total_steps (commands s) * tpb - 24 * last_note_end s <= D /\ clock_near tpb (last_note_end s) prev.
Proof.
  intros (_ & A & _ & B). split; [|assumption]. rewrite <- total_steps_walk.
  destruct open as [[on k]|]; [destruct B as (_ & _ & _ & _ & B)|destruct B as (_ & B)]; destruct B as (B & _); exact B.
Qed.

Lemma open_next open m t : is_open (next_open open (m, t)) = still_sounding (is_open open) m.
Proof. destruct m as [| |  |]; try reflexivity. destruct event; reflexivity. Qed.

Lemma loop_timed b tpb tol tf mt : ppq_ok tpb -> forall events D prev fin open s done cs s',
  voice_from tpb mt prev fin open events -> tinv tpb tol D prev fin open s done ->
  tpb + D + loss tpb * Z.of_nat (length events) <= tol -> tpb + loss tpb <= tol ->
  Forall2 (on_time tpb tol) (timed_controls 0 (commands s)) cs -> Forall rest_silent (commands s) ->
  ofold (track_step b tpb tf) events s = Ok s' ->
  Forall2 (on_time tpb tol) (timed_controls 0 (commands s')) (cs ++ changes_from tf prev (is_open open) events).
Proof.
  intros Hg. pose proof (loss_range tpb) as HL.
  induction events as [|[m t] r IH]; intros D prev fin open s done cs s' HV HI Ht1 Ht2 Hcs Hs H; cbn [ofold] in H.
  { injection H as <-. cbn [changes_from]. now rewrite app_nil_r. }
  inv_bind H. change (length ((m, t) :: r)) with (S (length r)) in Ht1. rewrite Nat2Z.inj_succ, Z.mul_succ_r in Ht1.
  assert (Hr0 : 0 <= loss tpb * Z.of_nat (length r)) by (apply Z.mul_nonneg_nonneg; lia).
  destruct (tinv_step b tpb tol tf mt Hg m t r D prev fin open s done HV HI ltac:(lia) Ht2) as (s1 & done1 & E & HI1 & HV1 & Hm & _).
  rewrite E in Ha. injection Ha as <-.
  destruct (step_outline b tpb tf s m t s1 Hm E) as (l & H1 & _ & H3 & H4).
  cbn [changes_from]. rewrite app_assoc, <- open_next with (t := t).
  change (if anchors (is_open open) m then t else prev) with (next_prev prev open (m, t)).
  eapply (IH (D + loss tpb)); [exact HV1|exact HI1|lia|lia| | |exact H].
  - rewrite H1, timed_app, H4. apply Forall2_app; [assumption|]. destruct (control_of tf m); [|constructor].
    constructor; [|constructor]. split; [reflexivity|]. cbn [fst ch_anchor]. rewrite <- Z.add_assoc, Z.add_0_l, <- total_steps_app, <- H1.
    apply tinv_clock in HI1. unfold clock_near in HI1. lia.
  - rewrite H1. apply Forall_app; auto.
Qed.

Lemma sustain_timed n : forall l l' now, (length l <= n)%nat -> Forall dur_ok l -> sustain_pass l = Ok l' ->
  timed_controls now l' = timed_controls now l.
Proof.
  induction n as [|n IH]; intros l l' now Hn Hl H.
  { destruct l; [|cbn in Hn; lia]. injection H as <-. reflexivity. }
  destruct l as [|c [|next l]]; [injection H as <-; reflexivity|injection H as <-; reflexivity|].
  rewrite sustain_pass_cons in H. inv_bind H. destruct a as [skip c']. inv_bind H. injection H as <-.
  inversion Hl as [|? ? Hc Hl1]; subst. inversion Hl1 as [|? ? Hnx Hl2]; subst.
  destruct (set_sustain_cases c next _ Hc Hnx Ha) as [[= -> ->]|(x & m & p & q & E4 & E1 & _ & Hx & Hm & _ & _ & _ & _ & [= -> ->])].
  - cbn [timed_controls]. f_equal. rewrite (IH (next :: l) a _ ltac:(cbn in *; lia) Hl1 Ha0). reflexivity.
  - cbn [timed_controls]. rewrite E1, E4. unfold steps. cbn [cmd duration]. rewrite Hx, Hm. cbn [is_control app].
    rewrite (IH l a _ ltac:(cbn in *; lia) Hl2 Ha0). f_equal. lia.
Qed.

Theorem track_changes_kept b events tpb mt tf tr :
  1 <= tpb <= 65535 -> voice_ok tpb mt events -> track_new b events tpb mt tf = Ok tr ->
  Forall2 (fun x c => snd x = ch_cmd c /\ Z.abs (fst x * tpb - 24 * ch_anchor c) < tolerance tpb (length events))
    (timed_controls 0 tr) (changes_of tf events).
Proof.
  intros Hg HV H.
  destruct events as [|ev0 events0].
  { injection H as <-. constructor. }
  set (events := ev0 :: events0) in *.
  assert (Hlen : 1 <= Z.of_nat (length events)) by (unfold events; cbn [length]; lia). clearbody events.
  pose proof (loss_range tpb) as HL.
  set (tol := tolerance tpb (length events)).
  assert (Htol : tol = tpb + loss tpb * Z.of_nat (length events)) by apply tolerance_loss.
  change (Forall2 (on_time tpb tol) (timed_controls 0 tr) (changes_of tf events)).
  unfold track_new in H. inv_bind H.
  assert (A : Forall2 (on_time tpb tol) (timed_controls 0 (commands a)) ([] ++ changes_from tf 0 false events)).
  { change false with (is_open (@None (Z * Z))).
    eapply (loop_timed b tpb tol tf mt Hg events 0 0 None None tstate0 [] [] a HV); auto; try lia; try nia; try (constructor; fail).
    split; [cbn; lia|]. split; [unfold clock_near; cbn [tstate0 last_note_end]; lia|]. split; [split; [reflexivity|intros _; left; cbn [tstate0 last_note_end]; lia]|]. split; [reflexivity|].
    unfold emitted. change (w_now (the_walk (commands tstate0))) with 0. cbn [tstate0 last_note_end].
    repeat split; try lia; constructor. }
  cbn [app] in A. change (changes_from tf 0 false events) with (changes_of tf events) in A.
  destruct (track_loop tpb tol b tf mt Hg events 0 0 None None tstate0 [] HV) as (s & prev & fin & open & Hrun & HI & Hnear & Hmt).
  { split; [cbn; lia|]. split; [unfold clock_near; cbn [tstate0 last_note_end]; lia|]. split; [split; [reflexivity|intros _; left; cbn [tstate0 last_note_end]; lia]|]. split; [reflexivity|].
    unfold emitted. change (w_now (the_walk (commands tstate0))) with 0. cbn [tstate0 last_note_end].
    repeat split; try lia; constructor. }
  { lia. } { nia. }
  rewrite Hrun in Ha. injection Ha as <-.
  assert (HD : Forall dur_ok (commands s) /\ 0 <= last_note_end s).
  { destruct HI as (_ & _ & _ & HI). destruct open as [[on k]|]; unfold emitted in HI; tauto. }
  destruct HD as (HD & He0). destruct HI as (_ & Habs & _). unfold clock_near in Habs. destruct Hnear as (N1 & N2 & N3).
  destruct (commands s) as [|c0 cs] eqn:Ec; [injection H as <-; exact A|]. rewrite <- Ec in *.
  inv_bind H.
  assert (HX : exists l, fst a = commands s ++ l /\ Forall rest_like l).
  { destruct (last_note_end s <? mt) eqn:E.
    - destruct (insert_rest_step tpb b (commands s) (last_note_end s) mt Hg He0 ltac:(lia) ltac:(lia) ltac:(lia) ltac:(lia))
        as (l & e' & Hi & _ & _ & Hl & _).
      rewrite Hi in Ha. injection Ha as <-. exists l. auto.
    - injection Ha as <-. exists []. rewrite app_nil_r. auto. }
  destruct HX as (l & El & Hl). rewrite El in H.
  assert (HS : Forall dur_ok (commands s ++ l)) by (apply Forall_app; split; [exact HD|now apply rest_quiet]).
  rewrite (sustain_timed _ _ _ 0 (le_n _) HS H), timed_app.
  assert (HN : Forall neutral l).
  { revert Hl. apply Forall_impl. intros c (Hc & _ & Hv & _). split; [now rewrite Hc|assumption]. }
  destruct (neutral_outline l HN) as (_ & ->). now rewrite app_nil_r.
Qed.

(** Anchors are never later than their change, and a program change is its own anchor. *)
Lemma changes_anchor tf events : forall anchor snd_, in_order events -> Forall (fun ev => anchor <= snd ev) events ->
  Forall (fun c => anchor <= ch_anchor c <= ch_time c /\ (forall i, ch_cmd c = SetInstrument i -> ch_anchor c = ch_time c))
    (changes_from tf anchor snd_ events).
Proof.
  induction events as [|[m t] r IH]; intros anchor sd Ho Ha; [constructor|]. cbn [changes_from].
  inversion Ho as [|? ? Ho1 Ho2]; subst. inversion Ha as [|? ? Ha1 Ha2]; subst. cbn [snd] in *.
  set (anchor' := if anchors sd m then t else anchor).
  assert (Hb : anchor <= anchor' <= t) by (unfold anchor'; destruct (anchors sd m); lia).
  apply Forall_app. split.
  - destruct (control_of tf m) as [c|] eqn:E; [|constructor]. constructor; [|constructor]. cbn [ch_anchor ch_time ch_cmd].
    split; [lia|]. intros i ->. unfold anchor'. destruct m as [dt ev data|dt ev|dt ev data|]; try discriminate.
    + destruct ev; [|discriminate]. destruct data as [|? [|? [|? ?]]]; discriminate.
    + destruct ev; try discriminate; [|reflexivity]. cbn [control_of] in E. destruct (_ =? 7); discriminate.
  - eapply Forall_impl; [|apply (IH anchor' (still_sounding sd m) Ho1)].
    + cbn beta. intros c (H1 & H2). split; [lia|assumption].
    + rewrite Forall_forall in *. intros x Hx. specialize (Ho2 x Hx). specialize (Ha2 x Hx). cbn beta in *.
      unfold anchor'. destruct (anchors sd m); cbn [snd] in *; lia.
Qed.

Lemma Forall2_Forall_r {A B} (R : A -> B -> Prop) (P : B -> Prop) l1 l2 :
  Forall2 R l1 l2 -> Forall P l2 -> Forall2 (fun x y => R x y /\ P y) l1 l2.
Proof. induction 1; intros H1; inversion H1; subst; constructor; auto. Qed.

Theorem track_changes_not_late b events tpb mt tf tr :
  1 <= tpb <= 65535 -> voice_ok tpb mt events -> in_order events -> track_new b events tpb mt tf = Ok tr ->
  Forall2 (fun x c => snd x = ch_cmd c /\
      fst x * tpb - 24 * ch_time c < tolerance tpb (length events) /\
      (forall i, ch_cmd c = SetInstrument i -> Z.abs (fst x * tpb - 24 * ch_time c) < tolerance tpb (length events)))
    (timed_controls 0 tr) (changes_of tf events).
Proof.
  intros Hg HV Ho H. pose proof (track_changes_kept b events tpb mt tf tr Hg HV H) as H1.
  assert (H2 : Forall (fun c => 0 <= ch_anchor c <= ch_time c /\ (forall i, ch_cmd c = SetInstrument i -> ch_anchor c = ch_time c)) (changes_of tf events)).
  { apply changes_anchor; [assumption|]. clear - HV. revert HV. unfold voice_ok. generalize 0 at 1, (@None Z), (@None (Z * Z)).
    induction events as [|[m t] r IH]; intros prev fin open HV; [constructor|]. cbn [voice_from] in HV. destruct HV as (_ & Ht & HV).
    constructor; [cbn [snd]; lia|].
    destruct m as [dt ev data|dt ev|dt ev data|]; try (eapply IH; exact HV).
    destruct ev; try (eapply IH; exact HV); try (destruct HV as (_ & _ & HV); eapply IH; exact HV).
    destruct open as [[on k']|]; [destruct HV as (_ & _ & _ & HV)|]; eapply IH; exact HV. }
  pose proof (Forall2_Forall_r _ _ _ _ H1 H2) as H3. revert H3. generalize (timed_controls 0 tr), (changes_of tf events).
  induction 1 as [|x c l1 l2 ((E1 & E2) & (E3 & E4)) _ IH]; constructor; auto.
  split; [assumption|]. split; [lia|]. intros i Hi. rewrite <- (E4 i Hi). assumption.
Qed.

Theorem controls_early :
  exists events tr,
  events = [(MidiEvent 0 (NoteOn 0 60 96), 0); (MidiEvent 0 (NoteOff 0 60 0), 96);
            (MetaEvent 0 SetTempo [7; 161; 32], 384); (MidiEvent 0 (NoteOn 0 62 96), 480);
            (MidiEvent 0 (ControlChange 0 7 50), 576); (MidiEvent 0 (NoteOff 0 62 0), 672)] /\
  voice_ok 96 672 events /\ in_order events /\ track_new Debug events 96 672 f32_0_3 = Ok tr /\
  timed_controls 0 tr = [(24, Tempo 36); (120, ChannelVolume 100)] /\
  map (fun c => (ch_time c, ch_cmd c)) (changes_of f32_0_3 events) = [(24 * 16, Tempo 36); (24 * 24, ChannelVolume 100)].
Proof.
  eexists. eexists. split; [reflexivity|]. split; [|split; [|split; [vm_compute; reflexivity|split; vm_compute; reflexivity]]].
  - voice_case.
  - repeat constructor; cbn [snd]; lia.
Qed.

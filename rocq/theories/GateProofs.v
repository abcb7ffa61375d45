(** GateProofs.v: the lengths of converted notes (C60). *)
From Coq Require Import ZArith List Bool Lia ZifyBool ZifyNat.
From Verif Require Import Base F32 Messages Command Track ProofLib SpecTime SplitProofs DurationProofs
  SpecNspc CodecProofs SpecVoice TrackProofs SpecGate.

(** ** Appending *)
Definition starts_tied (l : list pcmd) : bool := match l with c :: _ => bare_tie c | [] => false end.
Lemma tie_steps_app a l : starts_tied l = false -> tie_steps (a ++ l) = tie_steps a.
Proof.
  intros H. induction a as [|c a IH]; cbn [app tie_steps].
  - destruct l as [|c l]; [reflexivity|]. cbn [starts_tied] in H. cbn [tie_steps]. now rewrite H.
  - now rewrite IH.
Qed.
Lemma slots_from_app a : forall now l, starts_tied l = false ->
  slots_from now (a ++ l) = slots_from now a ++ slots_from (now + total_steps a) l.
Proof.
  induction a as [|c a IH]; intros now l H.
  - change (total_steps []) with 0. rewrite Z.add_0_r. reflexivity.
  - cbn [app slots_from]. rewrite tie_steps_app, IH by assumption. rewrite total_steps_cons, app_assoc.
    do 2 f_equal. lia.
Qed.
Lemma slots_quiet l : forall now, Forall (fun c => velocity c = None) l -> slots_from now l = [].
Proof.
  induction l as [|c l IH]; intros now H; [reflexivity|]. inversion H as [|? ? Hc Hl]; subst.
  cbn [slots_from]. rewrite Hc. apply IH. assumption.
Qed.

(** No bare tie comes after anything but a sounding command. *)
Definition soundy (c : pcmd) : bool := match cmd c with Note _ | Tie => true | _ => false end.
Fixpoint ties_ok (prev : bool) (l : list pcmd) : Prop :=
  match l with
  | [] => True
  | c :: r => (bare_tie c = true -> prev = true) /\ ties_ok (soundy c) r
  end.
Lemma ties_ok_app a : forall prev l, ties_ok prev (a ++ l) <->
  ties_ok prev a /\ ties_ok (match last_opt a with Some c => soundy c | None => prev end) l.
Proof.
  induction a as [|c a IH]; intros prev l; cbn [app ties_ok]; [cbn; tauto|].
  rewrite IH. destruct (last_opt a) eqn:E.
  - assert (last_opt (c :: a) = Some p) as ->; [|tauto].
    apply last_opt_some in E. destruct E as (a' & ->). change (c :: a' ++ [p]) with ((c :: a') ++ [p]). apply last_opt_app.
  - apply last_opt_nil in E. subst. cbn [last_opt]. tauto.
Qed.
Lemma ties_ok_true prev l : ties_ok prev l -> starts_tied l = false -> forall p, ties_ok p l.
Proof. destruct l as [|c l]; [intros; exact I|]. cbn [ties_ok starts_tied]. intros (_ & H) E p. split; [congruence|assumption]. Qed.
Lemma ties_ok_none l : Forall (fun c => bare_tie c = false) l -> forall p, ties_ok p l.
Proof. induction 1 as [|c l Hc H IH]; intros p; cbn [ties_ok]; [exact I|]. split; [congruence|apply IH]. Qed.

(** ** Before rests are folded *)
Definition ends (tpb tol : Z) (s : slot) (n : vnote) : Prop :=
  Z.abs (s_onset s * tpb - 24 * n_on n) < tol /\ s_vel s = n_vel n / 8 /\ s_sustain s = Some 7 /\ 1 <= s_steps s /\ 0 <= s_ties s /\
  Z.abs ((s_onset s + s_steps s + s_ties s) * tpb - 24 * n_off n) < tol.
Definition sinv (tpb tol : Z) (cmds : list pcmd) (done : list vnote) : Prop :=
  ties_ok false cmds /\ Forall2 (ends tpb tol) (slots cmds) done.

Lemma sinv_quiet tpb tol cmds done l : sinv tpb tol cmds done ->
  Forall (fun c => velocity c = None /\ bare_tie c = false) l -> sinv tpb tol (cmds ++ l) done.
Proof.
  intros (A & B) H. assert (Hst : starts_tied l = false).
  { destruct H as [|c l Hc H]; [reflexivity|]. apply Hc. }
  split.
  - apply ties_ok_app. split; [assumption|]. apply ties_ok_none. revert H. apply Forall_impl. tauto.
  - unfold slots. rewrite slots_from_app by assumption. rewrite (slots_quiet l), app_nil_r; [assumption|].
    revert H. apply Forall_impl. tauto.
Qed.
Lemma insert_rest_appends b cmds e t tpb cmds' e' : insert_rest b cmds e t tpb = Ok (cmds', e') ->
  exists l, cmds' = cmds ++ l /\ Forall (fun c => velocity c = None /\ bare_tie c = false) l.
Proof.
  unfold insert_rest. destruct (e <? t); [|intros [= <- <-]; exists []; rewrite app_nil_r; auto].
  intros H. inv_bind H. inv_bind H. injection H as H H0. subst cmds'. destruct (0 <? d_length a).
  - eexists. rewrite <- app_assoc. split; [reflexivity|]. apply Forall_app. split; [|repeat constructor].
    apply Forall_forall. intros x Hx. apply repeat_spec in Hx. subst. split; reflexivity.
  - eexists. split; [reflexivity|].
    apply Forall_forall. intros x Hx. apply repeat_spec in Hx. subst. split; reflexivity.
Qed.
Lemma push_slide_appends b s cmds k tpb cmds' : push_slide b s cmds k tpb = Ok cmds' ->
  exists l, cmds' = cmds ++ l /\ Forall (fun c => velocity c = None /\ bare_tie c = false) l.
Proof.
  unfold push_slide. assert (Ok cmds = Ok cmds' -> exists l, cmds' = cmds ++ l /\ Forall (fun c => velocity c = None /\ bare_tie c = false) l) as H0.
  { intros [= <-]. exists []. rewrite app_nil_r. auto. }
  destruct (portamento s); [|exact H0]. destruct (last_opt cmds) as [lc|]; [|exact H0].
  intros H. inv_bind H. inv_bind H. unfold create_pitch_slide in H.
  assert (Hs : forall x, Ok (cmds ++ [mk_pcmd None None None (PitchSlide x (d_length a) a0)]) = Ok cmds' ->
    exists l, cmds' = cmds ++ l /\ Forall (fun c => velocity c = None /\ bare_tie c = false) l).
  { intros x [= <-]. eexists. split; [reflexivity|]. repeat constructor. }
  destruct (cmd lc); try exact (H0 H); destruct (duration lc) as [d|]; try exact (H0 H); exact (Hs _ H).
Qed.
Lemma note_on_appends b s k v t tpb s' : on_note_on b s k v t tpb = Ok s' ->
  exists l, commands s' = commands s ++ l /\ Forall (fun c => velocity c = None /\ bare_tie c = false) l.
Proof.
  unfold on_note_on. intros H. inv_bind H. destruct a as [c1 e]. inv_bind H.
  destruct (note_start s); [discriminate|]. injection H as H. subst s'. cbn [commands].
  destruct (insert_rest_appends _ _ _ _ _ _ _ Ha) as (l1 & -> & H1).
  destruct (push_slide_appends _ _ _ _ _ _ Ha0) as (l2 & -> & H2). exists (l1 ++ l2). rewrite app_assoc.
  split; [reflexivity|]. apply Forall_app. auto.
Qed.
Lemma program_appends b s ch p t tpb s' : on_program_change b s ch p t tpb = Ok s' ->
  exists l, commands s' = commands s ++ l /\ Forall (fun c => velocity c = None /\ bare_tie c = false) l.
Proof.
  unfold on_program_change. intros H. inv_bind H. destruct a as [c1 e]. inv_bind H. injection H as H. subst s'. cbn [commands].
  destruct (insert_rest_appends _ _ _ _ _ _ _ Ha) as (l1 & -> & H1). eexists. rewrite <- app_assoc. split; [reflexivity|].
  apply Forall_app. split; [assumption|]. repeat constructor.
Qed.
Lemma control_appends b s c d s' : on_control_change b s c d = Ok s' ->
  exists l, commands s' = commands s ++ l /\ Forall (fun c => velocity c = None /\ bare_tie c = false) l.
Proof.
  unfold on_control_change.
  assert (HH : forall s', commands s' = commands s -> exists l, commands s' = commands s ++ l /\ Forall (fun c => velocity c = None /\ bare_tie c = false) l).
  { intros s0 ->. exists []. rewrite app_nil_r. auto. }
  destruct (c =? 5); [intros [= <-]; now apply HH|]. destruct (c =? 7).
  { intros H. inv_bind H. injection H as H. subst s'. eexists. split; [reflexivity|]. repeat constructor. }
  destruct (c =? 37); [intros [= <-]; now apply HH|]. destruct (c =? 65); intros [= <-]; now apply HH.
Qed.
Lemma meta_appends s e data tf s' : on_meta s e data tf = Ok s' ->
  exists l, commands s' = commands s ++ l /\ Forall (fun c => velocity c = None /\ bare_tie c = false) l.
Proof.
  destruct e; cbn [on_meta]; intros H.
  - inv_bind H. injection H as H. subst s'. eexists. split; [reflexivity|]. repeat constructor.
  - injection H as H. subst s'. exists []. rewrite app_nil_r. auto.
Qed.
Lemma note_off_appends b s k t tpb s' st : note_start s = Some st -> on_note_off b s k t tpb = Ok s' ->
  exists d c ties, commands s' = commands s ++ mk_pcmd (Some d) (Some (note_velocity s / 8)) (Some 7) c :: ties /\
    (c = Tie \/ exists p, c = Note p) /\ Forall (fun c => bare_tie c = true) ties.
Proof.
  unfold on_note_off. intros -> H. inv_bind H. inv_bind H. inv_bind H. inv_bind H. injection H as H. subst s'. cbn [commands].
  do 3 eexists. split; [reflexivity|]. split.
  - destruct (match last_opt (commands s) with Some c => is_slide c | None => false end).
    + injection Ha1 as <-. now left.
    + inv_bind Ha1. injection Ha1 as <-. right. eauto.
  - unfold overflow_ties. destruct (0 <? overflow_count a0); [|constructor]. apply Forall_app. split; [|repeat constructor].
    apply Forall_forall. intros x Hx. apply repeat_spec in Hx. now subst.
Qed.
Lemma bare_ties_total l : Forall (fun c => bare_tie c = true) l -> tie_steps l = total_steps l.
Proof.
  induction 1 as [|c l Hc H IH]; [reflexivity|]. cbn [tie_steps]. rewrite Hc, IH, total_steps_cons. reflexivity.
Qed.
Lemma bare_ties_quiet l : Forall (fun c => bare_tie c = true) l -> Forall (fun c => velocity c = None) l.
Proof. apply Forall_impl. intros c. unfold bare_tie. destruct (cmd c); try discriminate. destruct (velocity c); congruence. Qed.
Lemma bare_ties_soundy l : Forall (fun c => bare_tie c = true) l -> ties_ok true l.
Proof.
  induction 1 as [|c l Hc H IH]; cbn [ties_ok]; [exact I|]. split; [reflexivity|].
  unfold bare_tie in Hc. unfold soundy. destruct (cmd c); try discriminate. exact IH.
Qed.
Lemma dur_ok_steps c : dur_ok c -> 0 <= steps c.
Proof.
  intros H. unfold steps. destruct (duration c) as [d|] eqn:E; [|lia]. pose proof (dur_ok_duration c d H E). lia.
Qed.
Lemma total_nonneg l : Forall dur_ok l -> 0 <= total_steps l.
Proof.
  induction 1 as [|c l Hc H IH]; [reflexivity|]. rewrite total_steps_cons. pose proof (dur_ok_steps c Hc). lia.
Qed.

Lemma sinv_head tpb tol D e P cmds done d v c ties on off :
  sinv tpb tol cmds done -> (c = Tie \/ exists p, c = Note p) -> Forall (fun c => bare_tie c = true) ties ->
  Z.abs (total_steps cmds * tpb - 24 * n_on on) < tol -> v = n_vel on / 8 ->
  (forall x, emitted tpb tol D (cmds ++ mk_pcmd (Some d) (Some v) (Some 7) c :: ties) e P x -> clock_near tpb e off -> tpb + D <= tol -> tpb + loss tpb <= tol -> off = n_off on ->
  sinv tpb tol (cmds ++ mk_pcmd (Some d) (Some v) (Some 7) c :: ties) (done ++ [on])).
Proof.
  intros (A & B) Hc Ht Hon Hvel x (E1 & E2 & E3 & _) Hcl Htol Htol1 ->. set (hd := mk_pcmd (Some d) (Some v) (Some 7) c) in *.
  assert (Hb : bare_tie hd = false) by (unfold bare_tie, hd; cbn; destruct c; reflexivity).
  split.
  - apply ties_ok_app. split; [assumption|]. cbn [ties_ok]. split; [congruence|].
    assert (soundy hd = true) as -> by (unfold soundy, hd; cbn; destruct Hc as [->|(p & ->)]; reflexivity).
    now apply bare_ties_soundy.
  - unfold slots. rewrite slots_from_app by exact Hb. apply Forall2_app; [assumption|].
    cbn [slots_from velocity hd]. rewrite slots_quiet by (now apply bare_ties_quiet). cbn [app].
    constructor; [|constructor]. unfold ends. cbn [s_onset s_sustain s_steps s_ties s_vel].
    rewrite Z.add_0_l. split; [assumption|]. split; [assumption|]. split; [reflexivity|].
    apply Forall_app in E3. destruct E3 as (_ & E3). inversion E3 as [|? ? Hhd Htd]; subst.
    pose proof (dur_ok_duration hd d Hhd eq_refl). change (steps hd) with d.
    rewrite bare_ties_total by assumption. pose proof (total_nonneg _ Htd). split; [lia|]. split; [lia|].
    rewrite the_walk_app, walk_now in E1. unfold the_walk in E1. rewrite walk_now in E1. change (w_now walk0) with 0 in E1.
    rewrite total_steps_cons in E1. change (steps hd) with d in E1. unfold clock_near in Hcl.
    replace (total_steps cmds + d + total_steps ties) with (0 + total_steps cmds + (d + total_steps ties)) by lia.
    clearbody hd. generalize dependent ((0 + total_steps cmds + (d + total_steps ties)) * tpb). intros z E1. lia.
Qed.

Lemma gate_loop tpb tol b tf max_time : ppq_ok tpb -> forall events D prev fin open s s' done,
  voice_from tpb max_time prev fin open events -> tinv tpb tol D prev fin open s done -> sinv tpb tol (commands s) done ->
  tpb + D + loss tpb * Z.of_nat (length events) <= tol -> tpb + loss tpb <= tol ->
  ofold (track_step b tpb tf) events s = Ok s' ->
  sinv tpb tol (commands s') (done ++ notes_from (sounding open s) events).
Proof.
  intros Hg. pose proof (loss_range tpb) as HL. induction events as [|[m t] r IH]; intros D prev fin open s s' done HV HI HS Htol Htol1 HR.
  { cbn [ofold] in HR. injection HR as <-. cbn [notes_from]. now rewrite app_nil_r. }
  cbn [voice_from] in HV. destruct HV as (Hm & Ht & HV).
  change (list (message * Z)) with (list tmsg) in *. change (message * Z)%type with tmsg in *.
  cbn [length] in Htol. rewrite Nat2Z.inj_succ, Z.mul_succ_r in Htol.
  rewrite (Z.add_comm (loss tpb * _) (loss tpb)) in Htol.
  assert (Hr0 : 0 <= loss tpb * Z.of_nat (@length tmsg r)) by (apply Z.mul_nonneg_nonneg; lia).
  rewrite !Z.add_assoc in *.
  assert (IH' : forall prev fin open s1 done, voice_from tpb max_time prev fin open r -> tinv tpb tol D prev fin open s1 done ->
    sinv tpb tol (commands s1) done -> ofold (track_step b tpb tf) r s1 = Ok s' ->
    sinv tpb tol (commands s') (done ++ notes_from (sounding open s1) r)).
  { intros prev0 fin0 open0 s0 done0 HV0 HI0 HS0 HR0.
    apply (IH (D + loss tpb) prev0 fin0 open0 s0 s' done0 HV0); [|assumption|lia|lia|assumption].
    apply tinv_weaken. assumption. }
  specialize (IH (D + loss tpb)). cbn [ofold] in HR.
  destruct m as [dt ev data|dt ev|dt ev data|].
  - destruct (meta_step tpb tol D prev fin open s done ev data tf HI) as (s1 & H1 & H2 & H3).
    { intros ->. exact Hm. }
    cbn [track_step] in HR. rewrite H1 in HR. cbn [bind] in HR.
    destruct (meta_appends _ _ _ _ _ H1) as (l & Hl & Hq).
    cbn [notes_from]. unfold sounding. rewrite <- H3. apply (IH' prev fin open s1 done HV H2); [|assumption].
    rewrite Hl. now apply sinv_quiet.
  - destruct ev as [ch k v|ch k v|ch k v|ch ctl d|ch p|ch p|ch d|ch]; cbn [track_step] in HR.
    + destruct open as [[on k']|].
      * destruct HV as (<- & Hlen & Hnear & HV). destruct HI as (Hp & Habs & Hov & Hprev & Hst & Hk & Hvel & HE). subst prev.
        destruct (note_off_step tpb tol D b s k t (last_note_end s) on done Hg Hst Ht Hk HE ltac:(lia) ltac:(lia) Habs (starts_before _ _ _ _ _ _ _ _ _ _ Hg Hov Habs HE Hlen) Hnear Hvel)
          as (s1 & H1 & H2 & H3 & H4 & H5).
        rewrite H1 in HR. cbn [bind] in HR.
        assert (HI1 : tinv tpb tol (D + loss tpb) t (Some t) None s1 (done ++ [mk_vnote on t k (note_velocity s)])).
        { split; [lia|]. split; [assumption|]. split; [exact (overrun_off _ _ _ _ _ _ _ Hov H5)|]. auto. }
        cbn [sounding notes_from].
        change (mk_vnote on t k (note_velocity s) :: notes_from None r) with ([mk_vnote on t k (note_velocity s)] ++ notes_from (sounding None s1) r).
        rewrite app_assoc. refine (IH t (Some t) None s1 s' _ HV HI1 _ _ _ HR); [|lia|lia].
        destruct (note_off_appends _ _ _ _ _ _ _ Hst H1) as (d & c & ties & Hcs & Hc & Hti).
        rewrite Hcs in H4 |- *.
        refine (sinv_head tpb tol (D + loss tpb) (last_note_end s1) no_slide _ _ _ _ _ _ (mk_vnote on t k (note_velocity s)) t HS Hc Hti _ eq_refl _ H4 H5 _ _ eq_refl); [|lia|lia].
        cbn [n_on]. destruct HE as (E1 & _). rewrite total_steps_walk in E1. unfold clock_near in Habs. lia.
      * destruct HI as (Hp & Habs & Hov & Hst & HE). unfold on_note_off in HR. rewrite Hst in HR. cbn [bind] in HR.
        apply (IH' prev fin None s done HV); [split; auto|assumption|assumption].
    + destruct HV as (-> & Hnear & HV). destruct HI as (Hp & Habs & Hov & Hst & HE). destruct Hm as (Hk & Hv).
      destruct (note_on_step tpb tol D b s k v t prev done Hg Hst Ht Hk Hp HE Habs Hnear)
        as (s1 & H1 & H2 & H3 & H4 & H5 & H6 & H7).
      rewrite H1 in HR. cbn [bind] in HR.
      assert (HI1 : tinv tpb tol (D + loss tpb) t fin (Some (t, k)) s1 done).
      { split; [lia|]. split; [assumption|]. split; [apply (overrun_on tpb D prev fin (last_note_end s)); try assumption; [apply HE|apply Hg]|]. rewrite H3. auto. }
      destruct (note_on_appends _ _ _ _ _ _ _ H1) as (l & Hl & Hq).
      cbn [notes_from sounding].
      replace (Some (t, v)) with (sounding (Some (t, k)) s1) by (cbn [sounding]; now rewrite H3).
      refine (IH t fin (Some (t, k)) s1 s' done HV HI1 _ _ _ HR); [|lia|lia]. rewrite Hl. now apply sinv_quiet.
    + apply (IH' prev fin open s done HV HI HS HR).
    + destruct (control_step tpb tol D b prev fin open s done ctl d HI Hm) as (s1 & H1 & H2 & H3).
      rewrite H1 in HR. cbn [bind] in HR.
      destruct (control_appends _ _ _ _ _ H1) as (l & Hl & Hq).
      cbn [notes_from]. unfold sounding. rewrite <- H3. apply (IH' prev fin open s1 done HV H2); [|assumption].
      rewrite Hl. now apply sinv_quiet.
    + destruct HV as (-> & Hnear & HV). destruct HI as (Hp & Habs & Hov & Hst & HE).
      destruct (program_step tpb tol D b s ch p t prev done Hg Ht Hm HE Habs Hnear) as (s1 & H1 & H2 & H3 & H4 & H5 & H6).
      rewrite H1 in HR. cbn [bind] in HR.
      assert (HI1 : tinv tpb tol (D + loss tpb) t fin None s1 done).
      { split; [lia|]. split; [assumption|]. split; [apply (overrun_on tpb D prev fin (last_note_end s)); try assumption; [apply HE|apply Hg]|]. split; [congruence|assumption]. }
      destruct (program_appends _ _ _ _ _ _ _ H1) as (l & Hl & Hq).
      refine (IH t fin None s1 s' done HV HI1 _ _ _ HR); [|lia|lia]. rewrite Hl. now apply sinv_quiet.
    + apply (IH' prev fin open s done HV HI HS HR).
    + apply (IH' prev fin open s done HV HI HS HR).
    + apply (IH' prev fin open s done HV HI HS HR).
  - apply (IH' prev fin open s done HV HI HS HR).
  - apply (IH' prev fin open s done HV HI HS HR).
Qed.

(** ** Folding rests *)
Definition refit (s s' : slot) : Prop :=
  s' = s \/
  (s_onset s' = s_onset s /\ s_vel s' = s_vel s /\ s_struck s' = true /\ s_ties s = 0 /\ s_ties s' = 0 /\ exists e, s_sustain s' = Some e /\ 1 <= e <= 7 /\
     (e * s_steps s' = 8 * s_steps s \/ (e = 7 /\ s_steps s < s_steps s' /\ 16 * (s_steps s' - s_steps s) < s_steps s))).
Lemma sustain_starts l l' : Forall dur_ok l -> sustain_pass l = Ok l' -> starts_tied l = starts_tied l' /\
  match l, l' with c :: _, c' :: _ => bare_tie c = bare_tie c' /\ (bare_tie c = true -> c = c') | [], [] => True | _, _ => False end.
Proof.
  intros HF. destruct l as [|c [|next l]]; [intros [= <-]; auto|intros [= <-]; auto|].
  rewrite sustain_pass_cons. intros H. inv_bind H. destruct a as [skip c']. inv_bind H. injection H as <-.
  inversion HF as [|? ? Hc HF']; subst. inversion HF' as [|? ? Hn _]; subst.
  destruct (set_sustain_cases _ _ _ Hc Hn Ha) as [[= -> ->]|(x & y & p & q & Ec & _ & _ & _ & _ & _ & _ & _ & _ & [= -> ->])].
  - cbn [starts_tied]. auto.
  - cbn [starts_tied]. unfold bare_tie. cbn [cmd]. rewrite Ec. repeat split; discriminate.
Qed.
Lemma sustain_ties n : forall l l', (length l <= n)%nat -> Forall dur_ok l -> ties_ok false l \/ ties_ok true l ->
  sustain_pass l = Ok l' -> tie_steps l' = tie_steps l /\ forall now, Forall2 refit (slots_from now l) (slots_from now l').
Proof.
  induction n as [|n IH]; intros l l' Hlen HF HT H.
  { destruct l; [|cbn in Hlen; lia]. injection H as <-. split; [reflexivity|constructor]. }
  destruct l as [|c [|next l]].
  { injection H as <-. split; [reflexivity|constructor]. }
  { injection H as <-. split; [reflexivity|]. intros now. cbn [slots_from]. rewrite app_nil_r.
    destruct (velocity c); constructor; [now left|constructor]. }
  rewrite sustain_pass_cons in H. inv_bind H. destruct a as [skip c']. inv_bind H. injection H as <-.
  inversion HF as [|? ? Hc HF']; subst. inversion HF' as [|? ? Hn HF'']; subst.
  assert (HT' : ties_ok (soundy c) (next :: l)) by (destruct HT as [HT|HT]; apply HT).
  destruct (set_sustain_cases _ _ _ Hc Hn Ha) as [[= -> ->]|(x & y & p & q & Ec & En & Hv & Hd & Hdn & Hx & Hy & Hq & Hqq & [= -> ->])].
  - destruct (IH (next :: l) a) as (H1 & H2); [cbn in *; lia|assumption|destruct (soundy c); auto|assumption|].
    split; [cbn [tie_steps] in *; now rewrite H1|]. intros now. cbn [slots_from].
    apply Forall2_app; [|apply H2]. rewrite H1. destruct (velocity c); constructor; [now left|constructor].
  - destruct (IH l a) as (H1 & H2); [cbn in *; lia|assumption| |assumption|].
    { destruct HT' as (_ & HT'). unfold soundy in HT'. rewrite En in HT'. auto. }
    assert (Hst : starts_tied l = false).
    { destruct HT' as (_ & HT'). unfold soundy in HT'. rewrite En in HT'. destruct l as [|z l]; [reflexivity|].
      destruct HT' as (HT' & _). cbn [starts_tied]. destruct (bare_tie z); [|reflexivity]. discriminate (HT' eq_refl). }
    assert (Ht0 : tie_steps a = 0).
    { rewrite H1. destruct l as [|z l]; [reflexivity|]. cbn [tie_steps starts_tied] in *. now rewrite Hst. }
    split.
    { cbn [tie_steps]. unfold bare_tie. cbn [cmd]. rewrite Ec. reflexivity. }
    intros now. cbn [slots_from velocity]. rewrite Hv. cbn [app].
    replace (now + steps (mk_pcmd (Some (x + y)) (velocity c) (Some q) (Note p))) with (now + steps c + steps next)
      by (unfold steps; cbn [duration]; rewrite Hd, Hdn; lia).
    apply Forall2_app; [|apply H2]. destruct (velocity c); constructor; [|constructor]. right.
    cbn [s_onset s_ties s_sustain s_steps s_vel s_struck cmd is_note]. split; [reflexivity|]. split; [reflexivity|]. split; [reflexivity|].
    split; [cbn [tie_steps]; unfold bare_tie; now rewrite En|]. split; [assumption|].
    exists q. split; [reflexivity|]. unfold steps. cbn [duration]. rewrite Hd.
    destruct Hqq as [Hqq|(-> & Hqq)].
    + split; [|left; lia]. nia.
    + split; [lia|]. right. lia.
Qed.

Lemma Forall2_compose {A B C} (P : A -> B -> Prop) (Q : A -> C -> Prop) (R : B -> C -> Prop) :
  (forall a b c, P a b -> Q a c -> R b c) -> forall la lb lc, Forall2 P la lb -> Forall2 Q la lc -> Forall2 R lb lc.
Proof.
  intros H la lb lc H1. revert lc. induction H1; intros lc H2; inversion H2; subst; constructor; eauto.
Qed.
Lemma refit_lasts tpb tol s s' n : refit s s' -> ends tpb tol s n -> lasts tpb tol s' n.
Proof.
  intros HR (E1 & E0 & E2 & E3 & E4 & E5). unfold lasts. destruct HR as [->|(R1 & R0 & R00 & R2 & R3 & e & R4 & R5 & R6)].
  - split; [assumption|]. split; [assumption|]. exists (s_steps s + s_ties s). split; [lia|]. split; [left; auto|]. now rewrite Z.add_assoc.
  - rewrite R1, R0. split; [assumption|]. split; [assumption|]. exists (s_steps s). split; [assumption|].
    rewrite R2, Z.add_0_r in E5. split; [|assumption]. right. destruct R6 as [R6|(-> & R6 & R7)].
    + left. split; [assumption|]. split; [assumption|]. exists e. repeat split; try assumption; lia.
    + right. auto.
Qed.

Theorem conversion_lasts b tpb tf events max_time tr :
  1 <= tpb <= 65535 -> voice_ok tpb max_time events -> track_new b events tpb max_time tf = Ok tr ->
  Forall2 (lasts tpb (tolerance tpb (length events))) (slots tr) (notes_of events).
Proof.
  intros Hg HV H.
  destruct events as [|ev0 events0].
  { injection H as <-. constructor. }
  set (events := ev0 :: events0) in *.
  assert (Hlen : 1 <= Z.of_nat (length events)) by (unfold events; cbn [length]; lia). clearbody events.
  pose proof (loss_range tpb) as HL.
  set (tol := tolerance tpb (length events)).
  assert (Htol : tol = tpb + loss tpb * Z.of_nat (length events)) by apply tolerance_loss.
  assert (HI0 : tinv tpb tol 0 0 None None tstate0 []).
  { split; [cbn; lia|]. split; [unfold clock_near; cbn [tstate0 last_note_end]; lia|]. split; [split; [reflexivity|intros _; left; cbn [tstate0 last_note_end]; lia]|]. split; [reflexivity|].
    unfold emitted. change (w_now (the_walk (commands tstate0))) with 0. cbn [tstate0 last_note_end].
    repeat split; try lia; constructor. }
  destruct (track_loop tpb tol b tf max_time Hg events 0 0 None None tstate0 [] HV HI0) as (s & prev & fin & open & Hrun & HI & Hnear & Hmt); [lia|nia|].
  assert (HS0 : sinv tpb tol (commands tstate0) []) by (split; [exact I|constructor]).
  pose proof (gate_loop tpb tol b tf max_time Hg events 0 0 None None tstate0 s [] HV HI0 HS0 ltac:(lia) ltac:(nia) Hrun) as HS.
  cbn [app sounding] in HS. change (notes_from None events) with (notes_of events) in HS.
  assert (HD : Forall dur_ok (commands s)).
  { destruct HI as (_ & _ & _ & HI). destruct open as [[on k]|].
    - destruct HI as (_ & _ & _ & _ & (_ & _ & HD & _)). exact HD.
    - destruct HI as (_ & (_ & _ & HD & _)). exact HD. }
  destruct (track_converts b tpb tf events max_time Hg HV) as (tr' & Htr & _). rewrite H in Htr. injection Htr as <-.
  unfold track_new in H. rewrite Hrun in H. cbn [bind] in H.
  destruct (commands s) as [|c0 cs] eqn:Ec.
  { injection H as <-. destruct HS as (_ & HS). inversion HS; subst. constructor. }
  rewrite <- Ec in *. clear Ec c0 cs. inv_bind H.
  assert (HA : exists l, fst a = commands s ++ l /\ Forall (fun c => velocity c = None /\ bare_tie c = false) l /\ Forall dur_ok l).
  { destruct (last_note_end s <? max_time) eqn:E.
    - destruct HI as (_ & Habs & _ & HI). unfold clock_near in Habs. destruct Hnear as (N1 & N2 & N3).
      assert (0 <= last_note_end s).
      { destruct open as [[on k]|]; [destruct HI as (_ & _ & _ & _ & (_ & He & _))|destruct HI as (_ & (_ & He & _))]; exact He. }
      destruct (insert_rest_step tpb b (commands s) (last_note_end s) max_time Hg ltac:(lia) ltac:(lia) ltac:(lia) ltac:(lia) ltac:(lia))
        as (l & e' & Hi & _ & _ & Hl & _). rewrite Hi in Ha. injection Ha as <-. exists l. split; [reflexivity|].
      split; [|apply rest_quiet; assumption]. revert Hl. apply Forall_impl. intros c (Hc & _ & Hv & _). split; [assumption|].
      unfold bare_tie. now rewrite Hc.
    - injection Ha as <-. exists []. rewrite app_nil_r. auto. }
  destruct HA as (l & HA & Hl & Hld). rewrite HA in H.
  pose proof (sinv_quiet _ _ _ _ _ HS Hl) as (HT & HE).
  destruct (sustain_ties _ (commands s ++ l) tr (le_n _)) as (_ & HR); [apply Forall_app; auto|now left|assumption|].
  specialize (HR 0).
  eapply Forall2_compose; [|exact HR|exact HE]. intros s0 s1 n R1 E1. cbn in *. eapply refit_lasts; eauto.
Qed.

(** PlaybackProofs.v: proofs for PropPlayback.v. *)
From Coq Require Import Lia Permutation.
From Verif Require Import Base F32 Messages Command Track Song ProofLib SpecTime SpecVoice SpecNspc SpecLoop SpecRom SpecAram
  SpecSong SpecNotes SpecPlayback SplitProofs TrackProofs SlideProofs OptExpand AramProofs AramMore SongProofs ControlProofs.
Open Scope list_scope.

(** ** Which commands of a converted track carry a velocity (any events) *)
Definition note_cmd (c : command) : bool := match c with Note _ => true | _ => false end.
Definition vel_rule (last : bool) (pc : pcmd) : Prop :=
  match cmd pc with
  | Note _ => velocity pc <> None
  | Tie => if last then velocity pc <> None else velocity pc = None
  | _ => velocity pc = None
  end.
Fixpoint vel_from (last : bool) (l : list pcmd) : Prop :=
  match l with [] => True | pc :: r => vel_rule last pc /\ vel_from (slide_cmd pc) r end.
Definition last_sl (last : bool) (l : list pcmd) : bool := match last_opt l with Some c => slide_cmd c | None => last end.

Lemma last_sl_cons last c l : last_sl last (c :: l) = last_sl (slide_cmd c) l.
Proof.
  unfold last_sl. destruct (last_opt l) as [d|] eqn:E.
  - apply last_opt_some in E. destruct E as (l' & ->). change (c :: l' ++ [d]) with ((c :: l') ++ [d]). now rewrite last_opt_app.
  - apply last_opt_nil in E. subst. reflexivity.
Qed.
Lemma vel_from_app a : forall b last, vel_from last (a ++ b) <-> vel_from last a /\ vel_from (last_sl last a) b.
Proof.
  induction a as [|c a IH]; intros b last; cbn [app vel_from].
  - cbn. tauto.
  - rewrite IH, last_sl_cons. tauto.
Qed.
Definition vel_any (pc : pcmd) : Prop := velocity pc = None /\ cmd pc <> Tie /\ note_cmd (cmd pc) = false.
Lemma vel_any_from l : Forall vel_any l -> forall last, vel_from last l.
Proof.
  induction 1 as [|c l (H1 & H2 & H3) _ IH]; intros last; [exact I|]. cbn [vel_from]. split; [|apply IH].
  unfold vel_rule. destruct (cmd c); try assumption; [discriminate|congruence].
Qed.
Lemma insert_rest_rests b cmds e t tpb cmds' e' :
  insert_rest b cmds e t tpb = Ok (cmds', e') -> exists l, cmds' = cmds ++ l /\ Forall (fun c => cmd c = Rest /\ velocity c = None) l.
Proof.
  unfold insert_rest. destruct (e <? t); [|intros [= <- _]; exists []; rewrite app_nil_r; split; [reflexivity|constructor]].
  intros H. inv_bind H. inv_bind H. injection H as <- _.
  destruct (0 <? d_length a).
  - eexists. rewrite <- app_assoc. split; [reflexivity|]. apply Forall_app. split; [|repeat constructor].
    apply Forall_forall. intros x Hx. apply repeat_spec in Hx. now subst.
  - eexists. split; [reflexivity|]. apply Forall_forall. intros x Hx. apply repeat_spec in Hx. now subst.
Qed.
Lemma rests_any l : Forall (fun c => cmd c = Rest /\ velocity c = None) l -> Forall vel_any l.
Proof. apply Forall_impl. intros c (H1 & H2). unfold vel_any. rewrite H1. repeat split; [assumption|discriminate]. Qed.
Lemma push_slide_any b s cmds k tpb cmds' :
  push_slide b s cmds k tpb = Ok cmds' -> exists l, cmds' = cmds ++ l /\ Forall vel_any l.
Proof.
  unfold push_slide. destruct (portamento s); [|intros [= <-]; exists []; rewrite app_nil_r; auto].
  destruct (last_opt cmds) as [lc|]; [|intros [= <-]; exists []; rewrite app_nil_r; auto].
  intros H. inv_bind H. inv_bind H.
  destruct (create_pitch_slide lc (d_length a) a0) as [sl|] eqn:E; injection H as <-; [|exists []; rewrite app_nil_r; auto].
  exists [sl]. split; [reflexivity|]. constructor; [|constructor].
  unfold create_pitch_slide in E. destruct (duration lc) as [d|].
  - destruct (cmd lc); try discriminate; injection E as <-; repeat split; discriminate.
  - destruct (cmd lc); discriminate.
Qed.
Lemma vel_append cmds l : vel_from false cmds -> Forall vel_any l -> vel_from false (cmds ++ l).
Proof. intros H Hl. apply vel_from_app. split; [assumption|now apply vel_any_from]. Qed.

Lemma step_vel b tpb tf s ev s' : vel_from false (commands s) -> track_step b tpb tf s ev = Ok s' -> vel_from false (commands s').
Proof.
  intros HI H. destruct ev as [m t]. cbn [track_step] in H.
  assert (Hplain : forall c, vel_any (plain_cmd c) -> vel_from false (commands s ++ [plain_cmd c])).
  { intros c Hc. apply vel_append; [assumption|]. constructor; [assumption|constructor]. }
  destruct m as [dt ev data|dt ev|dt ev data|].
  - destruct ev as [|kd]; cbn [on_meta] in H; [|injection H as <-; exact HI].
    inv_bind H. injection H as <-. cbn [set_commands commands]. apply Hplain. repeat split; discriminate.
  - destruct ev as [ch k v|ch k v|ch k v|ch ctl d|ch p|ch p|ch d|ch]; try (injection H as <-; exact HI; fail).
    + unfold on_note_off in H. destruct (note_start s) as [st|]; [|injection H as <-; exact HI].
      inv_bind H. inv_bind H. inv_bind H. inv_bind H. injection H as <-. cbn [commands].
      apply vel_from_app. split; [assumption|]. cbn [vel_from]. split.
      * unfold vel_rule. cbn [cmd velocity].
        destruct (match last_opt (commands s) with Some c => is_slide c | None => false end) eqn:E.
        -- injection Ha1 as <-. cbn. unfold last_sl.
           destruct (last_opt (commands s)); [|discriminate].
           replace (slide_cmd p) with (is_slide p) by reflexivity. rewrite E. discriminate.
        -- inv_bind Ha1. injection Ha1 as <-. discriminate.
      * unfold overflow_ties. destruct (0 <? overflow_count a0); [|exact I].
        assert (Hc : slide_cmd (mk_pcmd (Some 127) (Some (note_velocity s / 8)) (Some 7) a1) = false).
        { unfold slide_cmd. cbn [cmd]. destruct (match last_opt (commands s) with Some c => is_slide c | None => false end).
          - injection Ha1 as <-. reflexivity.
          - inv_bind Ha1. injection Ha1 as <-. reflexivity. }
        rewrite Hc. clear. induction (Z.to_nat (overflow_count a0 - 1)) as [|n IH]; cbn [repeat app vel_from].
        -- repeat split.
        -- split; [reflexivity|]. exact IH.
    + unfold on_note_on in H. inv_bind H. destruct a as [c1 e]. inv_bind H. destruct (note_start s); [discriminate|].
      injection H as <-. cbn [commands]. apply insert_rest_rests in Ha. destruct Ha as (l1 & -> & H1).
      apply push_slide_any in Ha0. destruct Ha0 as (l2 & -> & H2).
      apply vel_append; [|assumption]. apply vel_append; [assumption|now apply rests_any].
    + unfold on_control_change in H.
      destruct (ctl =? 5); [injection H as <-; exact HI|].
      destruct (ctl =? 7); [inv_bind H; injection H as <-; cbn [set_commands commands]; apply Hplain; repeat split; discriminate|].
      destruct (ctl =? 37); [injection H as <-; exact HI|].
      destruct (ctl =? 65); injection H as <-; exact HI.
    + unfold on_program_change in H. inv_bind H. destruct a as [c1 e]. inv_bind H. injection H as <-. cbn [commands].
      apply insert_rest_rests in Ha. destruct Ha as (l1 & -> & H1). rewrite <- app_assoc.
      apply vel_append; [assumption|]. apply Forall_app. split; [now apply rests_any|].
      constructor; [|constructor]. repeat split; discriminate.
  - injection H as <-. exact HI.
  - injection H as <-. exact HI.
Qed.

Lemma sustain_vel n : forall l l' last, (length l <= n)%nat -> vel_from last l -> sustain_pass l = Ok l' -> vel_from last l'.
Proof.
  induction n as [|n IH]; intros l l' last Hn Hl H.
  { destruct l; [|cbn in Hn; lia]. injection H as <-. exact I. }
  destruct l as [|c [|next l]]; [injection H as <-; exact I|injection H as <-; exact Hl|].
  rewrite sustain_pass_cons in H. inv_bind H. destruct a as [skip c']. inv_bind H. injection H as <-.
  assert (Hcase : (skip = false /\ c' = c) \/
    (skip = true /\ cmd next = Rest /\ (exists p, cmd c = Note p) /\ cmd c' = cmd c /\ velocity c' = velocity c)).
  { unfold set_sustain in Ha. destruct (cmd c) eqn:Ec; try (injection Ha as <- <-; auto; fail).
    destruct (cmd next); try (injection Ha as <- <-; auto; fail).
    inv_bind Ha. inv_bind Ha. destruct (_ =? 0); [discriminate|]. destruct (_ || _); injection Ha as <- <-; auto.
    right. repeat split; eauto. }
  cbn [vel_from] in Hl. destruct Hl as (H1 & H2 & H3). cbn [vel_from]. destruct Hcase as [(-> & ->)|(-> & E1 & (p & E2) & E3 & E4)].
  - split; [assumption|]. eapply (IH (next :: l)); [cbn in *; lia|split; assumption|exact Ha0].
  - split; [unfold vel_rule in *; rewrite E3, E4; exact H1|]. eapply (IH l); [cbn in *; lia| |exact Ha0].
    unfold slide_cmd in *. rewrite E3, E2. rewrite E1 in H3. exact H3.
Qed.

Lemma track_vel b events tpb mt tf tr : track_new b events tpb mt tf = Ok tr -> vel_from false tr.
Proof.
  unfold track_new. intros H. inv_bind H.
  assert (A : vel_from false (commands a)).
  { refine (ofold_inv (fun s => vel_from false (commands s)) _ _ _ _ _ _ Ha); [|exact I].
    intros s x s' _ Hs Hx. eapply step_vel; eassumption. }
  destruct (commands a) as [|c0 cs] eqn:Ec; [injection H as <-; exact I|]. rewrite <- Ec in *.
  inv_bind H. eapply sustain_vel; [apply le_n| |exact H].
  destruct (last_note_end a <? mt).
  - destruct a0 as [c1 e]. apply insert_rest_rests in Ha0. destruct Ha0 as (l & -> & Hl). cbn [fst].
    apply vel_append; [exact A|now apply rests_any].
  - injection Ha0 as <-. exact A.
Qed.

(** ** The notes heard from a command list *)
Lemma attacks_heard es1 : forall es2 now prev, map (heard false) es1 = map (heard false) es2 ->
  attacks_from now prev es1 = attacks_from now prev es2.
Proof.
  induction es1 as [|e1 es1 IH]; intros [|e2 es2] now prev H; try discriminate; [reflexivity|].
  cbn [map] in H. injection H as H1 H2 H3. cbn [attacks_from]. rewrite H1. f_equal.
  rewrite H1 in H2. destruct (SpecAram.sounding (ev_token e2)); [rewrite H2|]; now apply IH.
Qed.
Lemma attacks_prev es now p q : slid_to p = slid_to q -> attacks_from now p es = attacks_from now q es.
Proof. intros H. destruct es as [|e es]; [reflexivity|]. cbn [attacks_from]. unfold attack_of. now rewrite H. Qed.

Definition pitch_of (h : head) : Z :=
  match h_cmd h with
  | Note p => p
  | _ => match h_slide h with Some pc => match cmd pc with PitchSlide _ _ t => t | _ => 0 end | None => 0 end
  end.
Definition prev_ok (w : walk) (prev : option token) : Prop :=
  if w_last_slide w
  then exists sl p q t, w_slide w = Some sl /\ cmd sl = PitchSlide p q t /\ slid_to prev = Some t
  else slid_to prev = None.
Definition lasting (pc : pcmd) : Prop :=
  if SpecAram.sounding (token_of (cmd pc)) then exists d, duration pc = Some d /\ 0 < d else duration pc = None.

Lemma slid_token c : slid_to (Some (token_of c)) = match c with PitchSlide _ _ t => Some t | _ => None end.
Proof. destruct c; reflexivity. Qed.

Lemma heads_attacks l : forall w prev dur vs, Forall lasting l -> vel_from (w_last_slide w) l -> prev_ok w prev ->
  exists new, w_heads (fold_left walk_step l w) = w_heads w ++ new /\
    attacks_from (w_now w) prev (prescribed l dur vs) = map (fun h => (h_onset h, pitch_of h)) new /\
    Forall (fun h => h_tied h = true -> exists sl p q t, h_slide h = Some sl /\ cmd sl = PitchSlide p q t) new.
Proof.
  induction l as [|pc l IH]; intros w prev dur vs HL HV HP.
  { exists []. rewrite app_nil_r. repeat split; constructor. }
  inversion HL as [|? ? Hpc HL']; subst. cbn [vel_from] in HV. destruct HV as (Hv & HV).
  cbn [prescribed attacks_from ev_token ev_dur fold_left].
  assert (Hstep : (w_now w + if SpecAram.sounding (token_of (cmd pc)) then oelse (prescribed_dur dur pc) 0 else 0) = w_now (walk_step w pc)).
  { cbn [walk_step w_now]. unfold lasting in Hpc. unfold prescribed_dur, steps. destruct (SpecAram.sounding (token_of (cmd pc))).
    - destruct Hpc as (d & Hd & Hd0). rewrite Hd. unfold positive. replace (0 <? d) with true by lia. reflexivity.
    - rewrite Hpc. reflexivity. }
  rewrite Hstep.
  assert (HP' : prev_ok (walk_step w pc) (Some (token_of (cmd pc)))).
  { unfold prev_ok. cbn [walk_step w_last_slide w_slide]. rewrite slid_token. unfold slide_cmd. destruct (cmd pc) eqn:E; try reflexivity.
    exists pc. do 3 eexists. split; [reflexivity|]. split; [exact E|reflexivity]. }
  destruct (IH (walk_step w pc) (Some (token_of (cmd pc))) (prescribed_dur dur pc) (prescribed_vs vs pc) HL') as (new & H1 & H2 & H3);
    [exact HV|exact HP'|].
  rewrite H1, H2. cbn [walk_step w_heads].
  unfold vel_rule in Hv. unfold prev_ok in HP. unfold attack_of.
  destruct (cmd pc) eqn:E; cbn [token_of]; try (rewrite Hv; exists new; split; [reflexivity|]; split; [reflexivity|exact H3]).
  - destruct (velocity pc) as [v|]; [|congruence].
    eexists (_ :: new). rewrite <- app_assoc. split; [reflexivity|]. split; [reflexivity|]. constructor; [|exact H3].
    cbn [h_tied h_slide]. intros Ew. rewrite Ew in HP. destruct HP as (sl & sp & sq & st & HP1 & HP2 & _). eauto 6.
  - destruct (w_last_slide w) eqn:Ew.
    + destruct HP as (sl & sp & sq & st & HP1 & HP2 & ->). destruct (velocity pc) as [v|]; [|congruence].
      eexists (_ :: new). rewrite <- app_assoc. split; [reflexivity|]. split.
      * cbn [map app]. f_equal. unfold pitch_of. cbn [h_cmd h_slide h_onset]. now rewrite HP1, HP2.
      * constructor; [|exact H3]. intros _. cbn [h_slide]. eauto 6.
    + rewrite HP, Hv. exists new. split; [reflexivity|]. split; [reflexivity|exact H3].
Qed.

(** ** One converted voice *)
Lemma dur_ok_lasting pc : dur_ok' pc -> lasting pc.
Proof.
  intros [H|(p & d & Hc & Hd & Hr & _)].
  - unfold dur_ok in H. unfold lasting. destruct (cmd pc); cbn [token_of SpecAram.sounding];
      try (destruct H as ((d & Hd & Hr) & _); exists d; split; [exact Hd|lia]); apply H.
  - unfold lasting. rewrite Hc. cbn [token_of SpecAram.sounding]. exists d. split; [assumption|lia].
Qed.
Lemma converted_attacks b events tpb mt tf tr prev : 1 <= tpb <= 65535 -> voice_ok tpb mt events ->
  track_new b events tpb mt tf = Ok tr -> slid_to prev = None ->
  Forall2 (fun x n => heard_at tpb (tolerance tpb (length events)) x (n_on n) (n_key n))
    (attacks_from 0 prev (prescribed tr None None)) (notes_of events).
Proof.
  intros Hg HV H Hp. destruct (track_converts b tpb tf events mt Hg HV) as (tr' & H' & HF & _ & Hd).
  rewrite H in H'. injection H' as <-.
  destruct (heads_attacks tr walk0 prev None None) as (new & H1 & H2 & H3).
  - eapply Forall_impl; [|exact Hd]. exact dur_ok_lasting.
  - exact (track_vel _ _ _ _ _ _ H).
  - exact Hp.
  - change (w_now walk0) with 0 in H2. rewrite H2. unfold heads in HF. rewrite H1 in HF. cbn [walk0 w_heads app] in HF.
    clear - HF H3. revert H3. induction HF as [|h n lh ln (R1 & R2 & R3 & R4 & R5) _ IH]; intros H3; cbn [map]; constructor.
    2:{ apply IH. now inversion H3. }
    inversion H3 as [|? ? H3h _]; subst. unfold heard_at. cbn [fst snd]. split; [exact R1|]. unfold pitch_of, driver_pitch.
    destruct (h_tied h).
    + rewrite R3. destruct (H3h eq_refl) as (sl & p & q & t & E1 & E2). rewrite E1, E2, (R4 _ _ _ _ E1 E2). lia.
    + rewrite R3. lia.
Qed.

Lemma converted_playable b events tpb mt tf tr : 1 <= tpb <= 65535 -> voice_ok tpb mt events ->
  (forall n, In n (notes_of events) -> 24 <= n_key n <= 95) ->
  track_new b events tpb mt tf = Ok tr -> Forall (fun pc => in_range 0 127 (duration pc)) tr ->
  Forall playable tr /\ loop_free tr.
Proof.
  intros Hg HV Hk H Hd. pose proof (proj2 (track_decodable b tpb tf events mt tr Hg HV H Hk) Hd) as Hw.
  destruct (track_converts b tpb tf events mt Hg HV) as (tr' & H' & _ & _ & HD). rewrite H in H'. injection H' as <-.
  assert (Hok : Forall pcmd_ok tr).
  { clear - Hw. revert Hw. unfold well_formed. generalize false. induction tr as [|c l IH]; intros r H; [constructor|].
    cbn [well_formed_from] in H. destruct H as (H1 & _ & H2). constructor; [exact H1|eapply IH; exact H2]. }
  rewrite Forall_forall in Hok, HD. split; apply Forall_forall; intros pc Hin.
  - specialize (Hok pc Hin). specialize (HD pc Hin). pose proof (dur_ok_lasting pc HD) as HL.
    assert (Hs : self_timed pc).
    { intros Hn. unfold lasting in HL. destruct (SpecAram.sounding (token_of (cmd pc))) eqn:E.
      - destruct HL as (d & Hd1 & Hd2). rewrite Hd1. unfold positive. replace (0 <? d) with true by lia. discriminate.
      - destruct Hn as [Hn|Hn]; [discriminate|]. exfalso.
        destruct HD as [HD|(p & d & Hc & _)]; [|rewrite Hc in E; discriminate].
        unfold dur_ok in HD. unfold needs_dur in Hn. destruct (cmd pc); try discriminate;
          destruct HD as (_ & Hv & Hq & _); rewrite Hv, Hq in Hn; cbn in Hn; intuition congruence. }
    unfold playable. destruct (cmd pc) eqn:E; try (split; assumption).
    exfalso. destruct HD as [HD|(p & d & Hc & _)]; [|congruence]. unfold dur_ok in HD. rewrite E in HD. apply HD.
  - intros t k E. specialize (HD pc Hin). destruct HD as [HD|(p & d & Hc & _)]; [|congruence]. unfold dur_ok in HD. rewrite E in HD. apply HD.
Qed.

(** ** A converted song *)
Lemma finite_choice {A} (P : nat -> A -> Prop) n : (forall i, (i < n)%nat -> exists x, P i x) ->
  exists l, length l = n /\ forall i x, nth_error l i = Some x -> P i x.
Proof.
  induction n as [|n IH]; intros H.
  - exists []. split; [reflexivity|]. intros [|i] x E; discriminate.
  - destruct IH as (l & Hl & HP); [intros i Hi; apply H; lia|]. destruct (H n) as (x & Hx); [lia|].
    exists (l ++ [x]). split; [rewrite app_length; cbn; lia|]. intros i y E.
    destruct (Nat.lt_ge_cases i n) as [Hi|Hi].
    + rewrite nth_error_app1 in E by lia. eauto.
    + rewrite nth_error_app2 in E by lia. destruct (i - length l)%nat as [|k] eqn:Ek; [|destruct k; discriminate].
      injection E as <-. replace i with n by lia. exact Hx.
Qed.

Lemma forall2_nth {A B} (R : A -> B -> Prop) l1 : forall l2, length l1 = length l2 ->
  (forall i x y, nth_error l1 i = Some x -> nth_error l2 i = Some y -> R x y) -> Forall2 R l1 l2.
Proof.
  induction l1 as [|x l1 IH]; intros [|y l2] Hl H; try discriminate; constructor.
  - exact (H 0%nat x y eq_refl eq_refl).
  - apply IH; [now injection Hl|]. intros i. exact (H (S i)).
Qed.

Lemma tolerance_mono tpb n m : (n <= m)%nat -> tolerance tpb n <= tolerance tpb m.
Proof. unfold tolerance. intros H. destruct (tpb mod 24 =? 0); lia. Qed.

Lemma heard_mono tpb n m x on key : (n <= m)%nat -> heard_at tpb (tolerance tpb n) x on key -> heard_at tpb (tolerance tpb m) x on key.
Proof. intros H [H1 H2]. split; [|exact H2]. pose proof (tolerance_mono tpb n m H). lia. Qed.

Lemma frame_attacks s n i pre es : parts s = [seq 0 n] -> (i < n)%nat -> frame_cmds s i pre ->
  exists prev, slid_to prev = None /\ attacks (control_events pre ++ es) = attacks_from 0 prev es.
Proof.
  intros Hp Hi (H1 & H2 & _). rewrite Hp in *. destruct i as [|i].
  - rewrite H1; [|exists (seq 1 (n - 1)); destruct n; [lia|left; cbn [seq Nat.sub]; now rewrite Nat.sub_0_r]].
    exists (Some (TControl 0xed [0xc8])). split; reflexivity.
  - rewrite H2.
    + exists (Some (TControl 0xed [0xc8])). split; reflexivity.
    + intros q [Hq|[]]. destruct n; [lia|]. cbn [seq] in Hq. injection Hq as Hq _. discriminate.
    + exists (seq 0 n). split; [left; reflexivity|apply in_seq; lia].
Qed.

Lemma run_somewhere mem calls a st es st' : mem 0 = None -> run mem calls a st es st' -> a <> 0.
Proof.
  intros H0 Hr ->. assert (Hf : fetch mem 0 = None) by (unfold fetch; cbn [read]; now rewrite H0).
  inversion Hr; subst; congruence.
Qed.

Lemma track_sounds s n mem a lp at_ i tr out : mem 0 = None -> song_in mem a lp s at_ -> parts s = [seq 0 n] ->
  well_formed_loops n (tracks s) -> (n <= length (tracks s))%nat -> Forall (fun tr : track => Forall playable tr) (tracks s) ->
  (i < n)%nat -> nth_error (tracks s) i = Some tr -> tr <> [] -> plays_as (tracks s) tr out ->
  exists es prev, voice_plays mem (nth i at_ 0) es /\ slid_to prev = None /\ attacks es = attacks_from 0 prev (prescribed out None None).
Proof.
  intros H0 Hs Hp Hw Hl Hpl Hi Ht Hne Hpa.
  destruct (heard_timing mem a lp s at_ n i tr out Hs) as (pre & es & st & Hf & Hr & He); try assumption.
  - split; [exact Hl|]. split; [exact Hw|]. rewrite Hp. intros p [<-|[]]. split.
    + destruct n; [lia|discriminate].
    + apply Forall_forall. intros t Hin. apply in_seq in Hin. lia.
  - destruct (frame_attacks s n i pre es Hp Hi Hf) as (prev & Hsl & Ha).
    exists (control_events pre ++ es), prev. split; [|split; [exact Hsl|]].
    + unfold voice_plays. replace (nth i at_ 0 =? 0) with false; [eauto|]. symmetry. apply Z.eqb_neq. eapply run_somewhere; eassumption.
    + rewrite Ha. now apply attacks_heard.
Qed.

Lemma silent_track b events tpb mt tf : 1 <= tpb <= 65535 -> voice_ok tpb mt events ->
  track_new b events tpb mt tf = Ok [] -> notes_of events = [].
Proof.
  intros Hg HV H. destruct (track_converts b tpb tf events mt Hg HV) as (tr' & H' & HF & _). rewrite H in H'. injection H' as <-.
  inversion HF. reflexivity.
Qed.

Lemma song_sounds b voices tpb mt n tf opt s trs mem a lp at_ :
  song_from_midi b voices tpb mt tf opt = Ok s -> (length voices <= 8)%nat -> 1 <= tpb <= 65535 -> voices_ok tpb mt n voices ->
  voice_tracks b voices tpb mt tf trs -> Forall seven_bit trs -> (opt = true -> keeps_music trs (tracks s)) ->
  song_in mem a lp s at_ -> mem 0 = None ->
  exists ess, song_plays mem a ess /\
    Forall2 (fun x v => heard_at tpb (tolerance tpb n) x (n_on v) (n_key v)) (flat_map attacks ess) (flat_map notes_of voices).
Proof.
  intros H Hv8 Hg HV Htr Hsh Hopt Hin H0.
  destruct Htr as (ts & HF & Etrs).
  assert (Hconv : exists trs', voice_tracks b voices tpb mt tf trs' /\ (length trs' <= length voices)%nat /\ parts s = [seq 0 (length trs')] /\
     (opt = false -> tracks s = trs') /\ (opt = true -> optimize_call_loops b trs' (length trs') = Ok (tracks s))).
  { unfold song_from_midi in H. inv_bind H. cbv zeta in H. apply convert_voices_spec in Ha. exists a0.
    split; [exact Ha|]. split; [exact (voice_tracks_length _ _ _ _ _ _ Ha)|].
    destruct opt.
    - inv_bind H. injection H as <-. cbn [parts tracks]. split; [reflexivity|]. split; [discriminate|]. intros _. exact Ha0.
    - injection H as <-. cbn [parts tracks]. split; [reflexivity|]. split; [reflexivity|discriminate]. }
  destruct Hconv as (trs' & (ts' & HF' & Etrs') & Hlen & Hpart & Hf & Ht).
  assert (ts' = ts).
  { clear - HF HF'. revert ts' HF'. induction HF as [|v t vs ts0 E _ IH]; intros ts' HF'; inversion HF' as [|? ? ? ? E' HF'']; subst; [reflexivity|].
    rewrite E in E'. injection E' as <-. f_equal. now apply IH. }
  subst ts'. rewrite <- Etrs in Etrs'. clear HF'. rewrite Etrs' in *. clear trs' Etrs'.
  (* properties of the unoptimised tracks *)
  assert (HP : Forall (fun tr : track => tr <> [] /\ Forall playable tr /\ loop_free tr) trs).
  { rewrite Etrs in *. clear - HF HV Hg Hsh. revert HV Hsh. induction HF as [|v t vs ts E _ IH]; intros HV Hsh; [constructor|].
    inversion HV as [|? ? (Hv1 & Hv2 & Hv3) HV']; subst. cbn [filter] in *. destruct t as [|c t]; [apply IH; assumption|].
    inversion Hsh as [|? ? Hs1 Hs2]; subst. constructor; [|apply IH; assumption]. split; [discriminate|].
    exact (converted_playable b v tpb mt tf (c :: t) Hg Hv1 Hv3 E Hs1). }
  assert (Hfree : Forall loop_free trs) by (eapply Forall_impl; [|exact HP]; intros ? (? & ? & ?); assumption).
  assert (Hplay : Forall (fun tr : track => Forall playable tr) trs) by (eapply Forall_impl; [|exact HP]; intros ? (? & ? & ?); assumption).
  assert (Hshape : well_formed_loops (length trs) (tracks s) /\ (length trs <= length (tracks s))%nat /\
     Forall (fun tr : track => Forall playable tr) (tracks s) /\
     forall i o, nth_error trs i = Some o -> exists tr, nth_error (tracks s) i = Some tr /\ plays_as (tracks s) tr o).
  { destruct opt.
    - specialize (Ht eq_refl). split; [now apply (optimize_wfl b)|]. split; [now apply (optimize_top b)|]. split; [now apply (optimize_playable b trs)|].
      intros i o Ho. apply (Hopt eq_refl); exact Ho.
    - rewrite (Hf eq_refl). split; [now apply free_wfl|]. split; [lia|]. split; [exact Hplay|]. intros i o Ho. exists o. split; [exact Ho|].
      apply plays_free. rewrite Forall_forall in Hfree. eapply Hfree, nth_error_In; exact Ho. }
  destruct Hshape as (Hw & Hl & Hpl & Hsame).
  destruct (finite_choice (fun i es => voice_plays mem (nth i at_ 0) es /\ exists o prev, nth_error trs i = Some o /\ slid_to prev = None /\
     attacks es = attacks_from 0 prev (prescribed o None None)) (length trs)) as (ess & Hel & Hess).
  { intros i Hi. destruct (nth_error trs i) as [o|] eqn:Eo; [|apply nth_error_None in Eo; lia].
    destruct (Hsame i o Eo) as (tr & Et & Hpa).
    assert (Hne : tr <> []).
    { intros ->. inversion Hpa; subst. rewrite Forall_forall in HP. apply nth_error_In in Eo. destruct (HP _ Eo) as [Hx _]. now apply Hx. }
    destruct (track_sounds s (length trs) mem a lp at_ i tr o H0 Hin Hpart Hw Hl Hpl Hi Et Hne Hpa) as (es & prev & E1 & E2 & E3).
    exists es. split; [exact E1|]. exists o, prev. auto. }
  exists (ess ++ repeat [] (8 - length trs)). split.
  - exists (a + header_size lp). split; [apply (si_header _ _ _ _ _ Hin)|]. split; [rewrite app_length, repeat_length; lia|].
    destruct (si_part _ _ _ _ _ Hin) as (part & Ep & Hw8). rewrite Hpart in Ep. injection Ep as <-. intros k es Ek.
    assert (Hk : (k < 8)%nat). { apply nth_error_lt in Ek. rewrite app_length, repeat_length in Ek. lia. }
    eexists. split; [exact (Hw8 k Hk)|].
    destruct (Nat.lt_ge_cases k (length trs)) as [Hk'|Hk'].
    + rewrite nth_error_app1 in Ek by lia. destruct (Hess k es Ek) as (Hp1 & _).
      rewrite (nth_error_nth' (seq 0 (length trs)) 0%nat) by (rewrite seq_length; lia). rewrite seq_nth by lia. exact Hp1.
    + rewrite nth_error_app2 in Ek by lia. rewrite (proj2 (nth_error_None (seq 0 (length trs)) k)) by (rewrite seq_length; lia).
      apply nth_error_In, repeat_spec in Ek. exact Ek.
  - rewrite flat_map_app. replace (flat_map attacks (repeat [] (8 - length trs))) with (@nil (Z * Z)) by (induction (8 - length trs)%nat; [reflexivity|assumption]).
    rewrite app_nil_r.
    assert (HQ : Forall2 (fun es o => exists prev, slid_to prev = None /\ attacks es = attacks_from 0 prev (prescribed o None None)) ess trs).
    { apply forall2_nth; [exact Hel|]. intros i e o Ee Eo. destruct (Hess i e Ee) as (_ & o' & prev & Eo' & E2).
      assert (E3 : Some o' = Some o) by (rewrite <- Eo'; exact Eo). injection E3 as ->. eauto. }
    clear - HQ HF HV Hg Etrs. subst trs. revert ess HV HQ. induction HF as [|v t vs ts E _ IH]; intros ess HV HQ.
    + cbn [filter] in HQ. inversion HQ. constructor.
    + inversion HV as [|? ? (Hv1 & Hv2 & Hv3) HV']; subst. cbn [filter flat_map] in *. destruct t as [|c t].
      * rewrite (silent_track b v tpb mt tf Hg Hv1 E). apply IH; assumption.
      * inversion HQ as [|es o ess' ? (prev & Hsl & Ha) HQ']; subst. cbn [flat_map]. apply Forall2_app; [|apply IH; assumption].
        rewrite Ha. pose proof (converted_attacks b v tpb mt tf (c :: t) prev Hg Hv1 E Hsl) as HF2.
        clear - HF2 Hv2. induction HF2; constructor; [eapply heard_mono; eassumption|assumption].
Qed.

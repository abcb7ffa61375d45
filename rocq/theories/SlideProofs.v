(** SlideProofs.v: pitch slides (C48), decodability (C14) and the cases where the conversion loses time. *)
From Coq Require Import ZArith List Bool Lia ZifyBool ZifyNat.
From Verif Require Import Base F32 Messages Command Track ProofLib SpecTime SpecNspc SplitProofs DurationProofs
  CodecProofs SpecVoice TrackProofs.

Lemma slides_fit_app prev l1 l2 : slides_fit prev (l1 ++ l2) <->
  slides_fit prev l1 /\ slides_fit (match last_opt l1 with Some c => Some c | None => prev end) l2.
Proof.
  revert prev. induction l1 as [|c l1 IH]; intros prev; [cbn; tauto|].
  cbn [app slides_fit]. rewrite IH.
  replace (last_opt (c :: l1)) with (match last_opt l1 with Some x => Some x | None => Some c end).
  - destruct (last_opt l1); tauto.
  - destruct l1 as [|c' l1]; [reflexivity|]. change (last_opt (c :: c' :: l1)) with (last_opt (c' :: l1)).
    destruct (last_opt (c' :: l1)) eqn:E; [reflexivity|]. apply last_opt_nil in E. discriminate.
Qed.
Lemma slides_fit_none prev l : Forall (fun c => slide_cmd c = false) l -> slides_fit prev l.
Proof.
  revert prev. induction l as [|c l IH]; intros prev H; cbn [slides_fit]; [exact I|].
  inversion H as [|? ? Hc Hl]; subst. split; [|apply IH; assumption].
  unfold slide_cmd in Hc. destruct (cmd c); try exact I. discriminate.
Qed.
Definition plainish (l : list pcmd) : Prop := Forall (fun c => slide_cmd c = false) l.
Lemma insert_rest_shape b cmds e t tpb cmds' e' :
  insert_rest b cmds e t tpb = Ok (cmds', e') -> exists l, cmds' = cmds ++ l /\ plainish l.
Proof.
  unfold insert_rest. destruct (e <? t); [|intros [= <- _]; exists []; rewrite app_nil_r; split; [reflexivity|constructor]].
  intros H. inv_bind H. inv_bind H. injection H as <- _.
  destruct (0 <? d_length a).
  - eexists. rewrite <- app_assoc. split; [reflexivity|]. apply Forall_app. split; [|repeat constructor].
    apply Forall_forall. intros x Hx. apply repeat_spec in Hx. now subst.
  - eexists. split; [reflexivity|]. apply Forall_forall. intros x Hx. apply repeat_spec in Hx. now subst.
Qed.

Definition sfit (l : list pcmd) : Prop := slides_fit None l.
Lemma sfit_plain cmds l : sfit cmds -> plainish l -> sfit (cmds ++ l).
Proof. intros H Hl. apply slides_fit_app. split; [assumption|]. now apply slides_fit_none. Qed.

Lemma get_duration_len b t tpb up d : get_duration b t tpb up = Ok d -> 0 <= d_length d <= 127.
Proof.
  intros H. apply get_duration_ok in H. destruct H as (prod & _ & ->).
  destruct (split_length_ranges _ (prod / 24) (quantized_nonneg t tpb up)) as (_ & D & _). exact D.
Qed.

Lemma push_slide_fit b s cmds k tpb cmds' :
  sfit cmds -> (forall c, In c cmds -> forall d, duration c = Some d -> 0 <= d) ->
  push_slide b s cmds k tpb = Ok cmds' ->
  sfit cmds' /\ exists l, cmds' = cmds ++ l /\ Forall (fun c => duration c = None) l.
Proof.
  intros H Hd Hp. unfold push_slide in Hp.
  assert (Hsame : sfit cmds /\ exists l, cmds = cmds ++ l /\ Forall (fun c => duration c = None) l).
  { split; [assumption|]. exists []. rewrite app_nil_r. split; [reflexivity|constructor]. }
  destruct (portamento s); [|injection Hp as <-; assumption].
  destruct (last_opt cmds) as [lc|] eqn:El; [|injection Hp as <-; assumption].
  inv_bind Hp. inv_bind Hp. rename a into dr.
  apply get_duration_len in Ha. unfold create_pitch_slide in Hp.
  assert (Hlc : In lc cmds).
  { apply last_opt_some in El. destruct El as (l' & ->). apply in_or_app. right. left. reflexivity. }
  destruct (duration lc) as [d|] eqn:Ed; [|destruct (cmd lc); injection Hp as <-; assumption].
  specialize (Hd lc Hlc d Ed).
  assert (Hpush : sfit (cmds ++ [mk_pcmd None None None (PitchSlide (d - Z.min (d_length dr) d) (d_length dr) a0)]) \/ cmd lc = Rest).
  { destruct (cmd lc) eqn:Ec; [left| |left..]; [|right; reflexivity|..];
    (apply slides_fit_app; split; [assumption|]; rewrite El; cbn [slides_fit cmd]; split; [|exact I];
     exists lc, d; split; [reflexivity|]; split; [congruence|]; split; [assumption|]; lia). }
  destruct Hpush as [Hpush|Hr].
  - destruct (cmd lc); injection Hp as <-;
      first [ assumption
            | split; [assumption|]; eexists; split; [reflexivity|]; repeat constructor ].
  - rewrite Hr in Hp. injection Hp as <-. assumption.
Qed.

Definition dpos (l : list pcmd) : Prop := forall c, In c l -> forall d, duration c = Some d -> 0 <= d.
Lemma dpos_app l1 l2 : dpos l1 -> dpos l2 -> dpos (l1 ++ l2).
Proof. intros H1 H2 c Hc. apply in_app_or in Hc. destruct Hc; [apply H1|apply H2]; assumption. Qed.
Lemma insert_rest_dpos b cmds e t tpb cmds' e' : dpos cmds ->
  insert_rest b cmds e t tpb = Ok (cmds', e') -> dpos cmds'.
Proof.
  intros Hd. unfold insert_rest. destruct (e <? t); [|intros [= <- _]; assumption].
  intros H. inv_bind H. inv_bind H. injection H as <- _. apply get_duration_len in Ha.
  assert (Hr : dpos (repeat (rest_cmd 127) (Z.to_nat (overflow_count a)))).
  { intros c Hc d Hdc. apply repeat_spec in Hc. subst c. injection Hdc as <-. lia. }
  destruct (0 <? d_length a).
  - apply dpos_app; [apply dpos_app; assumption|]. intros c [<-|[]] d [= <-]. lia.
  - apply dpos_app; assumption.
Qed.

Definition slide_inv (s : tstate) : Prop := sfit (commands s) /\ dpos (commands s).
Lemma slide_inv_plain s c : slide_inv s -> slide_cmd (plain_cmd c) = false ->
  slide_inv (set_commands s (commands s ++ [plain_cmd c])).
Proof.
  intros (A & B) H. split; cbn [set_commands commands].
  - apply sfit_plain; [assumption|]. repeat constructor. assumption.
  - apply dpos_app; [assumption|]. intros x [<-|[]] d. discriminate.
Qed.

Lemma slide_step b tpb tf s ev s' : slide_inv s -> track_step b tpb tf s ev = Ok s' -> slide_inv s'.
Proof.
  intros HI H. destruct ev as [m t]. destruct m as [dt me data|dt e|dt e data|]; cbn [track_step] in H;
    try (injection H as <-; assumption).
  - destruct me; cbn [on_meta] in H; [|injection H as <-; assumption].
    inv_bind H. injection H as <-. now apply slide_inv_plain.
  - destruct e as [ch k v|ch k v|ch k v|ch ctl d|ch p|ch p|ch d|ch]; try (injection H as <-; assumption).
    + (* off *)
      unfold on_note_off in H. destruct (note_start s) as [start|]; [|injection H as <-; assumption].
      inv_bind H. inv_bind H. inv_bind H. inv_bind H. injection H as <-. destruct HI as (A & B).
      assert (Hhd : is_slide (mk_pcmd None None None a1) = false).
      { destruct (match last_opt (commands s) with Some _ => _ | None => _ end).
        - injection Ha1 as <-. reflexivity.
        - inv_bind Ha1. injection Ha1 as <-. reflexivity. }
      rename a0 into d. apply get_duration_len in Ha0.
      assert (Hti : plainish (overflow_ties (overflow_count d) (d_length d)) /\ dpos (overflow_ties (overflow_count d) (d_length d))).
      { unfold overflow_ties. destruct (0 <? overflow_count d); [|split; [constructor|intros x []]]. split.
        - apply Forall_app. split; [|repeat constructor]. apply Forall_forall. intros x Hx. apply repeat_spec in Hx. now subst.
        - apply dpos_app; [|intros x [<-|[]] y [= <-]; lia].
          intros x Hx y Hy. apply repeat_spec in Hx. subst x. injection Hy as <-. lia. }
      destruct Hti as (T1 & T2). split; cbn [commands].
      * apply sfit_plain; [assumption|]. constructor; [exact Hhd|assumption].
      * apply dpos_app; [assumption|]. intros x [<-|Hx] y Hy; [|eapply T2; eauto].
        injection Hy as <-. destruct (0 <? overflow_count d); lia.
    + (* on *)
      unfold on_note_on in H. inv_bind H. destruct a as [c1 e]. inv_bind H. rename a into c2.
      destruct (note_start s); [discriminate|]. injection H as <-. destruct HI as (A & B).
      pose proof (insert_rest_dpos _ _ _ _ _ _ _ B Ha) as Hd1.
      apply insert_rest_shape in Ha. destruct Ha as (l & -> & Hl).
      pose proof (sfit_plain _ _ A Hl) as A1.
      destruct (push_slide_fit _ _ _ _ _ _ A1 Hd1 Ha0) as (A2 & l2 & -> & Hl2).
      split; cbn [commands]; [assumption|]. apply dpos_app; [assumption|].
      intros x Hx y Hy. rewrite Forall_forall in Hl2. rewrite (Hl2 x Hx) in Hy. discriminate.
    + unfold on_control_change in H.
      destruct (ctl =? 5); [injection H as <-; exact HI|].
      destruct (ctl =? 7); [inv_bind H; injection H as <-; now apply slide_inv_plain|].
      destruct (ctl =? 37); [injection H as <-; exact HI|].
      destruct (ctl =? 65); injection H as <-; exact HI.
    + unfold on_program_change in H. inv_bind H. destruct a as [c1 e]. inv_bind H. injection H as <-.
      destruct HI as (A & B).
      pose proof (insert_rest_dpos _ _ _ _ _ _ _ B Ha) as Hd1.
      apply insert_rest_shape in Ha. destruct Ha as (l & -> & Hl). split; cbn [commands].
      * rewrite <- app_assoc. apply sfit_plain; [assumption|]. apply Forall_app. split; [assumption|repeat constructor].
      * apply dpos_app; [assumption|]. intros x [<-|[]] y. discriminate.
Qed.

Lemma slides_fit_after_rest r prev l : cmd r = Rest -> slides_fit (Some r) l -> slides_fit prev l.
Proof.
  intros Hr H. destruct l as [|c l]; [exact I|]. cbn [slides_fit] in *. destruct H as (H & H'). split; [|assumption].
  destruct (cmd c); try exact I. destruct H as (pc & d & [= <-] & Hn & _). congruence.
Qed.
Lemma sustain_fit n : forall l prev l', (length l <= n)%nat -> slides_fit prev l -> sustain_pass l = Ok l' -> slides_fit prev l'.
Proof.
  induction n as [|n IH]; intros l prev l' Hn Hl H.
  { destruct l; [|cbn in Hn; lia]. injection H as <-. exact I. }
  destruct l as [|c [|next l]]; [injection H as <-; exact I|injection H as <-; assumption|].
  rewrite sustain_pass_cons in H. inv_bind H. destruct a as [skip c']. inv_bind H. injection H as <-.
  cbn [slides_fit] in Hl. destruct Hl as (Hc & Hl).
  unfold set_sustain in Ha.
  assert (Hcase : (skip = false /\ c' = c) \/ (skip = true /\ cmd next = Rest /\ exists p, cmd c' = Note p)).
  { destruct (cmd c); try (injection Ha as <- <-; auto; fail).
    destruct (cmd next); try (injection Ha as <- <-; auto; fail).
    inv_bind Ha. inv_bind Ha. destruct (_ =? 0); [discriminate|]. destruct (_ || _); injection Ha as <- <-; auto.
    right. split; [reflexivity|]. split; [reflexivity|]. eexists. reflexivity. }
  destruct Hcase as [(-> & ->)|(-> & Hr & p & Hp)].
  - cbn [slides_fit]. split; [assumption|]. apply (IH (next :: l)); [cbn in *; lia| |assumption].
    exact Hl.
  - cbn [slides_fit]. rewrite Hp. split; [exact I|].
    apply (IH l); [cbn in *; lia| |assumption]. cbn [slides_fit] in Hl. destruct Hl as (_ & Hl).
    eapply slides_fit_after_rest; eauto.
Qed.

Lemma track_slides_fit b events tpb max_time tf tr :
  track_new b events tpb max_time tf = Ok tr -> slides_fit None tr.
Proof.
  intros H. unfold track_new in H. inv_bind H. rename a into s.
  assert (HI : slide_inv s).
  { apply (ofold_inv slide_inv _ events tstate0 s) in Ha; [assumption| |split; [exact I|intros x []]].
    intros s0 x s1 _ HI Hst. eapply slide_step; eauto. }
  destruct HI as (A & B). destruct (commands s) eqn:Ec; [injection H as <-; exact I|]. rewrite <- Ec in *. clear Ec.
  inv_bind H. eapply sustain_fit; [apply le_n| |exact H].
  destruct (last_note_end s <? max_time).
  - destruct a as [c1 e]. apply insert_rest_shape in Ha0. destruct Ha0 as (l1 & -> & Hl). cbn [fst]. now apply sfit_plain.
  - injection Ha0 as <-. exact A.
Qed.

(** ** Decodability *)
Lemma head_of_velocity l pc v : In pc l -> velocity pc = Some v -> exists h, In h (heads l) /\ h_cmd h = cmd pc /\ h_vel h = v.
Proof.
  unfold heads. intros Hin Hv.
  assert (Hmono : forall l w h, In h (w_heads w) -> In h (w_heads (fold_left walk_step l w))).
  { induction l0 as [|c l0 IH]; intros w h Hh; cbn [fold_left]; [assumption|]. apply IH.
    cbn [walk_step w_heads]. destruct (velocity c); [apply in_or_app; left|]; assumption. }
  apply in_split in Hin. destruct Hin as (l1 & l2 & ->). rewrite fold_left_app. cbn [fold_left].
  set (w := fold_left walk_step l1 walk0).
  exists (mk_head (w_now w) (cmd pc) v (w_slide w) (w_last_slide w)). split; [|split; reflexivity].
  apply Hmono. cbn [walk_step w_heads]. rewrite Hv. apply in_or_app. right. left. reflexivity.
Qed.

Definition short (pc : pcmd) : Prop := in_range 0 127 (duration pc).
Lemma dur_ok_wf pc running : dur_ok' pc -> short pc -> (forall p, cmd pc = Note p -> 0x80 <= p <= 0xc7) ->
  pcmd_ok pc /\ (needs_dur pc -> (match duration pc with Some d => 0 <? d | None => running end) = true).
Proof.
  intros H Hs Hn. unfold short in Hs. destruct H as [H|(p & d & Hc & Hd & Hr & (v & Hv & Hv1) & Hsu & Hp)].
  - unfold dur_ok in H. unfold pcmd_ok, bytes_ok, driver_ok, needs_dur.
    destruct (cmd pc) eqn:Ec; cbn [plain_ok] in H; try tauto; cbn [token_of is_note].
    1: { destruct H as ((d & Hd & Hd1) & (v & Hv & Hv1) & Hsu & Hp). rewrite Hd, Hv in *.
         split; [|intros _; lia]. split; [exact Hp|]. split; [auto|]. split; [cbn; lia|]. split; [cbn; lia|assumption]. }
    1: { destruct H as ((d & Hd & Hd1) & Hv & Hsu). rewrite Hd, Hv, Hsu in *.
         split; [|intros _; lia]. cbn. repeat split; auto; lia. }
    1: { destruct H as ((d & Hd & Hd1) & Hv & Hsu). rewrite Hd in *.
         split; [|intros _; lia]. split; [exact I|]. split; [exact I|]. split; [cbn; lia|]. split; assumption. }
    all: destruct H as (Hd & Hv & Hsu & Hb); unfold bytes_ok in Hb; cbn [token_of] in Hb; rewrite Hd, Hv, Hsu;
      (split; [cbn; repeat split; auto|]); intros [Hx|[Hx|Hx]]; cbn in Hx; congruence.
  - unfold pcmd_ok, bytes_ok, driver_ok, needs_dur. rewrite Hc, Hd, Hv in *. cbn [token_of is_note].
    split; [|intros _; lia]. split; [exact Hp|]. split; [auto|]. split; [exact Hs|]. split; [cbn; lia|assumption].
Qed.

Lemma wf_of_parts l : Forall dur_ok' l -> Forall short l ->
  (forall pc p, In pc l -> cmd pc = Note p -> 0x80 <= p <= 0xc7) -> forall running, well_formed_from running l.
Proof.
  induction l as [|c l IH]; intros H1 H2 H3 running; cbn [well_formed_from]; [exact I|].
  inversion H1; subst. inversion H2; subst.
  destruct (dur_ok_wf c running) as (A & B); auto. { intros p Hp. apply (H3 c p); [left; reflexivity|assumption]. }
  split; [assumption|]. split; [assumption|]. apply IH; auto. intros pc p Hin. apply H3. right; assumption.
Qed.

Lemma track_decodable b tpb tf events max_time tr :
  1 <= tpb <= 65535 -> voice_ok tpb max_time events ->
  track_new b events tpb max_time tf = Ok tr ->
  (forall n, In n (notes_of events) -> 24 <= n_key n <= 95) ->
  (well_formed tr <-> Forall (fun pc => in_range 0 127 (duration pc)) tr).
Proof.
  intros Hg HV Ht Hk. destruct (track_converts b tpb tf events max_time Hg HV) as (tr' & Ht' & HF & _ & Hd).
  rewrite Ht in Ht'. injection Ht' as <-. split.
  - unfold well_formed. generalize false. clear. induction tr as [|c l IH]; intros r H; [constructor|].
    cbn [well_formed_from] in H. destruct H as (H1 & _ & H2). constructor; [apply H1|eapply IH; eauto].
  - intros Hs. apply wf_of_parts; auto. intros pc p Hin Hp.
    assert (Hv : exists v, velocity pc = Some v).
    { rewrite Forall_forall in Hd. destruct (Hd pc Hin) as [H|(p' & d & _ & _ & _ & (v & Hv & _) & _)]; [|eauto].
      unfold dur_ok in H. rewrite Hp in H. destruct H as (_ & (v & Hv & _) & _). eauto. }
    destruct Hv as (v & Hv). destruct (head_of_velocity tr pc v Hin Hv) as (h & Hh & Hc & _).
    assert (HH : exists n, In n (notes_of events) /\ renders tpb (tolerance tpb (length events)) h n).
    { clear - HF Hh. induction HF as [|x y lx ly Hxy HF IH]; [destruct Hh|]. destruct Hh as [<-|Hh].
      - exists y. split; [left; reflexivity|assumption].
      - destruct (IH Hh) as (n & Hn & Hr). exists n. split; [right; assumption|assumption]. }
    destruct HH as (n & Hn & (_ & _ & Hcmd & _)). rewrite Hc, Hp in Hcmd.
    destruct (h_tied h); [discriminate|]. injection Hcmd as ->. specialize (Hk n Hn). lia.
Qed.

(** ** Statements used by PropTrack.v *)
Lemma Forall2_weaken {A B} (P Q : A -> B -> Prop) l l' : (forall a b, P a b -> Q a b) -> Forall2 P l l' -> Forall2 Q l l'.
Proof. intros H F. induction F; constructor; auto. Qed.

Lemma conversion_total b tpb tf events max_time :
  1 <= tpb <= 65535 -> voice_ok tpb max_time events -> exists tr, track_new b events tpb max_time tf = Ok tr.
Proof. intros Hg HV. destruct (track_converts b tpb tf events max_time Hg HV) as (tr & Ht & _). eauto. Qed.

Lemma conversion_time b tpb tf events max_time tr :
  1 <= tpb <= 65535 -> voice_ok tpb max_time events -> track_new b events tpb max_time tf = Ok tr ->
  Forall2 (fun h n => Z.abs (h_onset h * tpb - 24 * n_on n) < tolerance tpb (length events)) (heads tr) (notes_of events).
Proof.
  intros Hg HV Ht. destruct (track_converts b tpb tf events max_time Hg HV) as (tr' & Ht' & HF & _).
  rewrite Ht in Ht'. injection Ht' as <-. revert HF. apply Forall2_weaken. intros h n H. apply H.
Qed.
Lemma conversion_exact_time b g tf events max_time tr :
  1 <= g -> 24 * g <= 65535 -> voice_ok (24 * g) max_time events -> track_new b events (24 * g) max_time tf = Ok tr ->
  Forall2 (fun h n => Z.abs (h_onset h * g - n_on n) < g) (heads tr) (notes_of events) /\
  (tr <> [] -> Z.abs (total_steps tr * g - max_time) < g).
Proof.
  intros H1 H2 HV Ht. destruct (track_converts b (24 * g) tf events max_time ltac:(lia) HV) as (tr' & Ht' & HF & HE & _).
  rewrite Ht in Ht'. injection Ht' as <-.
  assert (T : forall n, tolerance (24 * g) n = 24 * g).
  { intros n. unfold tolerance. rewrite Z.mul_comm, Z.mod_mul by lia. reflexivity. }
  rewrite T in *. split.
  - revert HF. apply Forall2_weaken. intros h n (H & _). rewrite Z.mul_assoc, (Z.mul_comm _ 24) in H. lia.
  - intros Hn. specialize (HE Hn). rewrite Z.mul_assoc, (Z.mul_comm _ 24) in HE. lia.
Qed.
Lemma conversion_end b tpb tf events max_time tr :
  1 <= tpb <= 65535 -> voice_ok tpb max_time events -> track_new b events tpb max_time tf = Ok tr -> tr <> [] ->
  Z.abs (total_steps tr * tpb - 24 * max_time) < tolerance tpb (S (length events)).
Proof.
  intros Hg HV Ht Hn. destruct (track_converts b tpb tf events max_time Hg HV) as (tr' & Ht' & _ & HE & _).
  rewrite Ht in Ht'. injection Ht' as <-. auto.
Qed.
Lemma conversion_notes b tpb tf events max_time tr :
  1 <= tpb <= 65535 -> voice_ok tpb max_time events -> track_new b events tpb max_time tf = Ok tr ->
  Forall2 (fun h n => h_vel h = n_vel n / 8 /\ h_cmd h = (if h_tied h then Tie else Note (n_key n + 0x68)) /\
                      (h_tied h = true -> h_slide h <> None))
    (heads tr) (notes_of events).
Proof.
  intros Hg HV Ht. destruct (track_converts b tpb tf events max_time Hg HV) as (tr' & Ht' & HF & _).
  rewrite Ht in Ht'. injection Ht' as <-. revert HF. apply Forall2_weaken. intros h n (_ & A & B & _ & C). auto.
Qed.
Lemma conversion_only_heads b tpb tf events max_time tr :
  1 <= tpb <= 65535 -> voice_ok tpb max_time events -> track_new b events tpb max_time tf = Ok tr ->
  forall pc p, In pc tr -> cmd pc = Note p -> exists v, velocity pc = Some v.
Proof.
  intros Hg HV Ht pc p Hin Hp. destruct (track_converts b tpb tf events max_time Hg HV) as (tr' & Ht' & _ & _ & Hd).
  rewrite Ht in Ht'. injection Ht' as <-. rewrite Forall_forall in Hd.
  destruct (Hd pc Hin) as [H|(p' & d & _ & _ & _ & (v & Hv & _) & _)]; [|eauto].
  unfold dur_ok in H. rewrite Hp in H. destruct H as (_ & (v & Hv & _) & _). eauto.
Qed.
Lemma conversion_slides b tpb tf events max_time tr :
  1 <= tpb <= 65535 -> voice_ok tpb max_time events -> track_new b events tpb max_time tf = Ok tr ->
  Forall2 (fun h n => forall sl p q target, h_slide h = Some sl -> cmd sl = PitchSlide p q target -> target = n_key n + 0x68)
    (heads tr) (notes_of events).
Proof.
  intros Hg HV Ht. destruct (track_converts b tpb tf events max_time Hg HV) as (tr' & Ht' & HF & _).
  rewrite Ht in Ht'. injection Ht' as <-. revert HF. apply Forall2_weaken. intros h n (_ & _ & _ & A & _). exact A.
Qed.
Lemma conversion_plays b tpb tf events max_time tr rest :
  1 <= tpb <= 65535 -> voice_ok tpb max_time events -> track_new b events tpb max_time tf = Ok tr ->
  (forall n, In n (notes_of events) -> 24 <= n_key n <= 95) ->
  Forall (fun pc => in_range 0 127 (duration pc)) tr ->
  play_stream (fst (track_write tr [] []) ++ 0 :: rest) = Some (prescribed tr None None, rest).
Proof.
  intros Hg HV Ht Hk Hs. apply track_write_plays. eapply track_decodable; eauto.
Qed.

(** A note from [on] to [off]. *)
Definition note_ev (k on off : Z) : list tmsg :=
  [(MidiEvent 0 (NoteOn 0 k 96), on); (MidiEvent 0 (NoteOff 0 k 0), off)].

Lemma drift : exists events tr,
  events = flat_map (fun i => note_ev 60 (9 * Z.of_nat i) (9 * Z.of_nat i + 9)) (seq 0 60) /\
  track_new Debug events 100 540 f32_0_3 = Ok tr /\ voice_ok 100 540 events /\
  exists h n, nth_error (heads tr) 59 = Some h /\ nth_error (notes_of events) 59 = Some n /\
    h_onset h * 100 - 24 * n_on n > 5 * 100.
Proof.
  eexists. eexists. split; [reflexivity|]. split; [vm_compute; reflexivity|]. split.
  - unfold note_ev. cbn [flat_map seq app Z.of_nat Pos.of_succ_nat Pos.succ]. voice_case.
  - eexists. eexists. split; [vm_compute; reflexivity|]. split; [vm_compute; reflexivity|]. vm_compute. reflexivity.
Qed.

Lemma program_change_shifts : exists events tr,
  events = [(MidiEvent 0 (NoteOn 0 60 96), 0); (MidiEvent 0 (ProgramChange 0 5), 48);
            (MidiEvent 0 (NoteOff 0 60 0), 96); (MidiEvent 0 (NoteOn 0 62 96), 96);
            (MidiEvent 0 (NoteOff 0 62 0), 192)] /\
  track_new Debug events 96 192 f32_0_3 = Ok tr /\ map n_on (notes_of events) = [0; 96] /\
  map h_onset (heads tr) = [12; 36] /\ total_steps tr = 60.
Proof.
  eexists. eexists. split; [reflexivity|]. split; [vm_compute; reflexivity|]. repeat split; vm_compute; reflexivity.
Qed.

Lemma short_notes_crash : exists events,
  events = note_ev 60 0 1 ++ note_ev 62 1 2 /\ track_new Debug events 96 2 f32_0_3 = Panic POverflow /\
  exists tr, track_new Release events 96 2 f32_0_3 = Ok tr /\ total_steps tr = 513.
Proof.
  eexists. split; [reflexivity|]. split; [vm_compute; reflexivity|]. eexists. split; vm_compute; reflexivity.
Qed.

Lemma fold_breaks_stream : exists events tr,
  events = note_ev 60 0 96 ++ note_ev 62 192 216 /\ voice_ok 24 216 events /\
  track_new Debug events 24 216 f32_0_3 = Ok tr /\
  map (fun pc => (duration pc, cmd pc)) tr = [(Some 192, Note 164); (Some 24, Note 166)] /\
  option_map (fun r => map (fun e => (ev_token e, ev_dur e)) (fst r)) (play_stream (fst (track_write tr [] []) ++ [0])) =
    Some [(TNote 192, None); (TNote 164, Some 76); (TNote 166, Some 24)].
Proof.
  eexists. eexists. split; [reflexivity|]. split.
  - unfold note_ev. voice_case.
  - split; [vm_compute; reflexivity|]. split; vm_compute; reflexivity.
Qed.
Lemma low_note_breaks_stream : exists events tr,
  events = note_ev 20 0 24 /\ voice_ok 24 24 events /\ track_new Debug events 24 24 f32_0_3 = Ok tr /\
  play_stream (fst (track_write tr [] []) ++ [0]) = None.
Proof.
  eexists. eexists. split; [reflexivity|]. split.
  - unfold note_ev. voice_case.
  - split; vm_compute; reflexivity.
Qed.

(** SlidePlace.v: slides end with the note they start in (C71). *)
From Coq Require Import ZArith List Bool Lia ZifyBool ZifyNat.
From Verif Require Import Base ProofLib F32 Messages Command Track SpecVoice SpecPorta TrackProofs InstrProofs PlaybackProofs.
Import ListNotations.
Open Scope Z_scope.

Definition slide_after (prev : option pcmd) (c : pcmd) : Prop :=
  forall delay time target, cmd c = PitchSlide delay time target ->
  exists x d, prev = Some x /\ (cmd x = Tie \/ exists k, cmd x = Note k) /\ duration x = Some d /\ (time <= d -> delay + time = d) /\ (d < time -> delay = 0).
Fixpoint placed (prev : option pcmd) (l : list pcmd) : Prop :=
  match l with [] => True | c :: l' => slide_after prev c /\ placed (Some c) l' end.
Lemma placed_spec l : placed None l -> slides_placed l.
Proof.
  assert (H : forall l prev, placed prev l -> forall pre x sl post, l = pre ++ x :: sl :: post -> slide_after (Some x) sl).
  { induction l0 as [|c l0 IH]; intros prev H pre x sl post E; [destruct pre; discriminate|]. destruct H as (_ & H).
    destruct pre as [|y pre]; cbn [app] in E; injection E as -> E; [|exact (IH _ H _ _ _ _ E)]. subst l0. apply H. }
  intros Hl. split.
  - intros sl post delay time target -> E. destruct Hl as (Hl & _). destruct (Hl _ _ _ E) as (x & d & K & _). discriminate.
  - intros pre x sl post delay time target E Ec. destruct (H l None Hl _ _ _ _ E _ _ _ Ec) as (x' & d & [= <-] & H1 & H2). split; [exact H1|]. exists d. exact H2.
Qed.
Lemma last_opt_cons {A} (c d : A) l : last_opt (c :: d :: l) = last_opt (d :: l).
Proof. reflexivity. Qed.
Lemma placed_app l : forall prev l2, placed prev l -> placed (match last_opt l with Some x => Some x | None => prev end) l2 -> placed prev (l ++ l2).
Proof.
  induction l as [|c l IH]; intros prev l2 H1 H2; [exact H2|]. destruct H1 as (H1 & H1'). split; [exact H1|]. apply IH; [exact H1'|].
  destruct l as [|d l]; [exact H2|]. rewrite last_opt_cons in H2.
  assert (Hs : exists x, last_opt (d :: l) = Some x).
  { clear. revert d. induction l as [|e l IHl]; intros d; [exists d; reflexivity|]. rewrite last_opt_cons. apply IHl. }
  destruct Hs as (x & Hs). rewrite Hs in *. exact H2.
Qed.
Definition other (pc : pcmd) : Prop := forall d t k, cmd pc <> PitchSlide d t k.
Lemma placed_other l : Forall other l -> forall prev, placed prev l.
Proof. induction 1 as [|c l Hc _ IH]; intros prev; [exact I|]. split; [|apply IH]. intros d t k E. destruct (Hc d t k E). Qed.
(** Only notes, ties and rests have a length. *)
Definition lasting (pc : pcmd) : Prop := duration pc <> None -> cmd pc = Rest \/ cmd pc = Tie \/ exists k, cmd pc = Note k.
Definition good (l : list pcmd) : Prop := placed None l /\ Forall lasting l.
Lemma good_app l l2 : good l -> Forall other l2 -> Forall lasting l2 -> good (l ++ l2).
Proof. intros (H1 & H2) Ho Hl. split; [apply placed_app; [exact H1|apply placed_other, Ho]|apply Forall_app; auto]. Qed.

Lemma good_step b tpb tf s ev s' : good (commands s) -> track_step b tpb tf s ev = Ok s' -> good (commands s').
Proof.
  intros HI H. destruct ev as [m t]. cbn [track_step fst] in *.
  assert (Hplain : forall c, (forall d t' k, c <> PitchSlide d t' k) -> good (commands s ++ [plain_cmd c])).
  { intros c Hc. apply good_app; [assumption| |]; (constructor; [|constructor]); [exact Hc|]. intros K. destruct (K eq_refl). }
  assert (Hrests : forall l, Forall (fun c => cmd c = Rest /\ velocity c = None) l -> Forall other l /\ Forall lasting l).
  { intros l Hl. split; (eapply Forall_impl; [|exact Hl]); intros c (E & _); [intros d t' k; rewrite E; discriminate|intros _; auto]. }
  destruct m as [dt ev data|dt ev|dt ev data|].
  - destruct ev as [|kd]; cbn [on_meta] in H; [|injection H as <-; auto].
    inv_bind H. injection H as <-. cbn [set_commands commands]. apply Hplain; discriminate.
  - destruct ev as [ch k v|ch k v|ch k v|ch ctl d|ch p|ch p|ch d|ch]; try (injection H as <-; auto; fail).
    + unfold on_note_off in H. destruct (note_start s) as [st|]; [|injection H as <-; auto].
      inv_bind H. inv_bind H. inv_bind H. inv_bind H. injection H as <-. cbn [commands].
      assert (Hc : a1 = Tie \/ exists k, a1 = Note k).
      { destruct (match last_opt (commands s) with Some c => is_slide c | None => false end).
        - injection Ha1 as <-. auto.
        - inv_bind Ha1. injection Ha1 as <-. eauto. }
      apply good_app; [assumption| |].
      * constructor; [intros d t' k'; cbn [cmd]; destruct Hc as [-> | (k0 & ->)]; discriminate|].
        unfold overflow_ties. destruct (0 <? overflow_count a0); [|constructor]. apply Forall_app. split.
        -- apply Forall_forall. intros x Hx. apply repeat_spec in Hx. subst x. intros ? ? ?. discriminate.
        -- constructor; [intros ? ? ?; discriminate|constructor].
      * constructor; [intros _; right; exact Hc|].
        unfold overflow_ties. destruct (0 <? overflow_count a0); [|constructor]. apply Forall_app. split.
        -- apply Forall_forall. intros x Hx. apply repeat_spec in Hx. subst x. intros _. right. left. reflexivity.
        -- constructor; [intros _; right; left; reflexivity|constructor].
    + unfold on_note_on in H. inv_bind H. destruct a as [c1 e]. inv_bind H. destruct (note_start s); [discriminate|].
      injection H as <-. cbn [commands]. apply insert_rest_rests in Ha. destruct Ha as (l1 & -> & H1). destruct (Hrests _ H1) as (R1 & R2).
      pose proof (good_app _ _ HI R1 R2) as HG. unfold push_slide in Ha0. destruct (portamento s); [|injection Ha0 as <-; exact HG].
      destruct (last_opt (commands s ++ l1)) as [x|] eqn:El; [|injection Ha0 as <-; exact HG]. inv_bind Ha0. inv_bind Ha0.
      destruct (create_pitch_slide x (d_length a0) a1) as [sl|] eqn:Es; injection Ha0 as <-; [|exact HG].
      destruct HG as (HG1 & HG2). assert (Hx : lasting x).
      { rewrite Forall_forall in HG2. apply HG2. clear - El. revert El. generalize (commands s ++ l1). intros l. induction l as [|c l IH]; [discriminate|].
        destruct l as [|d l]; [intros [= ->]; left; reflexivity|]. intros H. right. apply IH. exact H. }
      assert (Hsl : slide_after (Some x) sl /\ duration sl = None).
      { unfold create_pitch_slide in Es. destruct (duration x) as [d|] eqn:Ed; [|destruct (cmd x); discriminate].
        assert (Hk : cmd x = Tie \/ exists k0, cmd x = Note k0).
        { destruct Hx as [Hx|Hx]; [congruence|rewrite Hx in Es; discriminate|exact Hx]. }
        assert (Es' : sl = mk_pcmd None None None (PitchSlide (d - Z.min (d_length a0) d) (d_length a0) a1)) by (destruct Hk as [Hk|(k0 & Hk)]; rewrite Hk in Es; congruence).
        subst sl. split; [|reflexivity]. intros delay time target [= <- <- <-]. exists x, d. split; [reflexivity|]. split; [exact Hk|]. split; [exact Ed|]. split; lia. }
      destruct Hsl as (S1 & S2). split.
      * apply placed_app; [exact HG1|]. rewrite El. split; [exact S1|exact I].
      * apply Forall_app. split; [exact HG2|]. constructor; [intros K; congruence|constructor].
    + unfold on_control_change in H.
      destruct (ctl =? 5); [injection H as <-; auto|].
      destruct (ctl =? 7); [inv_bind H; injection H as <-; cbn [set_commands commands]; apply Hplain; discriminate|].
      destruct (ctl =? 37); [injection H as <-; auto|].
      destruct (ctl =? 65); injection H as <-; auto.
    + unfold on_program_change in H. inv_bind H. destruct a as [c1 e]. inv_bind H. injection H as <-. cbn [commands].
      apply insert_rest_rests in Ha. destruct Ha as (l1 & -> & H1). destruct (Hrests _ H1) as (R1 & R2). rewrite <- app_assoc. apply good_app; [exact HI| |].
      * apply Forall_app. split; [exact R1|]. constructor; [intros ? ? ?; discriminate|constructor].
      * apply Forall_app. split; [exact R2|]. constructor; [intros K; destruct (K eq_refl)|constructor].
  - injection H as <-. auto.
  - injection H as <-. auto.
Qed.
(** Folding a rest into a note changes no command that a slide follows. *)
Lemma placed_sustain n : forall l l' prev prev', (length l <= n)%nat -> placed prev l -> (forall c, hd_error l = Some c -> slide_after prev' c) ->
  sustain_pass l = Ok l' -> placed prev' l'.
Proof.
  induction n as [|n IH]; intros l l' prev prev' Hn Hl Hh H.
  { destruct l; [|cbn in Hn; lia]. injection H as <-. exact I. }
  destruct l as [|c [|next l]]; [injection H as <-; exact I|injection H as <-; split; [apply Hh; reflexivity|exact I]|].
  rewrite sustain_pass_cons in H. inv_bind H. destruct a as [skip c']. inv_bind H. injection H as <-.
  destruct Hl as (H1 & H2 & H3).
  assert (Hc : cmd c' = cmd c /\ (skip = false -> c' = c) /\ (skip = true -> cmd next = Rest)).
  { unfold set_sustain in Ha. destruct (cmd c) eqn:Ec; try (injection Ha as <- <-; repeat split; auto; discriminate).
    destruct (cmd next) eqn:En; try (injection Ha as <- <-; repeat split; auto; discriminate).
    inv_bind Ha. inv_bind Ha. destruct (_ =? 0); [discriminate|]. destruct (_ || _); injection Ha as <- <-; repeat split; auto; discriminate. }
  destruct Hc as (Hc & Hs & Hk). split.
  - unfold slide_after. rewrite Hc. apply (Hh c). reflexivity.
  - cbn in Hn. destruct skip.
    + specialize (Hk eq_refl). apply (IH l a (Some next)); try exact Ha0; [lia|exact H3|]. intros x Hx. destruct l as [|y l]; [discriminate|]. injection Hx as ->.
      destruct H3 as (H3 & _). intros d t k E. destruct (H3 d t k E) as (z & dd & [= <-] & [K|(k0 & K)] & _); congruence.
    + rewrite (Hs eq_refl). apply (IH (next :: l) a (Some c)); try exact Ha0; [cbn; lia|split; assumption|]. intros x [= <-]. exact H2.
Qed.
Lemma track_slides b events tpb mt tf tr : track_new b events tpb mt tf = Ok tr -> slides_placed tr.
Proof.
  unfold track_new. intros H. inv_bind H. apply placed_spec.
  assert (A : good (commands a)).
  { refine (ofold_inv (fun s => good (commands s)) _ _ _ _ _ _ Ha); [|split; constructor].
    intros s x s' _ Hs Hx. eapply good_step; eauto. }
  destruct (commands a) as [|c0 cs] eqn:Ec; [injection H as <-; exact I|]. rewrite <- Ec in *.
  inv_bind H.
  assert (B : good (fst a0)).
  { destruct (last_note_end a <? mt).
    - destruct a0 as [c1 e]. apply insert_rest_rests in Ha0. destruct Ha0 as (l & -> & Hl). cbn [fst].
      apply good_app; [exact A| |]; (eapply Forall_impl; [|exact Hl]); intros c (E & _); [intros d t' k; rewrite E; discriminate|intros _; auto].
    - injection Ha0 as <-. exact A. }
  destruct B as (B & _). refine (placed_sustain _ _ _ None None (le_n _) B _ H). intros c Hc. destruct (fst a0) as [|y l]; [discriminate|]. injection Hc as ->. apply B.
Qed.

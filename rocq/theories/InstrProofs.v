(** InstrProofs.v: the instrument in force when a note starts (C22, C23). *)
From Coq Require Import ZArith List Bool Lia ZifyBool ZifyNat Permutation Sorted.
From Verif Require Import Base ProofLib Messages Track Midi SpecMidi SpecNotes SpecVoices MergeProofs LoopProofs
  VoiceProofs DistributeProofs ReadProofs.
Ltac Zify.zify_post_hook ::= Z.div_mod_to_equations.

Definition is_on (m : message) : bool := match m with MidiEvent _ (NoteOn _ _ _) => true | _ => false end.

Lemma last_program_app l1 l2 : last_program (l1 ++ l2) = match last_program l2 with Some q => Some q | None => last_program l1 end.
Proof.
  induction l1 as [|[m t] l1 IH]; cbn [app]; [cbn; destruct (last_program l2); reflexivity|].
  destruct m as [|d []| |]; cbn [last_program]; rewrite ?IH; try reflexivity.
  destruct (last_program l2); reflexivity.
Qed.
Lemma last_program_none l : Forall (fun x => is_pc (fst x) = false) l -> last_program l = None.
Proof.
  induction 1 as [|[m t] l H _ IH]; [reflexivity|]. cbn in H. destruct m as [|d []| |]; cbn [last_program]; try exact IH. discriminate.
Qed.

Definition prg (s : vstate) (c : nat) : option (Z * Z) := last_program (opt_msg (nth c (v_prog s) None) 0).
Lemma last_program_opt o t : last_program (opt_msg o t) = last_program (opt_msg o 0).
Proof. destruct o as [[|d []| |]|]; reflexivity. Qed.

Definition no_pc (l : list (option message)) : Prop := Forall (fun o => match o with Some m => is_pc m = false | None => True end) l.
Lemma no_pc_opt l c t : no_pc l -> last_program (opt_msg (nth c l None) t) = None.
Proof.
  intros H. destruct (Nat.lt_ge_cases c (length l)) as [Hc|Hc].
  - unfold no_pc in H. rewrite Forall_forall in H. specialize (H (nth c l None) (nth_In _ _ Hc)). destruct (nth c l None); [|reflexivity].
    apply last_program_none. constructor; [exact H|constructor].
  - rewrite nth_overflow by exact Hc. reflexivity.
Qed.
Lemma prelude_program s c k d t voice : no_pc (v_ctrl s) -> no_pc (v_pitch s) ->
  last_program (prelude s c k d t voice) =
  if (c =? 9) && negb (v_perc s =? instr_of k) then Some (c, instr_of k)
  else if match nth voice (v_chan s) None with Some c' => Z.of_nat c' =? c | None => false end then None
  else prg s (Z.to_nat c).
Proof.
  intros H1 H2. unfold prelude. rewrite last_program_app. destruct ((c =? 9) && negb (v_perc s =? instr_of k)); [reflexivity|].
  cbn [last_program]. destruct (match nth voice (v_chan s) None with Some c' => Z.of_nat c' =? c | None => false end); [reflexivity|].
  rewrite !last_program_app, (no_pc_opt _ _ _ H1), (no_pc_opt _ _ _ H2), last_program_opt. fold (prg s (Z.to_nat c)).
  destruct (prg s (Z.to_nat c)); reflexivity.
Qed.

Lemma set_nth_nth {A} (l : list A) i v r d : set_nth l i v = Some r -> forall j, nth j r d = if Nat.eqb j i then v else nth j l d.
Proof.
  intros H j. pose proof (set_nth_spec _ _ _ _ H j) as E. pose proof (set_nth_length _ _ _ _ H) as HL.
  destruct (Nat.eqb j i); [apply nth_error_nth; exact E|].
  destruct (Nat.lt_ge_cases j (length l)) as [Hj|Hj].
  - rewrite (nth_error_nth' r d), (nth_error_nth' l d) in E by lia. congruence.
  - rewrite !nth_overflow by lia. reflexivity.
Qed.

(** ** State invariant after processing [p] *)
Record iinv2 (base : list nat) (p : list tmsg) (s : vstate) : Prop := mk_iinv2 {
  ii_vinv : vinv s;
  ii_rem : remembered s;
  ii_ctrl : no_pc (v_ctrl s);
  ii_pitch : no_pc (v_pitch s);
  ii_prog : forall c, (c < 16)%nat -> c <> 9%nat -> prg s c = last_program (filter (for_channel c) p);
  ii_voice : forall c k v, 0 <= c < 16 -> lookup (v_active s) c k = Some v ->
    (v = nth (Z.to_nat c) base 0%nat \/ ~ In v base) /\ nth v (v_chan s) None = Some (Z.to_nat c);
}.

Lemma iinv2_0 base : iinv2 base [] (vstate0 base).
Proof.
  constructor.
  - apply vinv0.
  - apply remembered0.
  - unfold vstate0; cbn [v_ctrl]. repeat constructor.
  - unfold vstate0; cbn [v_pitch]. repeat constructor.
  - intros c Hc _. unfold prg, vstate0. cbn [v_prog]. rewrite nth_repeat. reflexivity.
  - intros c k v _ H. rewrite lookup0 in H. discriminate.
Qed.

Lemma filter_snoc {A} (f : A -> bool) l x : filter f (l ++ [x]) = filter f l ++ (if f x then [x] else []).
Proof. rewrite filter_app. cbn. destruct (f x); reflexivity. Qed.
Lemma prog_keep base p s ev t s1 : iinv2 base p s -> is_pc ev = false -> (forall c, c <> 9%nat -> prg s1 c = prg s c) ->
  forall c, (c < 16)%nat -> c <> 9%nat -> prg s1 c = last_program (filter (for_channel c) (p ++ [(ev, t)])).
Proof.
  intros Hi He Hk c Hc H9. rewrite Hk by exact H9. rewrite filter_snoc, last_program_app, (ii_prog _ _ _ Hi c Hc H9).
  match goal with |- _ = match last_program ?L with _ => _ end => rewrite (last_program_none L) end; [reflexivity|].
  destruct (for_channel c (ev, t)); [constructor; [exact He|constructor]|constructor].
Qed.

Lemma step_iinv2 base p s ev t s1 : base_ok base -> iinv2 base p s -> typed (ev, t) -> vstep base s (ev, t) = Ok s1 ->
  iinv2 base (p ++ [(ev, t)]) s1 /\ step_spec base s ev t s1.
Proof.
  intros Hb Hi Hty E. pose proof Hty as (Hc & Ht & Hvel). cbn [fst snd] in Hc, Ht, Hvel.
  destruct (step_result base s ev t (ii_vinv _ _ _ Hi) Hb Hc) as [(s1' & E' & Hs1 & Hstep)|[E' _]]; rewrite E in E'; [|discriminate].
  injection E' as <-. split; [|exact Hstep].
  assert (Hr1 : remembered s1).
  { destruct (run_spec base [(ev, t)] Hb s s1) as (_ & Hr1 & _); [apply Hi|apply Hi| | | |exact Hr1].
    - constructor; [exact Hc|constructor].
    - constructor; [exact Hvel|constructor].
    - cbn [ofold]. rewrite E. reflexivity. }
  pose proof Hi as [Hv Hrem Hct Hpi Hpr Hvo]. destruct Hstep as (px & Hpx & Hstep).
  assert (Hsame : v_active s1 = v_active s -> v_chan s1 = v_chan s ->
    forall c k v, 0 <= c < 16 -> lookup (v_active s1) c k = Some v ->
    (v = nth (Z.to_nat c) base 0%nat \/ ~ In v base) /\ nth v (v_chan s1) None = Some (Z.to_nat c)).
  { intros Ea Ec c k v. rewrite Ea, Ec. apply Hvo. }
  assert (Hless : v_chan s1 = v_chan s -> forall c0 k0, looks_eq s1 (without (lookup (v_active s)) c0 k0) ->
    forall c k v, 0 <= c < 16 -> lookup (v_active s1) c k = Some v ->
    (v = nth (Z.to_nat c) base 0%nat \/ ~ In v base) /\ nth v (v_chan s1) None = Some (Z.to_nat c)).
  { intros Ec c0 k0 HL c k v Hc' Hl. rewrite HL in Hl by exact Hc'. unfold without in Hl. rewrite Ec.
    destruct (_ && _); [discriminate|]. apply (Hvo c k v Hc' Hl). }
  assert (Hpk : v_prog s1 = v_prog s -> forall c, c <> 9%nat -> prg s1 c = prg s c).
  { intros Ep c _. unfold prg. rewrite Ep. reflexivity. }
  destruct ev as [? [] ?|d [c k vel|c k vel|c k vel|c ctl dat|c pr|c pr|c dat|c]|? ? ?|].
  all: try (destruct Hstep as (Ha & Hch & Hpe & _ & E1 & E2 & E3); constructor;
    [exact Hs1|exact Hr1|rewrite E2; exact Hct|rewrite E3; exact Hpi
    |apply (prog_keep base p s _ t s1 Hi); [reflexivity|apply Hpk; exact E1]|apply Hsame; assumption]; fail).
  - (* NoteOff *) destruct Hstep as (_ & HL & E1 & E2 & E3 & E4 & E5). constructor; auto.
    + rewrite E1; exact Hct.
    + rewrite E3; exact Hpi.
    + apply (prog_keep base p s _ t s1 Hi); [reflexivity|apply Hpk; assumption].
    + eapply Hless; eauto.
  - (* NoteOn *) unfold channel_ok in Hc. cbn [addressee event_channel] in Hc. destruct Hstep as (E1 & E2 & Hstep).
    destruct (0 <? vel) eqn:Evel.
    + destruct Hstep as (voice & (Hv8 & Hnu & Hvb & _) & _ & HL & Hch & Hpe). constructor; auto.
      * rewrite E1; exact Hct.
      * rewrite E2; exact Hpi.
      * apply (prog_keep base p s _ t s1 Hi); [reflexivity|]. intros c' H9. destruct ((c =? 9) && negb (v_perc s =? instr_of k)).
        -- destruct Hpe as [_ Hset]. unfold prg. rewrite (set_nth_nth _ _ _ _ None Hset).
           destruct (Nat.eqb_spec c' 9); [congruence|reflexivity].
        -- destruct Hpe as [_ Hp]. unfold prg. rewrite Hp. reflexivity.
      * intros c1 k1 v1 Hc1 Hl. rewrite HL in Hl by exact Hc1. unfold with_ in Hl. rewrite Hch.
        destruct ((c1 =? c) && (k1 =? k)) eqn:E9.
        -- injection Hl as <-. rewrite Nat.eqb_refl. assert (c1 = c) by lia. subst c1. auto.
        -- destruct (Nat.eqb_spec v1 voice) as [He|He].
           ++ exfalso. subst v1. apply Hnu. exists c1, k1. auto.
           ++ unfold without in Hl. rewrite E9 in Hl. apply (Hvo c1 k1 v1 Hc1 Hl).
    + destruct Hstep as (_ & HL & E3 & E4 & E5). constructor; auto.
      * rewrite E1; exact Hct.
      * rewrite E2; exact Hpi.
      * apply (prog_keep base p s _ t s1 Hi); [reflexivity|apply Hpk; assumption].
      * eapply Hless; eauto.
  - (* ControlChange *) destruct Hstep as (Ha & Hch & Hpe & _ & E1 & E2 & E3). constructor; auto.
    + destruct E3 as [->|E3]; [exact Hct|]. eapply forall_set_nth; [exact Hct| |exact E3]. reflexivity.
    + rewrite E2; exact Hpi.
    + apply (prog_keep base p s _ t s1 Hi); [reflexivity|apply Hpk; assumption].
    + apply Hsame; assumption.
  - (* ProgramChange *) unfold channel_ok in Hc. cbn [addressee event_channel] in Hc.
    destruct Hstep as (Ha & Hch & Hpe & _ & E1 & E2 & E3). constructor; auto.
    + rewrite E2; exact Hct.
    + rewrite E3; exact Hpi.
    + intros c' Hc' H9. unfold prg. rewrite (set_nth_nth _ _ _ _ None E1), filter_snoc, last_program_app.
      unfold for_channel at 1. cbn [fst addressee event_channel].
      destruct (Nat.eqb_spec c' (Z.to_nat c)) as [He|He].
      * subst c'. replace (c =? Z.of_nat (Z.to_nat c)) with true by lia. reflexivity.
      * replace (c =? Z.of_nat c') with false by lia. cbn [last_program]. apply (Hpr c' Hc' H9).
    + apply Hsame; assumption.
  - (* PitchBend *) destruct Hstep as (Ha & Hch & Hpe & _ & E1 & E2 & E3). constructor; auto.
    + rewrite E2; exact Hct.
    + eapply forall_set_nth; [exact Hpi| |exact E3]. reflexivity.
    + apply (prog_keep base p s _ t s1 Hi); [reflexivity|apply Hpk; assumption].
    + apply Hsame; assumption.
Qed.

(** A property of every note-on in a list and what precedes it. *)
Definition each_on (Q : list tmsg -> tmsg -> Prop) (l : list tmsg) : Prop :=
  forall l1 x l2, l = l1 ++ x :: l2 -> is_on (fst x) = true -> Q l1 x.
Lemma app_split {A} (a b l1 l2 : list A) x : a ++ b = l1 ++ x :: l2 ->
  (exists r, a = l1 ++ x :: r) \/ (exists r, l1 = a ++ r /\ b = r ++ x :: l2).
Proof.
  revert l1. induction a as [|y a IH]; intros l1 H; cbn [app] in H; [right; exists l1; auto|].
  destruct l1 as [|z l1]; cbn [app] in H; injection H as -> H.
  - left. exists a. reflexivity.
  - destruct (IH _ H) as [(r & ->)|(r & -> & ->)]; [left; exists r; reflexivity|right; exists r; auto].
Qed.
Lemma each_on_quiet Q l px : each_on Q l -> Forall (fun x => is_on (fst x) = false) px -> each_on Q (l ++ px).
Proof.
  intros H HF l1 x l2 E Hx. apply app_split in E. destruct E as [(r & ->)|(r & -> & ->)]; [eapply H; eauto|].
  apply Forall_app in HF. destruct HF as [_ HF]. inversion HF; subst. congruence.
Qed.
Lemma each_on_snoc Q l px x : each_on Q l -> Forall (fun x => is_on (fst x) = false) px ->
  (is_on (fst x) = true -> Q (l ++ px) x) -> each_on Q (l ++ px ++ [x]).
Proof.
  intros H HF Hx l1 y l2 E Hy. rewrite app_assoc in E. apply app_split in E. destruct E as [(r & E)|(r & -> & E)].
  - eapply each_on_quiet; eauto.
  - destruct r as [|z r]; cbn in E; [|destruct r; discriminate]. injection E as -> <-. rewrite app_nil_r. auto.
Qed.
Lemma quiet_not_on l : quiet l -> Forall (fun x => is_on (fst x) = false) l.
Proof. apply Forall_impl. intros [[|? []| |] t]; cbn; auto; discriminate. Qed.
Lemma on_voice_not_on o d c k vel t v : Forall (fun x => is_on (fst x) = false) (on_voice o (MidiEvent d (NoteOff c k vel), t) v).
Proof. unfold on_voice. destruct o; [|constructor]. destruct (Nat.eqb v n); [|constructor]. constructor; [reflexivity|constructor]. Qed.
Lemma on_voice_program o d c k vel t v : last_program (on_voice o (MidiEvent d (NoteOff c k vel), t) v) = None.
Proof. unfold on_voice. destruct o; [|reflexivity]. destruct (Nat.eqb v n); reflexivity. Qed.

(** What a step appends to a voice, as far as instruments are concerned. *)
Lemma step_px base s ev t s1 : no_pc (v_ctrl s) -> no_pc (v_pitch s) -> remembered s -> step_spec base s ev t s1 ->
  forall v Q, each_on Q (vv s v) ->
    (forall d c k vel px, ev = MidiEvent d (NoteOn c k vel) -> 0 < vel -> vv s1 v = vv s v ++ px ++ [(MidiEvent d (NoteOn c (drum_key c k) vel), t)] ->
       last_program px = last_program (prelude s c k d t v) -> nth v (v_chan s1) None = Some (Z.to_nat c) ->
       (v = nth (Z.to_nat c) base 0%nat \/ ~ In v base) ->
       Q (vv s v ++ px) (MidiEvent d (NoteOn c (drum_key c k) vel), t)) ->
    each_on Q (vv s1 v).
Proof.
  intros Hct Hpi Hrem (px & Hpx & Hstep) v Q HQ Hon.
  assert (Hq : Forall (fun x => is_on (fst x) = false) (px v) -> each_on Q (vv s1 v)).
  { intros HF. rewrite Hpx. apply each_on_quiet; assumption. }
  assert (Hone : is_on ev = false -> (px v = [] \/ px v = [(ev, t)]) -> each_on Q (vv s1 v)).
  { intros He [E|E]; apply Hq; rewrite E; [constructor|constructor; [exact He|constructor]]. }
  destruct ev as [? [] ?|d [c k vel|c k vel|c k vel|c ctl dat|c pr|c pr|c dat|c]|? ? ?|].
  all: try (apply Hone; [reflexivity|]; destruct Hstep as (_ & _ & _ & Hp & _); apply Hp; fail).
  all: try (apply Hone; [reflexivity|]; destruct Hstep as (_ & _ & _ & Hp & _); rewrite Hp; destruct (hears _ _ _ _); auto; fail).
  - destruct Hstep as (Hp & _). apply Hq. rewrite Hp. apply on_voice_not_on.
  - destruct Hstep as (_ & _ & Hstep). destruct (0 <? vel) eqn:Evel.
    + destruct Hstep as (voice & (_ & _ & Hvb & _) & Hp & _ & Hch & _). destruct (Nat.eqb_spec v voice) as [He|He].
      * subst voice. specialize (Hp v). rewrite Nat.eqb_refl in Hp. rewrite app_assoc in Hp.
        rewrite Hpx, Hp. apply each_on_snoc; [exact HQ| |].
        -- apply Forall_app. split; [apply on_voice_not_on|]. apply quiet_not_on, prelude_quiet, Hrem.
        -- intros _. eapply Hon; [reflexivity|lia| | | |exact Hvb].
           ++ rewrite Hpx, Hp. reflexivity.
           ++ rewrite last_program_app, on_voice_program. destruct (last_program (prelude s c k d t v)); reflexivity.
           ++ rewrite Hch, Nat.eqb_refl. reflexivity.
      * apply Hq. rewrite Hp. destruct (Nat.eqb_spec v voice); [congruence|]. rewrite app_nil_r. apply on_voice_not_on.
    + destruct Hstep as (Hp & _). apply Hq. rewrite Hp. apply on_voice_not_on.
Qed.

(** Last program of a voice after a step. *)
Lemma step_program base s ev t s1 v : no_pc (v_ctrl s) -> no_pc (v_pitch s) -> step_spec base s ev t s1 ->
  last_program (vv s1 v) =
  match ev with
  | MidiEvent d (NoteOn c k vel) =>
      if 0 <? vel then
        match last_program (skipn (length (vv s v)) (vv s1 v)) with Some q => Some q | None => last_program (vv s v) end
      else last_program (vv s v)
  | MidiEvent _ (ProgramChange c p) => if hears s base c v then Some (c, p) else last_program (vv s v)
  | _ => last_program (vv s v)
  end.
Proof.
  intros Hct Hpi (px & Hpx & Hstep). rewrite Hpx, last_program_app.
  assert (Hq : last_program (px v) = None -> match last_program (px v) with Some q => Some q | None => last_program (vv s v) end = last_program (vv s v)).
  { intros ->. reflexivity. }
  assert (Hone : is_pc ev = false -> (px v = [] \/ px v = [(ev, t)]) -> last_program (px v) = None).
  { intros He [E|E]; rewrite E; apply last_program_none; [constructor|constructor; [exact He|constructor]]. }
  destruct ev as [? [] ?|d [c k vel|c k vel|c k vel|c ctl dat|c pr|c pr|c dat|c]|? ? ?|].
  all: try (apply Hq, Hone; [reflexivity|]; destruct Hstep as (_ & _ & _ & Hp & _); apply Hp; fail).
  all: try (apply Hq, Hone; [reflexivity|]; destruct Hstep as (_ & _ & _ & Hp & _); rewrite Hp; destruct (hears _ _ _ _); auto; fail).
  - destruct Hstep as (Hp & _). apply Hq. rewrite Hp. apply on_voice_program.
  - destruct Hstep as (_ & _ & Hstep). destruct (0 <? vel) eqn:Evel.
    + rewrite skipn_app, skipn_all, Nat.sub_diag. reflexivity.
    + destruct Hstep as (Hp & _). apply Hq. rewrite Hp. apply on_voice_program.
  - destruct Hstep as (_ & _ & _ & Hp & _). rewrite Hp. destruct (hears _ _ _ _); reflexivity.
Qed.

Lemma hears_sounding base p s c v : iinv2 base p s -> 0 <= c < 16 -> hears s base c v = true ->
  v = nth (Z.to_nat c) base 0%nat \/ exists k, lookup (v_active s) c k = Some v.
Proof.
  intros Hi Hc H. unfold hears in H. apply orb_true_iff in H. destruct H as [H|H]; [|left; lia]. right.
  apply existsb_exists in H. destruct H as (w & Hw & He). apply Nat.eqb_eq in He. subst w.
  apply in_map_iff in Hw. destruct Hw as ([k w] & Hw & Hin). cbn in Hw. subst w. exists k. unfold lookup.
  apply notes_get_in; [|exact Hin]. pose proof (vi_nodup _ (ii_vinv _ _ _ Hi)) as Hn. rewrite Forall_forall in Hn.
  apply Hn, nth_In. rewrite (vi_active _ (ii_vinv _ _ _ Hi)). lia.
Qed.
Lemma hears_base base p s c v : iinv2 base p s -> 0 <= c < 16 -> In v base ->
  hears s base c v = Nat.eqb v (nth (Z.to_nat c) base 0%nat).
Proof.
  intros Hi Hc Hv. destruct (hears s base c v) eqn:E.
  - destruct (hears_sounding _ _ _ _ _ Hi Hc E) as [->|[k Hl]]; [symmetry; apply Nat.eqb_refl|].
    destruct (ii_voice _ _ _ Hi c k v Hc Hl) as [[->|Hn] _]; [symmetry; apply Nat.eqb_refl|contradiction].
  - unfold hears in E. apply orb_false_iff in E. destruct E as [_ E]. symmetry; exact E.
Qed.
Lemma hears_other base p s c v : iinv2 base p s -> base_ok base -> 0 <= c < 16 -> ~ In v base ->
  hears s base c v = true -> nth v (v_chan s) None = Some (Z.to_nat c).
Proof.
  intros Hi [HbL _] Hc Hv E. destruct (hears_sounding _ _ _ _ _ Hi Hc E) as [->|[k Hl]].
  - destruct Hv. apply nth_In. lia.
  - apply (ii_voice _ _ _ Hi c k v Hc Hl).
Qed.
Lemma base_in base c : base_ok base -> (c < 16)%nat -> In (nth c base 0%nat) base.
Proof. intros [HL _] Hc. apply nth_In. lia. Qed.

Definition over (a b : option (Z * Z)) : option (Z * Z) := match a with Some q => Some q | None => b end.
Lemma step_program_on base s d c k vel t s1 : no_pc (v_ctrl s) -> no_pc (v_pitch s) ->
  step_spec base s (MidiEvent d (NoteOn c k vel)) t s1 -> 0 < vel ->
  exists voice, (voice = nth (Z.to_nat c) base 0%nat \/ ~ In voice base) /\
    (forall v, last_program (vv s1 v) =
      if Nat.eqb v voice then over (last_program (prelude s c k d t voice)) (last_program (vv s v)) else last_program (vv s v)) /\
    (forall v, nth v (v_chan s1) None = if Nat.eqb v voice then Some (Z.to_nat c) else nth v (v_chan s) None) /\
    In (MidiEvent d (NoteOn c (drum_key c k) vel), t) (vv s1 voice) /\
    if (c =? 9) && negb (v_perc s =? instr_of k)
    then v_perc s1 = instr_of k /\ set_nth (v_prog s) 9 (Some (MidiEvent d (ProgramChange c (instr_of k)))) = Some (v_prog s1)
    else v_perc s1 = v_perc s /\ v_prog s1 = v_prog s.
Proof.
  intros Hct Hpi (px & Hpx & _ & _ & Hstep) Hv. destruct (0 <? vel) eqn:E; [|lia].
  destruct Hstep as (voice & (_ & _ & Hvb & _) & Hp & _ & Hch & Hpe). exists voice. split; [exact Hvb|]. split; [|split; [exact Hch|split; [|exact Hpe]]].
  - intros v. rewrite Hpx, Hp, !last_program_app, on_voice_program. destruct (Nat.eqb_spec v voice) as [He|He].
    + subst v. rewrite last_program_app. cbn [last_program]. unfold over. destruct (last_program (prelude s c k d t voice)); reflexivity.
    + reflexivity.
  - rewrite Hpx, Hp, Nat.eqb_refl. apply in_or_app. right. apply in_or_app. right. apply in_or_app. right. left. reflexivity.
Qed.

Lemma program_at_split l1 l2 m t : StronglySorted not_after (l1 ++ (m, t) :: l2) -> note_on m = true ->
  program_at (l1 ++ (m, t) :: l2) t = last_program l1.
Proof.
  intros Hs Hm. unfold program_at. rewrite filter_app. cbn [filter snd]. rewrite Z.leb_refl, last_program_app.
  assert (H1 : filter (fun x => snd x <=? t) l1 = l1).
  { clear Hm. induction l1 as [|x l1 IH]; [reflexivity|]. cbn [app] in Hs. inversion Hs as [|? ? Hs' HF]; subst. cbn [filter].
    rewrite Forall_forall in HF. assert (Hx : not_after x (m, t)) by (apply HF, in_or_app; right; left; reflexivity).
    assert (snd x <= t) by (destruct Hx as [Hx|[Hx _]]; cbn in Hx; lia). replace (snd x <=? t) with true by lia. f_equal. auto. }
  rewrite H1.
  assert (H2 : StronglySorted not_after ((m, t) :: l2)).
  { clear H1. induction l1 as [|x l1 IH]; [exact Hs|]. cbn [app] in Hs. inversion Hs; subst. auto. }
  inversion H2 as [|? ? _ HF]; subst.
  replace (last_program ((m, t) :: filter (fun x => snd x <=? t) l2)) with (@None (Z * Z)); [reflexivity|]. symmetry.
  apply last_program_none. constructor; [destruct m as [|? []| |]; try reflexivity; discriminate|].
  apply Forall_forall. intros x Hx. apply filter_In in Hx. destruct Hx as [Hx Ht]. rewrite Forall_forall in HF. specialize (HF x Hx).
  destruct HF as [HF|[He Hr]]; cbn [fst snd] in *; [lia|]. unfold rank in Hr.
  assert (Hoff : note_off m = false) by (destruct m as [|? []| |]; try reflexivity; try discriminate; cbn in *; lia).
  rewrite Hoff, Hm in Hr. destruct x as [mx tx]. cbn [fst] in *. destruct mx as [|? []| |]; try reflexivity. cbn in Hr. lia.
Qed.
Lemma sorted_filter {A} (R : A -> A -> Prop) f l : StronglySorted R l -> StronglySorted R (filter f l).
Proof.
  induction 1 as [|x l Hs IH HF]; cbn; [constructor|]. destruct (f x); [|exact IH]. constructor; [exact IH|].
  rewrite Forall_forall in *. intros y Hy. apply filter_In in Hy. apply HF, Hy.
Qed.
Lemma program_now base p s d c k vel t q m : iinv2 base p s -> m = p ++ (MidiEvent d (NoteOn c k vel), t) :: q ->
  StronglySorted not_after m -> 0 <= c < 16 -> c <> 9 -> 0 < vel ->
  program_at (filter (for_channel (Z.to_nat c)) m) t = prg s (Z.to_nat c).
Proof.
  intros Hi -> Hs Hc H9 Hv. rewrite (ii_prog _ _ _ Hi) by lia.
  apply (sorted_filter _ (for_channel (Z.to_nat c))) in Hs. rewrite filter_app in *. cbn [filter] in *.
  replace (for_channel (Z.to_nat c) (MidiEvent d (NoteOn c k vel), t)) with true in *
    by (unfold for_channel; cbn [fst addressee event_channel]; lia).
  apply program_at_split; [exact Hs|]. cbn. lia.
Qed.

(** ** C22, notes on the channel's base voice *)
Definition own (m : list tmsg) (c : Z) (l1 : list tmsg) (x : tmsg) : Prop :=
  forall d k vel t, x = (MidiEvent d (NoteOn c k vel), t) -> last_program l1 = program_at (filter (for_channel (Z.to_nat c)) m) t.
Definition unshared (base : list nat) (m : list tmsg) (c : Z) : Prop :=
  forall i, 0 <= i < 16 -> i <> c -> nth (Z.to_nat i) base 0%nat = nth (Z.to_nat c) base 0%nat ->
    Forall (fun x => is_pc (fst x) = false /\ (i = 9 -> note_on (fst x) = false)) (filter (for_channel (Z.to_nat i)) m).

Lemma no_pc_channel base p s m q i : iinv2 base p s -> m = p ++ q -> 0 <= i < 16 -> i <> 9 ->
  Forall (fun x => is_pc (fst x) = false) (filter (for_channel (Z.to_nat i)) m) -> prg s (Z.to_nat i) = None.
Proof.
  intros Hi -> Hr H9 HF. rewrite (ii_prog _ _ _ Hi) by lia. apply last_program_none. rewrite filter_app in HF.
  apply Forall_app in HF. apply HF.
Qed.
Lemma in_channel x m c : In x m -> addressee (fst x) = Some c -> 0 <= c -> In x (filter (for_channel (Z.to_nat c)) m).
Proof. intros Hin Ha Hc. apply filter_In. split; [exact Hin|]. unfold for_channel. rewrite Ha. lia. Qed.

Lemma prg_step base s ev t s1 c : no_pc (v_ctrl s) -> step_spec base s ev t s1 -> c <> 9%nat ->
  prg s1 c = match ev with
             | MidiEvent _ (ProgramChange c' p) => if Nat.eqb c (Z.to_nat c') then Some (c', p) else prg s c
             | _ => prg s c
             end.
Proof.
  intros _ (px & _ & Hstep) H9. unfold prg.
  destruct ev as [? [] ?|d [c0 k vel|c0 k vel|c0 k vel|c0 ctl dat|c0 pr|c0 pr|c0 dat|c0]|? ? ?|].
  all: try (destruct Hstep as (_ & _ & _ & _ & E & _); rewrite E; reflexivity).
  - destruct Hstep as (_ & _ & _ & E & _). rewrite E. reflexivity.
  - destruct Hstep as (_ & _ & Hstep). destruct (0 <? vel).
    + destruct Hstep as (voice & _ & _ & _ & _ & Hpe). destruct ((c0 =? 9) && negb (v_perc s =? instr_of k)).
      * destruct Hpe as [_ Hset]. rewrite (set_nth_nth _ _ _ _ None Hset). destruct (Nat.eqb_spec c 9); [congruence|reflexivity].
      * destruct Hpe as [_ E]. rewrite E. reflexivity.
    + destruct Hstep as (_ & _ & E & _). rewrite E. reflexivity.
  - destruct Hstep as (_ & _ & _ & _ & E & _). rewrite (set_nth_nth _ _ _ _ None E). destruct (Nat.eqb c (Z.to_nat c0)); reflexivity.
Qed.

Lemma run_base base c m : base_ok base -> 0 <= c < 16 -> c <> 9 -> Forall typed m -> StronglySorted not_after m ->
  unshared base m c ->
  let v := nth (Z.to_nat c) base 0%nat in
  forall q p s s', m = p ++ q -> iinv2 base p s -> last_program (vv s v) = prg s (Z.to_nat c) -> each_on (own m c) (vv s v) ->
    ofold (vstep base) q s = Ok s' -> each_on (own m c) (vv s' v).
Proof.
  intros Hb Hc H9 Hty Hsort Hun v.
  assert (HvIn : In v base) by (apply base_in; [exact Hb|lia]).
  induction q as [|[ev t] q IH]; intros p s s' Hm Hi HP HE H; cbn [ofold] in H.
  - injection H as <-. exact HE.
  - inv_bind H. rename a into s1.
    assert (Hx : typed (ev, t)).
    { rewrite Forall_forall in Hty. apply Hty. rewrite Hm. apply in_or_app. right. left. reflexivity. }
    assert (Hin : In (ev, t) m) by (rewrite Hm; apply in_or_app; right; left; reflexivity).
    destruct (step_iinv2 base p s ev t s1 Hb Hi Hx Ha) as [Hi1 Hstep].
    assert (Hother : forall d i k vel, ev = MidiEvent d (NoteOn i k vel) -> 0 < vel -> i <> c ->
        nth (Z.to_nat i) base 0%nat = v -> i <> 9 /\ prg s (Z.to_nat i) = None).
    { intros d i k vel -> Hv Hne Hbi. pose proof Hx as (Hci & _). unfold channel_ok in Hci. cbn [addressee event_channel fst] in Hci.
      specialize (Hun i Hci Hne Hbi). assert (Hi9 : i <> 9).
      { intros He. rewrite Forall_forall in Hun. destruct (Hun _ (in_channel _ _ i Hin eq_refl ltac:(lia))) as [_ Hno]. specialize (Hno He).
        cbn in Hno. lia. }
      split; [exact Hi9|]. eapply no_pc_channel; [exact Hi|exact Hm|exact Hci|exact Hi9|].
      eapply Forall_impl; [|exact Hun]. intros y [Hy _]; exact Hy. }
    assert (HP1 : last_program (vv s1 v) = prg s1 (Z.to_nat c)).
    { rewrite (prg_step base s ev t s1 _ (ii_ctrl _ _ _ Hi) Hstep) by lia.
      destruct ev as [? [] ?|d [i k vel|i k vel|i k vel|i ctl dat|i pr|i pr|i dat|i]|? ? ?|].
      all: try (rewrite (step_program base s _ t s1 v (ii_ctrl _ _ _ Hi) (ii_pitch _ _ _ Hi) Hstep); exact HP).
      - destruct (0 <? vel) eqn:Ev.
        + assert (Hv : 0 < vel) by lia.
          destruct (step_program_on base s d i k vel t s1 (ii_ctrl _ _ _ Hi) (ii_pitch _ _ _ Hi) Hstep Hv) as (voice & Hvb & Hlp & _).
          rewrite Hlp. destruct (Nat.eqb_spec v voice) as [He|He]; [|exact HP]. subst voice.
          destruct Hvb as [Hvb|Hvb]; [|contradiction]. rewrite (prelude_program _ _ _ _ _ _ (ii_ctrl _ _ _ Hi) (ii_pitch _ _ _ Hi)).
          destruct (Z.eq_dec i c) as [Hic|Hic].
          * subst i. replace (c =? 9) with false by lia. cbn [andb]. unfold over.
            destruct (match nth v (v_chan s) None with Some c' => Z.of_nat c' =? c | None => false end); [exact HP|].
            destruct (prg s (Z.to_nat c)); [reflexivity|exact HP].
          * destruct (Hother d i k vel eq_refl Hv Hic (eq_sym Hvb)) as [Hi9 Hn]. replace (i =? 9) with false by lia. cbn [andb].
            rewrite Hn. destruct (match nth v (v_chan s) None with Some c' => Z.of_nat c' =? i | None => false end); exact HP.
        + rewrite (step_program base s _ t s1 v (ii_ctrl _ _ _ Hi) (ii_pitch _ _ _ Hi) Hstep), Ev. exact HP.
      - rewrite (step_program base s _ t s1 v (ii_ctrl _ _ _ Hi) (ii_pitch _ _ _ Hi) Hstep).
        pose proof Hx as (Hci & _). unfold channel_ok in Hci. cbn [addressee event_channel fst] in Hci.
        rewrite (hears_base base p s i v Hi Hci HvIn). destruct (Z.eq_dec i c) as [Hic|Hic].
        + subst i. rewrite Nat.eqb_refl. fold v. rewrite Nat.eqb_refl. reflexivity.
        + destruct (Nat.eqb_spec (Z.to_nat c) (Z.to_nat i)); [lia|].
          destruct (Nat.eqb_spec v (nth (Z.to_nat i) base 0%nat)) as [He|He]; [|exact HP]. exfalso.
          specialize (Hun i Hci Hic (eq_sym He)). rewrite Forall_forall in Hun.
          destruct (Hun _ (in_channel _ _ i Hin eq_refl ltac:(lia))) as [Hno _]. discriminate. }
    apply (IH (p ++ [(ev, t)]) s1); [rewrite <- app_assoc; exact Hm|exact Hi1|exact HP1| |exact H].
    eapply step_px; [apply Hi|apply Hi|apply Hi|exact Hstep|exact HE|].
    intros d i k vel px -> Hv _ Hpx Hch Hvb d' k' vel' t' Hinj. injection Hinj as E1 E2 E3 E4 E5. subst d' i k' vel' t'.
    rewrite last_program_app, Hpx, (prelude_program _ _ _ _ _ _ (ii_ctrl _ _ _ Hi) (ii_pitch _ _ _ Hi)).
    replace (c =? 9) with false by lia. cbn [andb]. rewrite (program_now base p s _ c _ _ _ q m Hi Hm Hsort Hc H9 Hv).
    destruct (match nth v (v_chan s) None with Some c' => Z.of_nat c' =? c | None => false end); [exact HP|].
    destruct (prg s (Z.to_nat c)); [reflexivity|exact HP].
Qed.

(** ** C22, notes on voices that are nobody's base voice *)
Definition own_some (m : list tmsg) (c : Z) (l1 : list tmsg) (x : tmsg) : Prop :=
  forall d k vel t p, x = (MidiEvent d (NoteOn c k vel), t) -> program_at (filter (for_channel (Z.to_nat c)) m) t = Some p ->
    last_program l1 = Some p.
Lemma no_more_programs m p q c d pr t : programs_first (filter (for_channel (Z.to_nat c)) m) ->
  m = p ++ (MidiEvent d (ProgramChange c pr), t) :: q -> 0 <= c ->
  ~ exists x, In x (filter (for_channel (Z.to_nat c)) p) /\ note_on (fst x) = true.
Proof.
  intros Hpf -> Hc (x & Hx & Hon). apply in_split in Hx. destruct Hx as (a & b & E).
  rewrite filter_app in Hpf. cbn [filter] in Hpf.
  replace (for_channel (Z.to_nat c) (MidiEvent d (ProgramChange c pr), t)) with true in Hpf
    by (unfold for_channel; cbn [fst addressee event_channel]; lia).
  change (message * Z)%type with tmsg in *. rewrite E, <- app_assoc in Hpf. cbn [app] in Hpf. specialize (Hpf a x _ eq_refl Hon). rewrite Forall_forall in Hpf.
  specialize (Hpf (MidiEvent d (ProgramChange c pr), t)). cbn in Hpf.
  assert (true = false) by (apply Hpf, in_or_app; right; left; reflexivity). discriminate.
Qed.

Lemma run_free base c m v : base_ok base -> 0 <= c < 16 -> c <> 9 -> Forall typed m -> StronglySorted not_after m ->
  programs_first (filter (for_channel (Z.to_nat c)) m) -> ~ In v base ->
  forall q p s s', m = p ++ q -> iinv2 base p s ->
    (nth v (v_chan s) None = Some (Z.to_nat c) ->
       (exists x, In x (filter (for_channel (Z.to_nat c)) p) /\ note_on (fst x) = true) /\
       forall pr, prg s (Z.to_nat c) = Some pr -> last_program (vv s v) = Some pr) ->
    each_on (own_some m c) (vv s v) ->
    ofold (vstep base) q s = Ok s' -> each_on (own_some m c) (vv s' v).
Proof.
  intros Hb Hc H9 Hty Hsort Hpf Hv.
  induction q as [|[ev t] q IH]; intros p s s' Hm Hi HP HE H; cbn [ofold] in H.
  - injection H as <-. exact HE.
  - inv_bind H. rename a into s1.
    assert (Hin : In (ev, t) m) by (rewrite Hm; apply in_or_app; right; left; reflexivity).
    assert (Hx : typed (ev, t)) by (rewrite Forall_forall in Hty; apply Hty; exact Hin).
    destruct (step_iinv2 base p s ev t s1 Hb Hi Hx Ha) as [Hi1 Hstep].
    pose proof Hx as (Hci & _). unfold channel_ok in Hci. cbn [fst] in Hci.
    assert (Hmore : (exists x, In x (filter (for_channel (Z.to_nat c)) p) /\ note_on (fst x) = true) ->
                    exists x, In x (filter (for_channel (Z.to_nat c)) (p ++ [(ev, t)])) /\ note_on (fst x) = true).
    { intros (x & Hx1 & Hx2). exists x. split; [|exact Hx2]. rewrite filter_app. apply in_or_app. left. exact Hx1. }
    assert (HP1 : nth v (v_chan s1) None = Some (Z.to_nat c) ->
       (exists x, In x (filter (for_channel (Z.to_nat c)) (p ++ [(ev, t)])) /\ note_on (fst x) = true) /\
       forall pr, prg s1 (Z.to_nat c) = Some pr -> last_program (vv s1 v) = Some pr).
    { rewrite (prg_step base s ev t s1 _ (ii_ctrl _ _ _ Hi) Hstep) by lia.
      assert (Hkeep : nth v (v_chan s1) None = nth v (v_chan s) None -> last_program (vv s1 v) = last_program (vv s v) ->
        nth v (v_chan s1) None = Some (Z.to_nat c) ->
       (exists x, In x (filter (for_channel (Z.to_nat c)) (p ++ [(ev, t)])) /\ note_on (fst x) = true) /\
       forall pr, prg s (Z.to_nat c) = Some pr -> last_program (vv s1 v) = Some pr).
      { intros E1 E2 E3. rewrite E1 in E3. destruct (HP E3) as [Hp1 Hp2]. split; [auto|]. rewrite E2. exact Hp2. }
      pose proof (step_program base s _ t s1 v (ii_ctrl _ _ _ Hi) (ii_pitch _ _ _ Hi) Hstep) as Hlp.
      pose proof Hstep as (px & _ & Hst).
      destruct ev as [? [] ?|d [i k vel|i k vel|i k vel|i ctl dat|i pr|i pr|i dat|i]|? ? ?|].
      all: try (destruct Hst as (_ & Hch & _); apply Hkeep; [rewrite Hch; reflexivity|exact Hlp]).
      - destruct Hst as (_ & _ & _ & _ & _ & Hch & _). apply Hkeep; [rewrite Hch; reflexivity|exact Hlp].
      - destruct (0 <? vel) eqn:Ev.
        + assert (Hv0 : 0 < vel) by lia. cbn [addressee event_channel] in Hci.
          destruct (step_program_on base s d i k vel t s1 (ii_ctrl _ _ _ Hi) (ii_pitch _ _ _ Hi) Hstep Hv0) as (voice & Hvb & Hlp' & Hch & _).
          destruct (Nat.eqb_spec v voice) as [He|He].
          2:{ apply Hkeep; [rewrite Hch|rewrite Hlp']; destruct (Nat.eqb_spec v voice); congruence. }
          subst voice. specialize (Hch v). specialize (Hlp' v). rewrite Nat.eqb_refl in Hch, Hlp'. rewrite Hch. intros [= He].
          assert (i = c) by lia. subst i. split.
          * exists (MidiEvent d (NoteOn c k vel), t). split; [|cbn; lia]. apply in_channel; [|reflexivity|lia].
            apply in_or_app. right. left. reflexivity.
          * intros pr Hpr. rewrite Hlp', (prelude_program _ _ _ _ _ _ (ii_ctrl _ _ _ Hi) (ii_pitch _ _ _ Hi)).
            replace (c =? 9) with false by lia. cbn [andb]. unfold over. rewrite Hpr.
            destruct (nth v (v_chan s) None) as [c'|] eqn:Ec; [|reflexivity].
            destruct (Z.eqb_spec (Z.of_nat c') c) as [Hcc|Hcc]; [|reflexivity].
            apply HP; [f_equal; lia|exact Hpr].
        + destruct Hst as (_ & _ & Hst). try rewrite Ev in Hst. destruct Hst as (_ & _ & _ & Hch & _).
          apply Hkeep; [rewrite Hch; reflexivity|exact Hlp].
      - destruct Hst as (_ & Hch & _). rewrite Hch. cbn [addressee event_channel] in Hci. intros Hvc. destruct (HP Hvc) as [Hp1 Hp2].
        split; [auto|]. destruct (Z.eq_dec i c) as [Hic|Hic].
        + subst i. exfalso. eapply no_more_programs; [exact Hpf|exact Hm|lia|exact Hp1].
        + destruct (Nat.eqb_spec (Z.to_nat c) (Z.to_nat i)); [lia|]. rewrite Hlp.
          destruct (hears s base i v) eqn:Eh; [|exact Hp2]. exfalso.
          pose proof (hears_other base p s i v Hi Hb Hci Hv Eh) as Hvi. rewrite Hvi in Hvc. injection Hvc as Hvc. lia. }
    apply (IH (p ++ [(ev, t)]) s1); [rewrite <- app_assoc; exact Hm|exact Hi1|exact HP1| |exact H].
    eapply step_px; [apply Hi|apply Hi|apply Hi|exact Hstep|exact HE|].
    intros d i k vel px -> Hv0 _ Hpx Hch Hvb d' k' vel' t' pr Hinj. injection Hinj as E1 E2 E3 E4 E5. subst d' i k' vel' t'.
    rewrite (program_now base p s _ c _ _ _ q m Hi Hm Hsort Hc H9 Hv0). intros Hpr.
    rewrite last_program_app, Hpx, (prelude_program _ _ _ _ _ _ (ii_ctrl _ _ _ Hi) (ii_pitch _ _ _ Hi)).
    replace (c =? 9) with false by lia. cbn [andb]. rewrite Hpr.
    destruct (nth v (v_chan s) None) as [c'|] eqn:Ec; [|reflexivity].
    destruct (Z.eqb_spec (Z.of_nat c') c) as [Hcc|Hcc]; [|reflexivity].
    apply HP; [f_equal; lia|exact Hpr].
Qed.

(** ** C23 *)
Definition percussion (m : list tmsg) (l1 : list tmsg) (x : tmsg) : Prop :=
  forall d k vel t, x = (MidiEvent d (NoteOn 9 k vel), t) ->
    exists k0, In (MidiEvent d (NoteOn 9 k0 vel), t) m /\ drum_key 9 k0 = k /\ last_program l1 = Some (9, instr_of k0).
Definition perc_prog (s : vstate) : option (Z * Z) := if v_perc s =? 0 then None else Some (9, v_perc s).
Lemma instr_nonzero k : instr_of k <> 0.
Proof. unfold instr_of, SNARE, CYMBAL. destruct (is_snare k); discriminate. Qed.

Lemma run_perc base m : base_ok base -> Forall typed m ->
  let v := nth 9 base 0%nat in
  (forall i, 0 <= i < 16 -> nth (Z.to_nat i) base 0%nat = v ->
     Forall (fun x => is_pc (fst x) = false) (filter (for_channel (Z.to_nat i)) m)) ->
  forall q p s s', m = p ++ q -> iinv2 base p s -> last_program (vv s v) = perc_prog s -> prg s 9 = perc_prog s ->
    each_on (percussion m) (vv s v) ->
    ofold (vstep base) q s = Ok s' ->
    (forall w d k vel t, In (MidiEvent d (NoteOn 9 k vel), t) (vv s' w) -> w = v) ->
    each_on (percussion m) (vv s' v).
Proof.
  intros Hb Hty v Hun.
  assert (HvIn : In v base) by (apply base_in; [exact Hb|lia]).
  induction q as [|[ev t] q IH]; intros p s s' Hm Hi HP HG HE H Hfin; cbn [ofold] in H.
  - injection H as <-. exact HE.
  - inv_bind H. rename a into s1.
    assert (Hin : In (ev, t) m) by (rewrite Hm; apply in_or_app; right; left; reflexivity).
    assert (Hx : typed (ev, t)) by (rewrite Forall_forall in Hty; apply Hty; exact Hin).
    assert (Htq : Forall typed q).
    { rewrite Hm in Hty. apply Forall_app in Hty. destruct Hty as [_ Hty]. inversion Hty; assumption. }
    destruct (step_iinv2 base p s ev t s1 Hb Hi Hx Ha) as [Hi1 Hstep].
    pose proof Hx as (Hci & _). unfold channel_ok in Hci. cbn [fst] in Hci.
    assert (Hgrow : forall w, exists r, vv s' w = vv s1 w ++ r).
    { destruct (run_spec base q Hb s1 s') as (_ & _ & sx & Hsx & _);
        [apply Hi1|apply Hi1|eapply Forall_impl; [|exact Htq]; intros y (Hy & _); exact Hy
        |eapply Forall_impl; [|exact Htq]; intros y (_ & _ & Hy); exact Hy|exact H|]. intros w. exists (sx w). apply Hsx. }
    assert (Hinv : last_program (vv s1 v) = perc_prog s1 /\ prg s1 9 = perc_prog s1).
    { pose proof (step_program base s _ t s1 v (ii_ctrl _ _ _ Hi) (ii_pitch _ _ _ Hi) Hstep) as Hlp.
      assert (Hkeep : v_perc s1 = v_perc s -> v_prog s1 = v_prog s -> last_program (vv s1 v) = last_program (vv s v) ->
                last_program (vv s1 v) = perc_prog s1 /\ prg s1 9 = perc_prog s1).
      { intros E1 E2 E3. unfold perc_prog, prg in *. rewrite E1, E2, E3. auto. }
      pose proof Hstep as (px & _ & Hst).
      destruct ev as [? [] ?|d [i k vel|i k vel|i k vel|i ctl dat|i pr|i pr|i dat|i]|? ? ?|].
      all: try (destruct Hst as (_ & _ & E1 & _ & E2 & _); apply Hkeep; assumption).
      - destruct Hst as (_ & _ & _ & E2 & _ & _ & E1). apply Hkeep; assumption.
      - destruct (0 <? vel) eqn:Ev.
        + assert (Hv : 0 < vel) by lia. clear Hst.
          destruct (step_program_on base s d i k vel t s1 (ii_ctrl _ _ _ Hi) (ii_pitch _ _ _ Hi) Hstep Hv) as (voice & Hvb & Hlp' & _ & Hon & Hpe).
          destruct (Z.eq_dec i 9) as [H9|H9].
          * subst i. assert (voice = v).
            { destruct (Hgrow voice) as [r Hr]. eapply Hfin. rewrite Hr. apply in_or_app. left. exact Hon. }
            subst voice. specialize (Hlp' v). rewrite Nat.eqb_refl in Hlp'. rewrite Hlp'.
            rewrite (prelude_program _ _ _ _ _ _ (ii_ctrl _ _ _ Hi) (ii_pitch _ _ _ Hi)). cbn [Z.eqb Pos.eqb andb] in *.
            pose proof (instr_nonzero k). destruct (Z.eqb_spec (v_perc s) (instr_of k)) as [He|He]; cbn [negb] in *.
            -- destruct Hpe as [E1 E2]. unfold perc_prog, prg in *. rewrite E1, E2, He in *.
               replace (instr_of k =? 0) with false in * by lia. split; [|exact HG].
               change (Z.to_nat 9) with 9%nat. rewrite HG.
               destruct (match nth v (v_chan s) None with Some c' => Z.of_nat c' =? 9 | None => false end); [exact HP|reflexivity].
            -- destruct Hpe as [E1 E2]. unfold perc_prog, prg. rewrite E1, (set_nth_nth _ _ _ _ None E2), Nat.eqb_refl.
               replace (instr_of k =? 0) with false by lia. split; reflexivity.
          * replace (i =? 9) with false in * by lia. cbn [andb] in *. destruct Hpe as [E1 E2]. apply Hkeep; [exact E1|exact E2|].
            rewrite Hlp'. destruct (Nat.eqb_spec v voice) as [He|He]; [|reflexivity]. subst voice.
            destruct Hvb as [Hvb|Hvb]; [|contradiction]. cbn [addressee event_channel] in Hci.
            rewrite (prelude_program _ _ _ _ _ _ (ii_ctrl _ _ _ Hi) (ii_pitch _ _ _ Hi)). replace (i =? 9) with false by lia. cbn [andb].
            rewrite (no_pc_channel base p s m _ i Hi Hm Hci H9 (Hun i Hci (eq_sym Hvb))).
            destruct (match nth v (v_chan s) None with Some c' => Z.of_nat c' =? i | None => false end); reflexivity.
        + destruct Hst as (_ & _ & Hst). try rewrite Ev in Hst. destruct Hst as (_ & _ & E2 & _ & E1). apply Hkeep; assumption.
      - cbn [addressee event_channel] in Hci. destruct Hst as (_ & _ & E1 & _ & E2 & _).
        assert (Hno : nth (Z.to_nat i) base 0%nat <> v).
        { intros He. specialize (Hun i Hci He). rewrite Forall_forall in Hun.
          specialize (Hun _ (in_channel _ _ i Hin eq_refl ltac:(lia))). discriminate. }
        rewrite (hears_base base p s i v Hi Hci HvIn) in Hlp. destruct (Nat.eqb_spec v (nth (Z.to_nat i) base 0%nat)); [congruence|].
        unfold perc_prog, prg in *. rewrite E1, Hlp, (set_nth_nth _ _ _ _ None E2).
        destruct (Nat.eqb_spec 9 (Z.to_nat i)) as [He|He]; [|auto]. exfalso. apply Hno. rewrite <- He. reflexivity. }
    apply (IH (p ++ [(ev, t)]) s1); [rewrite <- app_assoc; exact Hm|exact Hi1|apply Hinv|apply Hinv| |exact H|exact Hfin].
    eapply step_px; [apply Hi|apply Hi|apply Hi|exact Hstep|exact HE|].
    intros d i k vel px -> Hv _ Hpx Hch Hvb d' k' vel' t' Hinj. injection Hinj as E1 E2 E3 E4 E5. subst d' i k' vel' t'.
    exists k. split; [exact Hin|]. split; [reflexivity|].
    rewrite last_program_app, Hpx, (prelude_program _ _ _ _ _ _ (ii_ctrl _ _ _ Hi) (ii_pitch _ _ _ Hi)). cbn [Z.eqb Pos.eqb andb].
    pose proof (instr_nonzero k). destruct (Z.eqb_spec (v_perc s) (instr_of k)) as [He|He]; cbn [negb]; [|reflexivity].
    unfold perc_prog in *. change (Z.to_nat 9) with 9%nat. rewrite HG, HP, He. replace (instr_of k =? 0) with false by lia.
    destruct (match nth v (v_chan s) None with Some c' => Z.of_nat c' =? 9 | None => false end); reflexivity.
Qed.

(** ** Distribution level *)
Lemma run_place base m v : base_ok base -> Forall typed m -> forall q p s s', m = p ++ q -> iinv2 base p s ->
  each_on (fun _ x => forall d c k vel t, x = (MidiEvent d (NoteOn c k vel), t) -> v = nth (Z.to_nat c) base 0%nat \/ ~ In v base) (vv s v) ->
  ofold (vstep base) q s = Ok s' ->
  each_on (fun _ x => forall d c k vel t, x = (MidiEvent d (NoteOn c k vel), t) -> v = nth (Z.to_nat c) base 0%nat \/ ~ In v base) (vv s' v).
Proof.
  intros Hb Hty. induction q as [|[ev t] q IH]; intros p s s' Hm Hi HE H; cbn [ofold] in H.
  - injection H as <-. exact HE.
  - inv_bind H. rename a into s1.
    assert (Hx : typed (ev, t)) by (rewrite Forall_forall in Hty; apply Hty; rewrite Hm; apply in_or_app; right; left; reflexivity).
    destruct (step_iinv2 base p s ev t s1 Hb Hi Hx Ha) as [Hi1 Hstep].
    apply (IH (p ++ [(ev, t)]) s1); [rewrite <- app_assoc; exact Hm|exact Hi1| |exact H].
    eapply step_px; [apply Hi|apply Hi|apply Hi|exact Hstep|exact HE|].
    intros d i k vel px -> Hv _ Hpx Hch Hvb d' c' k' vel' t' Hinj. injection Hinj as E1 E2 E3 E4 E5. subst d' i k' vel' t'. exact Hvb.
Qed.

Lemma channel_of_merge chs m c : channels_ok chs -> interleave chs m -> (c < 16)%nat -> filter (for_channel c) m = nth c chs [].
Proof.
  intros (HL & _ & _ & Hw) Hm Hc. apply (interleave_filter chs m Hm Hw). apply nth_error_nth'. lia.
Qed.
Lemma each_on_nil Q : each_on Q [].
Proof. intros l1 x l2 E. destruct l1; discriminate. Qed.

Lemma last_program_none_iff l : last_program l = None <-> Forall (fun x => is_pc (fst x) = false) l.
Proof.
  split; [|apply last_program_none]. induction l as [|[m t] l IH]; [constructor|]. intros H.
  assert (Hm : is_pc m = false /\ last_program l = None).
  { destruct m as [|? []| |]; cbn in H |- *; auto. destruct (last_program l); discriminate. }
  constructor; [apply Hm|apply IH, Hm].
Qed.
Lemma channel_notes_nil l : Forall (fun x => match fst x with MidiEvent _ (NoteOn _ _ v) => 0 <= v | _ => True end) l ->
  channel_notes l = [] -> Forall (fun x => note_on (fst x) = false) l.
Proof.
  induction l as [|[m t] l IH]; intros HF H; [constructor|]. inversion HF; subst.
  destruct m as [|? []| |]; cbn in *; try (constructor; [reflexivity|auto]; fail).
  destruct (velocity =? 0) eqn:E; [|discriminate]. constructor; [cbn; lia|auto].
Qed.

Lemma own_instrument chs base order voices c v l1 d k vel t l2 p :
  channels_ok chs -> base_ok base -> (forall j, permutes (order j)) -> channels_to_voices chs base order = Ok voices ->
  0 <= c < 16 -> c <> 9 ->
  nth v voices [] = l1 ++ (MidiEvent d (NoteOn c k vel), t) :: l2 ->
  program_at (nth (Z.to_nat c) chs []) t = Some p ->
  (if Nat.eqb v (nth (Z.to_nat c) base 0%nat) then quiet_sharers chs base (Z.to_nat c)
   else programs_first (nth (Z.to_nat c) chs [])) ->
  last_program l1 = Some p.
Proof.
  intros Hchs Hb Ho H Hc H9 Hsplit Hp Hcase. destruct (channels_merge chs Hchs) as (m & Hm & Hsort & Ht & _ & Hrun).
  rewrite Hrun in H by exact Ho. inv_bind H. injection H as <-. rename a into s. apply ordered_interleave in Hm.
  fold (vv s v) in Hsplit. pose proof (channel_of_merge chs m (Z.to_nat c) Hchs Hm ltac:(lia)) as Hf.
  destruct (Nat.eqb_spec v (nth (Z.to_nat c) base 0%nat)) as [He|He].
  - subst v. assert (Hun : unshared base m c).
    { intros i Hi Hne Hbi. destruct (Hcase (Z.to_nat i)) as [Hq1 Hq2]; [lia|lia|exact Hbi|].
      rewrite (channel_of_merge chs m (Z.to_nat i) Hchs Hm) by lia. apply last_program_none_iff in Hq1.
      assert (Hnn : i = 9 -> Forall (fun x => note_on (fst x) = false) (nth (Z.to_nat i) chs [])).
      { intros Hi9. apply channel_notes_nil; [|apply Hq2; lia]. destruct Hchs as (HL & Hty & _).
        rewrite Forall_forall in Hty. assert (Hin : In (nth (Z.to_nat i) chs []) chs) by (apply nth_In; lia).
        specialize (Hty _ Hin). eapply Forall_impl; [|exact Hty]. intros x (_ & _ & Hx). exact Hx. }
      apply Forall_forall. intros x Hx. rewrite Forall_forall in Hq1. split; [apply Hq1; exact Hx|]. intros Hi9. specialize (Hnn Hi9). rewrite Forall_forall in Hnn. apply Hnn; exact Hx. }
    pose proof (run_base base c m Hb Hc H9 Ht Hsort Hun m [] (vstate0 base) s eq_refl (iinv2_0 base)) as HR.
    cbn zeta in HR. rewrite vv0 in HR.
    assert (HR' : each_on (own m c) (vv s (nth (Z.to_nat c) base 0%nat))).
    { apply HR; [|apply each_on_nil|exact Ha]. unfold prg, vstate0. cbn [v_prog]. rewrite nth_repeat. reflexivity. }
    specialize (HR' _ _ _ Hsplit eq_refl d k vel t eq_refl). rewrite HR', Hf. exact Hp.
  - assert (Hv : ~ In v base).
    { pose proof (run_place base m v Hb Ht m [] (vstate0 base) s eq_refl (iinv2_0 base)) as HR. rewrite vv0 in HR.
      specialize (HR (each_on_nil _) Ha _ _ _ Hsplit eq_refl d c k vel t eq_refl). tauto. }
    rewrite <- Hf in Hcase.
    pose proof (run_free base c m v Hb Hc H9 Ht Hsort Hcase Hv m [] (vstate0 base) s eq_refl (iinv2_0 base)) as HR. rewrite vv0 in HR.
    refine (HR _ (each_on_nil _) Ha _ _ _ Hsplit eq_refl d k vel t p eq_refl _); [|rewrite Hf; exact Hp].
    intros Hch. exfalso. unfold vstate0 in Hch. cbn [v_chan] in Hch.
    destruct (Nat.lt_ge_cases v 8) as [H8|H8].
    2:{ rewrite nth_overflow in Hch by (rewrite map_length, seq_length; lia). discriminate. }
    rewrite (nth_indep _ None (first_channel_of base 0)) in Hch by (rewrite map_length, seq_length; lia).
    rewrite map_nth, seq_nth in Hch by lia. cbn [plus] in Hch. unfold first_channel_of in Hch.
    assert (Hfi : forall l i, find_index (fun bv => Nat.eqb bv v) l = Some i -> In v l).
    { induction l as [|y l IHl]; cbn; intros i Hi; [discriminate|]. destruct (Nat.eqb_spec y v); [left; assumption|].
      destruct (find_index _ l) eqn:E; [|discriminate]. right. eapply IHl. reflexivity. }
    apply Hv. eapply Hfi. exact Hch.
Qed.

Lemma own_percussion chs base order voices v l1 d k vel t l2 :
  channels_ok chs -> base_ok base -> (forall j, permutes (order j)) -> channels_to_voices chs base order = Ok voices ->
  (forall i, (i < 16)%nat -> nth i base 0%nat = nth 9 base 0%nat -> last_program (nth i chs []) = None) ->
  (forall w d' k' vel' t', In (MidiEvent d' (NoteOn 9 k' vel'), t') (nth w voices []) -> w = nth 9 base 0%nat) ->
  nth v voices [] = l1 ++ (MidiEvent d (NoteOn 9 k vel), t) :: l2 ->
  exists k0, In (MidiEvent d (NoteOn 9 k0 vel), t) (nth 9 chs []) /\ drum_key 9 k0 = k /\ last_program l1 = Some (9, instr_of k0).
Proof.
  intros Hchs Hb Ho H Hq Hfin Hsplit. destruct (channels_merge chs Hchs) as (m & Hm & Hsort & Ht & _ & Hrun).
  rewrite Hrun in H by exact Ho. inv_bind H. injection H as <-. rename a into s. apply ordered_interleave in Hm.
  assert (v = nth 9 base 0%nat).
  { eapply Hfin. rewrite Hsplit. apply in_or_app. right. left. reflexivity. }
  subst v. pose proof (run_perc base m Hb Ht) as HR. cbn zeta in HR.
  assert (HR' : each_on (percussion m) (vv s (nth 9 base 0%nat))).
  { apply (HR) with (q := m) (p := []) (s := vstate0 base).
    - intros i Hi Hbi. rewrite (channel_of_merge chs m (Z.to_nat i) Hchs Hm) by lia. apply last_program_none_iff, Hq; [lia|exact Hbi].
    - reflexivity.
    - apply iinv2_0.
    - rewrite vv0. reflexivity.
    - reflexivity.
    - rewrite vv0. apply each_on_nil.
    - exact Ha.
    - intros w d' k' vel' t' Hin. eapply Hfin. exact Hin. }
  destruct (HR' _ _ _ Hsplit eq_refl d k vel t eq_refl) as (k0 & Hin & Hk & Hl). exists k0. split; [|auto].
  rewrite <- (channel_of_merge chs m 9 Hchs Hm) by lia. apply (in_channel _ m 9 Hin eq_refl). lia.
Qed.

(** DistributeProofs.v: distribution of channels to voices (C11, C18, C19, C20). *)
From Coq Require Import ZArith List Bool Lia ZifyBool ZifyNat Permutation Sorted.
From Verif Require Import Base ProofLib Messages Track Midi SpecMidi SpecNotes SpecVoices MergeProofs LoopProofs VoiceProofs.
Ltac Zify.zify_post_hook ::= Z.div_mod_to_equations.

(** ** Notes of the merged list *)
Fixpoint merged_end (c k : Z) (l : list tmsg) : option Z :=
  match l with
  | [] => None
  | (MidiEvent _ (NoteOff c' k' _), t) :: r => if (c' =? c) && (k' =? k) then Some t else merged_end c k r
  | (MidiEvent _ (NoteOn c' k' _), t) :: r => if (c' =? c) && (k' =? k) then Some t else merged_end c k r
  | _ :: r => merged_end c k r
  end.
Fixpoint merged_notes (l : list tmsg) : list note :=
  match l with
  | [] => []
  | (MidiEvent _ (NoteOn c k v), t) :: r =>
      if v =? 0 then merged_notes r else mk_note c k t (merged_end c k r) v :: merged_notes r
  | _ :: r => merged_notes r
  end.

Definition quiet (l : list tmsg) : Prop := Forall (fun x => raw_note (fst x) = false) l.
Lemma quiet_end p l : quiet p -> voice_end (p ++ l) = voice_end l.
Proof. induction p as [|[m t] p IH]; intros H; [reflexivity|]. inversion H; subst. cbn in H2. cbn [app]. rewrite <- IH by assumption.
  destruct m as [|? []| |]; try reflexivity; discriminate. Qed.
Lemma quiet_notes p l : quiet p -> voice_notes (p ++ l) = voice_notes l.
Proof. induction p as [|[m t] p IH]; intros H; [reflexivity|]. inversion H; subst. cbn in H2. cbn [app]. rewrite <- IH by assumption.
  destruct m as [|? []| |]; try reflexivity; discriminate. Qed.
Lemma quiet_alternates p l o : quiet p -> alternates o (p ++ l) <-> alternates o l.
Proof. induction p as [|[m t] p IH]; intros H; [reflexivity|]. inversion H; subst. cbn in H2. cbn [app]. rewrite <- IH by assumption.
  destruct m as [|? []| |]; try reflexivity; discriminate. Qed.
Lemma quiet_sounding p l o : quiet p -> sounding_after o (p ++ l) = sounding_after o l.
Proof. induction p as [|[m t] p IH]; intros H; [reflexivity|]. inversion H; subst. cbn in H2. cbn [app]. rewrite <- IH by assumption.
  destruct m as [|? []| |]; try reflexivity; discriminate. Qed.
Lemma sounding_app l1 l2 o : sounding_after o (l1 ++ l2) = sounding_after (sounding_after o l1) l2.
Proof. revert o; induction l1 as [|[m t] l1 IH]; intros o; [reflexivity|]. cbn [app].
  destruct m as [|? []| |]; cbn [sounding_after]; apply IH. Qed.

Definition notes8 (sx : nat -> list tmsg) : list note := flat_map (fun v => voice_notes (sx v)) (seq 0 8).
Lemma flat_map_ext_in {A B} (f g : A -> list B) l : (forall x, In x l -> f x = g x) -> flat_map f l = flat_map g l.
Proof. induction l as [|x l IH]; intros H; cbn; [reflexivity|]. rewrite (H x), IH; [reflexivity| |left; reflexivity].
  intros y Hy; apply H; right; exact Hy. Qed.
Lemma flat_map_bump {A} (f g : nat -> list A) v n l : NoDup l -> In v l -> f v = n :: g v ->
  (forall w, w <> v -> f w = g w) -> Permutation (flat_map f l) (n :: flat_map g l).
Proof.
  induction l as [|w l IH]; intros Hd Hin Hv Ho; [destruct Hin|]. inversion Hd; subst. cbn [flat_map].
  destruct (Nat.eq_dec w v) as [He|He].
  - subst w. rewrite Hv. cbn [app]. constructor. rewrite (flat_map_ext_in f g l); [reflexivity|].
    intros x Hx. apply Ho. intros ->; contradiction.
  - destruct Hin as [Hin|Hin]; [congruence|]. rewrite (Ho w He). rewrite (IH H2 Hin Hv Ho).
    symmetry. apply Permutation_middle.
Qed.
Lemma notes8_bump f g voice n : (voice < 8)%nat -> voice_notes (f voice) = n :: voice_notes (g voice) ->
  (forall w, w <> voice -> f w = g w) -> Permutation (notes8 f) (n :: notes8 g).
Proof.
  intros Hv He Ho. unfold notes8. apply (flat_map_bump _ _ voice).
  - apply seq_NoDup.
  - apply in_seq; lia.
  - exact He.
  - intros w Hw. rewrite Ho by exact Hw. reflexivity.
Qed.
Lemma notes8_ext f g : (forall v, voice_notes (f v) = voice_notes (g v)) -> notes8 f = notes8 g.
Proof. intros H. unfold notes8. apply flat_map_ext_in. intros; apply H. Qed.

(** Sounding notes [L], what is appended to each voice [sx] and the messages to come [m] agree. *)
Definition good (L : Z -> Z -> option nat) (sx : nat -> list tmsg) (m : list tmsg) : Prop :=
  (forall c k v, 0 <= c < 16 -> L c k = Some v ->
     alternates (Some (c, drum_key c k)) (sx v) /\ voice_end (sx v) = merged_end c k m) /\
  (forall v, ~ used L v -> alternates None (sx v)).
Definition inj (L : Z -> Z -> option nat) : Prop :=
  forall c k c' k' v, 0 <= c < 16 -> 0 <= c' < 16 -> L c k = Some v -> L c' k' = Some v -> c = c' /\ k = k'.

Lemma used_dec s v : vinv s -> used (lookup (v_active s)) v \/ ~ used (lookup (v_active s)) v.
Proof.
  intros Hs. pose proof (voice_active_used (v_active s) v (vi_active _ Hs) (vi_nodup _ Hs)) as H.
  destruct (voice_active (v_active s) v); [left; apply H; reflexivity|right; rewrite <- H; discriminate].
Qed.

Lemma off_phase L c k d kk vel t sy m m' : inj L -> 0 <= c < 16 ->
  (kk = k \/ kk = drum_key c k) ->
  (L c k <> None -> merged_end c k m' = Some t) ->
  (forall c' k', c' <> c \/ k' <> k -> merged_end c' k' m' = merged_end c' k' m) ->
  good (without L c k) sy m ->
  good L (fun v => on_voice (L c k) (MidiEvent d (NoteOff c kk vel), t) v ++ sy v) m' /\
  notes8 (fun v => on_voice (L c k) (MidiEvent d (NoteOff c kk vel), t) v ++ sy v) = notes8 sy.
Proof.
  intros Hi Hc Hkk Hend Hother [Hg1 Hg2].
  assert (Hnotused : forall v, L c k = Some v -> ~ used (without L c k) v).
  { intros v Hv (c' & k' & Hc' & H). unfold without in H. destruct ((c' =? c) && (k' =? k)) eqn:E; [discriminate|].
    destruct (Hi c k c' k' v Hc Hc' Hv H). subst. rewrite !Z.eqb_refl in E. discriminate. }
  split.
  - split.
    + intros c' k' v Hc' Hl. destruct ((c' =? c) && (k' =? k)) eqn:E.
      * assert (c' = c) by lia. assert (k' = k) by lia. subst c' k'. rewrite Hl. cbn [on_voice]. rewrite Nat.eqb_refl. cbn [app].
        split.
        -- cbn [alternates]. split; [|apply Hg2, Hnotused; exact Hl]. exists (drum_key c k). split; [reflexivity|].
           destruct Hkk as [->| ->]; [|left; reflexivity]. unfold drum_key. destruct (c =? 9) eqn:E9; cbn [andb]; [|left; reflexivity].
           right. split; [lia|reflexivity].
        -- cbn [voice_end]. symmetry. apply Hend. rewrite Hl. discriminate.
      * assert (Hv : on_voice (L c k) (MidiEvent d (NoteOff c kk vel), t) v = []).
        { destruct (L c k) as [w|] eqn:El; [|reflexivity]. cbn. destruct (Nat.eqb_spec v w) as [Hvw|]; [|reflexivity].
          subst w. destruct (Hi c k c' k' v Hc Hc' El Hl). subst. rewrite !Z.eqb_refl in E. discriminate. }
        rewrite Hv. cbn [app]. rewrite (Hother c' k') by lia. apply Hg1; [exact Hc'|]. unfold without. rewrite E. exact Hl.
    + intros v Hv. assert (Hv' : on_voice (L c k) (MidiEvent d (NoteOff c kk vel), t) v = []).
      { destruct (L c k) as [w|] eqn:El; [|reflexivity]. cbn. destruct (Nat.eqb_spec v w) as [Hvw|]; [|reflexivity].
        subst w. exfalso. apply Hv. exists c, k. auto. }
      rewrite Hv'. cbn [app]. apply Hg2. intros (c' & k' & Hc' & H). apply Hv. unfold without in H.
      destruct ((c' =? c) && (k' =? k)); [discriminate|]. exists c', k'. auto.
  - apply notes8_ext. intros v. unfold on_voice. destruct (L c k) as [w|]; [|reflexivity].
    destruct (Nat.eqb v w); reflexivity.
Qed.

Lemma on_phase L c k d vel t voice pre sx m : 0 <= c < 16 -> vel <> 0 -> (voice < 8)%nat -> ~ used L voice -> quiet pre ->
  good (with_ L c k voice) sx m -> L c k = None ->
  let sy := fun v => (if Nat.eqb v voice then pre ++ [(MidiEvent d (NoteOn c (drum_key c k) vel), t)] else []) ++ sx v in
  good L sy m /\ Permutation (notes8 sy) (mk_note c (drum_key c k) t (merged_end c k m) vel :: notes8 sx).
Proof.
  intros Hc Hvel Hvo Hnu Hq [Hg1 Hg2] Hnone sy.
  assert (Hck : with_ L c k voice c k = Some voice) by (unfold with_; rewrite !Z.eqb_refl; reflexivity).
  destruct (Hg1 c k voice Hc Hck) as [Ha He].
  split; [split|].
  - intros c' k' v Hc' Hl. unfold sy. destruct (Nat.eqb_spec v voice) as [Hvv|Hvv].
    + subst v. exfalso. apply Hnu. exists c', k'. auto.
    + cbn [app]. apply Hg1; [exact Hc'|]. unfold with_. destruct ((c' =? c) && (k' =? k)) eqn:E; [|exact Hl].
      assert (c' = c) by lia. assert (k' = k) by lia. subst. congruence.
  - intros v Hv. unfold sy. destruct (Nat.eqb_spec v voice) as [Hvv|Hvv].
    + subst v. rewrite <- app_assoc. apply quiet_alternates; [exact Hq|]. cbn [app alternates]. split; [reflexivity|]. split; [exact Hvel|exact Ha].
    + cbn [app]. apply Hg2. intros (c' & k' & Hc' & H). unfold with_ in H.
      destruct ((c' =? c) && (k' =? k)); [injection H as H; congruence|]. apply Hv. exists c', k'. auto.
  - apply (notes8_bump sy sx voice); [exact Hvo| |].
    + unfold sy. rewrite Nat.eqb_refl, <- app_assoc, quiet_notes by exact Hq. cbn [app voice_notes]. rewrite He. reflexivity.
    + intros w Hw. unfold sy. destruct (Nat.eqb_spec w voice); [congruence|reflexivity].
Qed.

Lemma good_ext L L' sx sx' m : (forall c k, 0 <= c < 16 -> L c k = L' c k) -> (forall v, sx v = sx' v) -> good L sx m -> good L' sx' m.
Proof.
  intros HL Hs [H1 H2]. split.
  - intros c k v Hc H. rewrite <- Hs. apply H1; [exact Hc|]. rewrite HL by exact Hc. exact H.
  - intros v Hv. rewrite <- Hs. apply H2. intros (c & k & Hc & H). apply Hv. exists c, k. split; [exact Hc|]. rewrite <- HL by exact Hc. exact H.
Qed.
Lemma notes8_eq f g : (forall v, f v = g v) -> notes8 f = notes8 g.
Proof. intros H. apply notes8_ext. intros v. rewrite H. reflexivity. Qed.

(** Which messages a channel remembers for refreshing a voice. *)
Definition remembered (s : vstate) : Prop :=
  Forall (fun o => match o with Some m => raw_note m = false | None => True end) (v_ctrl s) /\
  Forall (fun o => match o with Some m => raw_note m = false | None => True end) (v_prog s) /\
  Forall (fun o => match o with Some m => raw_note m = false | None => True end) (v_pitch s).
Lemma quiet_opt (l : list (option message)) c t :
  Forall (fun o => match o with Some m => raw_note m = false | None => True end) l -> quiet (opt_msg (nth c l None) t).
Proof.
  intros H. destruct (Nat.lt_ge_cases c (length l)) as [Hc|Hc].
  - rewrite Forall_forall in H. specialize (H (nth c l None) (nth_In _ _ Hc)). destruct (nth c l None); cbn; [|constructor].
    constructor; [exact H|constructor].
  - rewrite nth_overflow by exact Hc. constructor.
Qed.
Lemma prelude_quiet s c k d t voice : remembered s -> quiet (prelude s c k d t voice).
Proof.
  intros (H1 & H2 & H3). unfold prelude, quiet. apply Forall_app. split.
  - destruct (match nth voice (v_chan s) None with Some c' => Z.of_nat c' =? c | None => false end); [constructor|].
    repeat (apply Forall_app; split); apply quiet_opt; assumption.
  - destruct (_ && _); [|constructor]. constructor; [reflexivity|constructor].
Qed.

Lemma run_spec base m : base_ok base -> forall s s', vinv s -> remembered s -> Forall (fun x => channel_ok (fst x)) m ->
  Forall (fun x => match fst x with MidiEvent _ (NoteOn _ _ v) => 0 <= v | _ => True end) m ->
  ofold (vstep base) m s = Ok s' ->
  vinv s' /\ remembered s' /\ exists sx, (forall v, vv s' v = vv s v ++ sx v) /\
    good (lookup (v_active s)) sx m /\ Permutation (notes8 sx) (map drum (merged_notes m)).
Proof.
  intros Hb. induction m as [|[ev t] m IH]; intros s s' Hs Hrem Hch Hvel H; cbn [ofold] in H.
  - injection H as <-. split; [exact Hs|]. split; [exact Hrem|]. exists (fun _ => []). split; [intros; rewrite app_nil_r; reflexivity|].
    split; [|reflexivity]. split; [intros; split; [exact I|reflexivity]|intros; exact I].
  - inversion Hch as [|? ? Hc Hch']; subst. inversion Hvel as [|? ? Hv0 Hvel']; subst. cbn [fst] in Hc, Hv0.
    destruct (step_result base s ev t Hs Hb Hc) as [(s1 & E & Hs1 & Hstep)|[E _]]; rewrite E in H; [|discriminate]. cbn [bind] in H.
    destruct Hstep as (px & Hpx & Hstep).
    assert (Hrem1 : remembered s1).
    { destruct Hrem as (Q1 & Q2 & Q3).
      destruct ev as [? [] ?|d [c k vel|c k vel|c k vel|c ctl dat|c p|c p|c dat|c]|? ? ?|].
      all: try (destruct Hstep as (_ & _ & _ & _ & E1 & E2 & E3); unfold remembered; rewrite E1, E2, E3; tauto).
      - destruct Hstep as (_ & _ & E1 & E2 & E3 & _). unfold remembered. rewrite E1, E2, E3; tauto.
      - destruct Hstep as (E1 & E2 & Hr). unfold remembered. rewrite E1, E2. split; [exact Q1|]. split; [|exact Q3].
        destruct (0 <? vel).
        + destruct Hr as (voice & _ & _ & _ & _ & Hp). destruct (_ && _).
          * destruct Hp as [_ Hp]. eapply forall_set_nth; [exact Q2| |exact Hp]. reflexivity.
          * destruct Hp as [_ ->]. exact Q2.
        + destruct Hr as (_ & _ & -> & _). exact Q2.
      - destruct Hstep as (_ & _ & _ & _ & E1 & E2 & E3). unfold remembered. rewrite E1, E2. split; [|tauto].
        destruct E3 as [->|E3]; [exact Q1|]. eapply forall_set_nth; [exact Q1| |exact E3]. reflexivity.
      - destruct Hstep as (_ & _ & _ & _ & E1 & E2 & E3). unfold remembered. rewrite E2, E3. split; [tauto|]. split; [|tauto].
        eapply forall_set_nth; [exact Q2| |exact E1]. reflexivity.
      - destruct Hstep as (_ & _ & _ & _ & E1 & E2 & E3). unfold remembered. rewrite E1, E2. split; [tauto|]. split; [tauto|].
        eapply forall_set_nth; [exact Q3| |exact E3]. reflexivity. }
    destruct (IH s1 s' Hs1 Hrem1 Hch' Hvel' H) as (Hs' & Hrem' & sx & Hsx & Hg & Hperm).
    split; [exact Hs'|]. split; [exact Hrem'|]. exists (fun v => px v ++ sx v).
    split; [intros v; rewrite Hsx, Hpx, app_assoc; reflexivity|].
    assert (Hquiet : (forall v, quiet (px v)) -> v_active s1 = v_active s ->
      (forall c k, merged_end c k ((ev, t) :: m) = merged_end c k m) -> merged_notes ((ev, t) :: m) = merged_notes m ->
      good (lookup (v_active s)) (fun v => px v ++ sx v) ((ev, t) :: m) /\
      Permutation (notes8 (fun v => px v ++ sx v)) (map drum (merged_notes ((ev, t) :: m)))).
    { intros Hq Ha He Hn. rewrite <- Ha. destruct Hg as [Hg1 Hg2]. split; [split|].
      - intros c k v Hc' Hl. rewrite (quiet_alternates _ _ _ (Hq v)), (quiet_end _ _ (Hq v)), He. apply Hg1; assumption.
      - intros v Hv. apply quiet_alternates; [apply Hq|]. apply Hg2; exact Hv.
      - rewrite Hn. rewrite (notes8_ext _ sx); [exact Hperm|]. intros v. apply quiet_notes, Hq. }
    assert (Hone : forall b : bool, raw_note ev = false -> quiet (if b then [(ev, t)] else [])).
    { intros b Hr. destruct b; [|constructor]. constructor; [exact Hr|constructor]. }
    destruct ev as [? [] ?|d [c k vel|c k vel|c k vel|c ctl dat|c p|c p|c dat|c]|? ? ?|].
    all: try (destruct Hstep as (Ha & _ & _ & Hp & _); apply Hquiet;
              [intros v; destruct (Hp v) as [Hp'|Hp']; rewrite Hp'; [constructor|constructor; [reflexivity|constructor]]|exact Ha|reflexivity|reflexivity]).
    all: try (destruct Hstep as (Ha & _ & _ & Hp & _); apply Hquiet; [intros v; rewrite Hp; apply Hone; reflexivity|exact Ha|reflexivity|reflexivity]).
    + (* NoteOff *) unfold channel_ok in Hc. cbn [addressee event_channel] in Hc. destruct Hstep as (Hp & HL & _).
      destruct (off_phase (lookup (v_active s)) c k d (drum_key c k) vel t sx m ((MidiEvent d (NoteOff c k vel), t) :: m)) as [G1 G2].
      * intros c1 k1 c2 k2 v. apply (vi_inj _ Hs).
      * exact Hc.
      * right; reflexivity.
      * intros _. cbn [merged_end]. rewrite !Z.eqb_refl. reflexivity.
      * intros c' k' Hne. cbn [merged_end]. destruct ((c =? c') && (k =? k')) eqn:E1; [lia|reflexivity].
      * eapply good_ext; [exact HL|reflexivity|exact Hg].
      * split; [eapply good_ext; [reflexivity| |exact G1]; intros v; cbn; rewrite Hp; reflexivity|].
        cbn [merged_notes]. erewrite (notes8_eq (fun v => px v ++ sx v)); [rewrite G2; exact Hperm|]. intros v. cbn. rewrite Hp. reflexivity.
    + (* NoteOn *) unfold channel_ok in Hc. cbn [addressee event_channel] in Hc.
      assert (Hend : merged_end c k ((MidiEvent d (NoteOn c k vel), t) :: m) = Some t).
      { cbn [merged_end]. rewrite !Z.eqb_refl. reflexivity. }
      assert (Hother : forall c' k', c' <> c \/ k' <> k ->
         merged_end c' k' ((MidiEvent d (NoteOn c k vel), t) :: m) = merged_end c' k' m).
      { intros c' k' Hne. cbn [merged_end]. destruct ((c =? c') && (k =? k')) eqn:E1; [lia|reflexivity]. }
      assert (Hinj : inj (lookup (v_active s))) by (intros c1 k1 c2 k2 v; apply (vi_inj _ Hs)).
      destruct Hstep as (_ & _ & Hstep). cbn [merged_notes]. destruct (0 <? vel) eqn:Evel.
      * replace (vel =? 0) with false by lia. destruct Hstep as (voice & (Hvo & Hnu & _) & Hp & HL & _).
        assert (Hg' : good (with_ (without (lookup (v_active s)) c k) c k voice) sx m) by (eapply good_ext; [exact HL|reflexivity|exact Hg]).
        assert (Hnone : without (lookup (v_active s)) c k c k = None) by (unfold without; rewrite !Z.eqb_refl; reflexivity).
        assert (Hvn : vel <> 0) by lia.
        destruct (on_phase _ c k d vel t voice _ sx m Hc Hvn Hvo Hnu (prelude_quiet s c k d t voice Hrem) Hg' Hnone) as [G1 G2].
        destruct (off_phase (lookup (v_active s)) c k d k vel t _ m _ Hinj Hc (or_introl eq_refl) (fun _ => Hend) Hother G1) as [G3 G4].
        split.
        -- eapply good_ext; [reflexivity| |exact G3]. intros v. cbn beta. rewrite Hp. rewrite <- app_assoc. reflexivity.
        -- erewrite (notes8_eq (fun v => px v ++ sx v)).
           2:{ intros v. rewrite Hp, <- app_assoc. reflexivity. }
           rewrite G4. rewrite G2. cbn [map]. constructor. exact Hperm.
      * replace (vel =? 0) with true by lia. destruct Hstep as (Hp & HL & _).
        assert (Hg' : good (without (lookup (v_active s)) c k) sx m) by (eapply good_ext; [exact HL|reflexivity|exact Hg]).
        destruct (off_phase (lookup (v_active s)) c k d k vel t sx m _ Hinj Hc (or_introl eq_refl) (fun _ => Hend) Hother Hg') as [G1 G2].
        split.
        -- eapply good_ext; [reflexivity| |exact G1]. intros v. cbn beta. rewrite Hp. reflexivity.
        -- erewrite (notes8_eq (fun v => px v ++ sx v)); [rewrite G2; exact Hperm|]. intros v. cbn beta. rewrite Hp. reflexivity.
Qed.

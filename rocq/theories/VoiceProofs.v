(** VoiceProofs.v: one step of distributing channel messages to voices. *)
From Coq Require Import ZArith List Bool Lia ZifyBool ZifyNat Permutation Sorted.
From Verif Require Import Base ProofLib Messages Track Midi SpecMidi SpecNotes SpecVoices MergeProofs LoopProofs.
Ltac Zify.zify_post_hook ::= Z.div_mod_to_equations.

(** ** Active notes *)
Lemma notes_get_in n k v : NoDup (map fst n) -> notes_get n k = Some v <-> In (k, v) n.
Proof.
  unfold notes_get. induction n as [|[k' v'] n IH]; intros Hd; cbn [find fst]; [split; [discriminate|intros []]|].
  inversion Hd; subst. destruct (Z.eqb_spec k' k) as [Heq_|Hne]; [subst k'|].
  - cbn. split; [intros [= ->]; left; reflexivity|]. intros [[= ->]|H]; [reflexivity|].
    exfalso. apply H1. apply in_map_iff. exists (k, v). auto.
  - rewrite IH by assumption. split; [intros; right; assumption|]. intros [[= -> ->]|H]; [congruence|assumption].
Qed.
Lemma notes_get_remove n k k' : notes_get (notes_remove n k) k' = if k' =? k then None else notes_get n k'.
Proof.
  unfold notes_get, notes_remove. induction n as [|[j v] n IH]; cbn [filter find fst]; [destruct (k' =? k); reflexivity|].
  destruct (Z.eqb_spec j k) as [Heq_|Hjk]; [subst j|]; cbn [negb].
  - rewrite IH. destruct (Z.eqb_spec k' k) as [He|He]; [reflexivity|]. destruct (Z.eqb_spec k k'); [congruence|reflexivity].
  - cbn [find fst]. destruct (Z.eqb_spec j k') as [He|He].
    + destruct (Z.eqb_spec k' k); [congruence|reflexivity].
    + exact IH.
Qed.
Lemma find_app {A} (p : A -> bool) l1 l2 : find p (l1 ++ l2) = match find p l1 with Some x => Some x | None => find p l2 end.
Proof. induction l1 as [|x l1 IH]; cbn; [reflexivity|]. destruct (p x); auto. Qed.
Lemma notes_get_insert n k v k' : notes_get (notes_insert n k v) k' = if k' =? k then Some v else notes_get n k'.
Proof.
  unfold notes_insert. pose proof (notes_get_remove n k k') as H. unfold notes_get in *. rewrite find_app.
  destruct (Z.eqb_spec k' k) as [Heq_|Hne]; [subst k'|].
  - destruct (find _ (notes_remove n k)); [discriminate|]. cbn [find fst]. rewrite Z.eqb_refl. reflexivity.
  - rewrite <- H. destruct (find _ (notes_remove n k)); [reflexivity|]. cbn [find fst].
    destruct (Z.eqb_spec k k'); [congruence|reflexivity].
Qed.
Lemma nodup_filter_fst {A B} (p : A * B -> bool) n : NoDup (map fst n) -> NoDup (map fst (filter p n)).
Proof.
  induction n as [|x n IH]; cbn; intros H; [exact H|]. inversion H; subst. destruct (p x); cbn; auto.
  constructor; auto. intros Hin. apply H2. apply in_map_iff in Hin. destruct Hin as (y & Hy & Hy').
  apply filter_In in Hy'. apply in_map_iff. exists y. tauto.
Qed.
Lemma nodup_remove n k : NoDup (map fst n) -> NoDup (map fst (notes_remove n k)).
Proof. apply nodup_filter_fst. Qed.
Lemma nodup_insert n k v : NoDup (map fst n) -> NoDup (map fst (notes_insert n k v)).
Proof.
  intros H. unfold notes_insert. rewrite map_app. cbn [map fst].
  apply Permutation_NoDup with (k :: map fst (notes_remove n k)); [apply Permutation_cons_append|].
  constructor; [|apply nodup_remove; exact H]. intros Hin. apply in_map_iff in Hin. destruct Hin as ([j w] & Hj & Hin).
  cbn in Hj. subst. unfold notes_remove in Hin. apply filter_In in Hin. destruct Hin as [_ Hin]. cbn in Hin.
  rewrite Z.eqb_refl in Hin. discriminate.
Qed.

Definition lookup (a : list notes) (c k : Z) : option nat := notes_get (nth (Z.to_nat c) a []) k.
Definition vv (s : vstate) (v : nat) : list tmsg := nth v (v_voices s) [].

Record vinv (s : vstate) : Prop := mk_vinv {
  vi_voices : length (v_voices s) = 8%nat;
  vi_active : length (v_active s) = 16%nat;
  vi_ctrl : length (v_ctrl s) = 16%nat;
  vi_prog : length (v_prog s) = 16%nat;
  vi_pitch : length (v_pitch s) = 16%nat;
  vi_chan : length (v_chan s) = 8%nat;
  vi_nodup : Forall (fun n => NoDup (map fst n)) (v_active s);
  vi_inj : forall c k c' k' v, 0 <= c < 16 -> 0 <= c' < 16 -> lookup (v_active s) c k = Some v ->
             lookup (v_active s) c' k' = Some v -> c = c' /\ k = k';
  vi_range : forall c k v, lookup (v_active s) c k = Some v -> (v < 8)%nat
}.

Lemma vinv0 base : vinv (vstate0 base).
Proof.
  constructor; try reflexivity.
  - unfold vstate0. cbn [v_active]. apply Forall_forall. intros n Hn. apply repeat_spec in Hn. subst. constructor.
  - intros c k c' k' v _ _ H. unfold vstate0, lookup in H. cbn [v_active] in H.
    rewrite nth_repeat in H. discriminate.
  - intros c k v H. unfold vstate0, lookup in H. cbn [v_active] in H.
    rewrite nth_repeat in H. discriminate.
Qed.

Definition used (L : Z -> Z -> option nat) (v : nat) : Prop := exists c k, 0 <= c < 16 /\ L c k = Some v.
Lemma voice_active_used a v : length a = 16%nat -> Forall (fun n => NoDup (map fst n)) a ->
  voice_active a v = true <-> used (lookup a) v.
Proof.
  intros HL Hd. unfold voice_active, used, lookup, notes in *. rewrite existsb_exists. split.
  - intros (n & Hn & H). apply existsb_exists in H. destruct H as ([k w] & Hk & Hw). cbn in Hw.
    apply Nat.eqb_eq in Hw. subst w. apply In_nth with (d := []) in Hn as Hn'. destruct Hn' as (i & Hi & Hni).
    exists (Z.of_nat i), k. split; [lia|]. rewrite Nat2Z.id, Hni. apply notes_get_in; [|exact Hk].
    rewrite Forall_forall in Hd; auto.
  - intros (c & k & Hc & H).
    assert (Hn : In (nth (Z.to_nat c) a []) a) by (apply nth_In; lia).
    exists (nth (Z.to_nat c) a []). split; [exact Hn|]. apply existsb_exists. exists (k, v).
    rewrite Forall_forall in Hd. apply notes_get_in in H; [|auto]. split; [exact H|]. cbn. apply Nat.eqb_refl.
Qed.

Lemma lookup_set a c n a' : length a = 16%nat -> 0 <= c < 16 -> set_nth a (Z.to_nat c) n = Some a' ->
  forall c' k', 0 <= c' < 16 -> lookup a' c' k' = if c' =? c then notes_get n k' else lookup a c' k'.
Proof.
  intros HL Hc H c' k' Hc'. unfold lookup. pose proof (set_nth_spec _ _ _ _ H (Z.to_nat c')) as Hs.
  pose proof (set_nth_length _ _ _ _ H) as HL'.
  destruct (Z.eqb_spec c' c) as [Heq_|Hne]; [subst c'|].
  - rewrite Nat.eqb_refl in Hs. rewrite (nth_error_nth _ _ _ Hs). reflexivity.
  - destruct (Nat.eqb_spec (Z.to_nat c') (Z.to_nat c)) as [He|He]; [lia|].
    rewrite (nth_error_nth' a' []), (nth_error_nth' a []) in Hs by lia. injection Hs as Hs.
    rewrite Hs. reflexivity.
Qed.

(** ** Pushing *)
Lemma push_list voice l : forall vs : list (list tmsg), (voice < length vs)%nat ->
  exists vs', ofold (fun vs x => push_at vs voice x) l vs = Ok vs' /\ length vs' = length vs /\
    forall v, nth v vs' [] = nth v vs [] ++ (if Nat.eqb v voice then l else []).
Proof.
  induction l as [|x l IH]; intros vs Hv; cbn [ofold].
  - exists vs. split; [reflexivity|]. split; [reflexivity|]. intros v. destruct (Nat.eqb v voice); rewrite app_nil_r; reflexivity.
  - destruct (push_at_some vs voice x Hv) as [vs1 E]. rewrite E. cbn [bind].
    destruct (push_at_ok _ _ _ _ E) as (_ & HL & Hn). destruct (IH vs1) as (vs' & E' & HL' & Hn'); [lia|].
    exists vs'. split; [exact E'|]. split; [lia|]. intros v. rewrite Hn', Hn.
    destruct (Nat.eqb v voice); [rewrite <- app_assoc|]; reflexivity.
Qed.
Lemma push_one (vs : list (list tmsg)) voice x : (voice < length vs)%nat ->
  exists vs', push_at vs voice x = Ok vs' /\ length vs' = length vs /\
    forall v, nth v vs' [] = nth v vs [] ++ (if Nat.eqb v voice then [x] else []).
Proof.
  intros Hv. destruct (push_list voice [x] vs Hv) as (vs' & E & HL & Hn). cbn [ofold] in E.
  destruct (push_at vs voice x) as [a| | |]; cbn [bind] in E; try discriminate. injection E as ->. eauto.
Qed.
Lemma push_voices_spec m targets : forall vs, NoDup targets -> Forall (fun v => (v < length vs)%nat) targets ->
  exists vs', push_voices vs targets m = Ok vs' /\ length vs' = length vs /\
    forall v, nth v vs' [] = nth v vs [] ++ (if existsb (Nat.eqb v) targets then [m] else []).
Proof.
  unfold push_voices. induction targets as [|w ts IH]; intros vs Hd HF; cbn [ofold existsb].
  - exists vs. split; [reflexivity|]. split; [reflexivity|]. intros v. rewrite app_nil_r; reflexivity.
  - inversion Hd; subst. inversion HF; subst. destruct (push_one vs w m H3) as (vs1 & E & HL & Hn). rewrite E. cbn [bind].
    destruct (IH vs1 H2) as (vs' & E' & HL' & Hn'). { rewrite HL. exact H4. }
    exists vs'. split; [exact E'|]. split; [lia|]. intros v. rewrite Hn', Hn.
    destruct (Nat.eqb_spec v w) as [Hvw|Hvw]; cbn [orb].
    + subst v. replace (existsb (Nat.eqb w) ts) with false; [rewrite app_nil_r; reflexivity|].
      symmetry. apply not_true_iff_false. intros He. apply existsb_exists in He. destruct He as (z & Hz & Hz').
      apply Nat.eqb_eq in Hz'. subst z. contradiction.
    + rewrite app_nil_r. reflexivity.
Qed.

Lemma inj_nodup_snd (n : notes) : NoDup (map fst n) ->
  (forall k k' v, In (k, v) n -> In (k', v) n -> k = k') -> NoDup (map snd n).
Proof.
  induction n as [|[k v] n IH]; cbn; intros Hd Hi; [constructor|]. inversion Hd; subst. constructor.
  - intros Hin. apply in_map_iff in Hin. destruct Hin as ([k' v'] & Hv & Hin). cbn in Hv. subst v'.
    apply H1. rewrite (Hi k k' v (or_introl eq_refl) (or_intror Hin)). apply in_map_iff. exists (k', v). auto.
  - apply IH; [assumption|]. intros; eapply Hi; right; eauto.
Qed.

Lemma existsb_sym bv l : existsb (fun v => Nat.eqb v bv) l = existsb (Nat.eqb bv) l.
Proof. induction l as [|z l IH]; cbn; [reflexivity|]. rewrite IH, (Nat.eqb_sym z bv). reflexivity. Qed.
(** The voices a channel event goes to. *)
Definition hears (s : vstate) (base : list nat) (c : Z) (v : nat) : bool :=
  existsb (Nat.eqb v) (map snd (nth (Z.to_nat c) (v_active s) [])) || Nat.eqb v (nth (Z.to_nat c) base 0%nat).
Lemma push_channel_event_spec s base c m : vinv s -> base_ok base -> 0 <= c < 16 ->
  exists vs, push_channel_event s base (Z.to_nat c) same m = Ok vs /\ length vs = 8%nat /\
    forall v, nth v vs [] = vv s v ++ (if hears s base c v then [m] else []).
Proof.
  intros Hs [HbL HbF] Hc. unfold push_channel_event.
  rewrite (nth_error_nth' (v_active s) []) by (rewrite (vi_active _ Hs); lia). cbn [or_panic bind].
  rewrite (nth_error_nth' base 0%nat) by lia. cbn [or_panic bind]. unfold same.
  set (n := nth (Z.to_nat c) (v_active s) []). set (bv := nth (Z.to_nat c) base 0%nat).
  assert (Hnd : NoDup (map fst n)).
  { pose proof (vi_nodup _ Hs) as H. rewrite Forall_forall in H. apply H, nth_In. rewrite (vi_active _ Hs). lia. }
  assert (Hsd : NoDup (map snd n)).
  { apply inj_nodup_snd; [exact Hnd|]. intros k k' v H1 H2. apply notes_get_in in H1; [|exact Hnd].
    apply notes_get_in in H2; [|exact Hnd]. apply (vi_inj _ Hs c k c k' v); auto. }
  assert (Hr : Forall (fun v => (v < length (v_voices s))%nat) (map snd n)).
  { apply Forall_forall. intros v Hv. apply in_map_iff in Hv. destruct Hv as ([k w] & Hw & Hin). cbn in Hw. subst w.
    rewrite (vi_voices _ Hs). apply notes_get_in in Hin; [|exact Hnd]. eapply (vi_range _ Hs c k). exact Hin. }
  destruct (push_voices_spec m _ _ Hsd Hr) as (vs & E & HL & Hn). rewrite E. cbn [bind].
  assert (Hsym : existsb (fun v => Nat.eqb v bv) (map snd n) = existsb (Nat.eqb bv) (map snd n)).
  { apply existsb_sym. }
  rewrite Hsym. unfold hears. fold n bv. destruct (existsb (Nat.eqb bv) (map snd n)) eqn:Eb.
  - exists vs. split; [reflexivity|]. split; [rewrite HL; apply (vi_voices _ Hs)|]. intros v. rewrite Hn. unfold vv.
    destruct (Nat.eqb_spec v bv) as [Heq_|]; [subst v|]; [rewrite Eb; reflexivity|]. rewrite orb_false_r. reflexivity.
  - assert (Hbv : (bv < length vs)%nat).
    { rewrite HL, (vi_voices _ Hs). rewrite Forall_forall in HbF. apply HbF, nth_In. lia. }
    destruct (push_one vs bv m Hbv) as (vs' & E' & HL' & Hn'). exists vs'. split; [exact E'|].
    split; [rewrite HL', HL; apply (vi_voices _ Hs)|]. intros v. rewrite Hn', Hn. unfold vv.
    destruct (Nat.eqb_spec v bv) as [Heq_|]; [subst v|].
    + rewrite Eb. cbn [orb]. rewrite app_nil_r. reflexivity.
    + rewrite app_nil_r, orb_false_r. reflexivity.
Qed.

(** ** One step *)
Definition raw_note (m : message) : bool :=
  match m with MidiEvent _ (NoteOn _ _ _) => true | MidiEvent _ (NoteOff _ _ _) => true | _ => false end.
Definition without (L : Z -> Z -> option nat) (c k : Z) (c' k' : Z) : option nat :=
  if (c' =? c) && (k' =? k) then None else L c' k'.
Definition with_ (L : Z -> Z -> option nat) (c k : Z) (v : nat) (c' k' : Z) : option nat :=
  if (c' =? c) && (k' =? k) then Some v else L c' k'.
Definition on_voice (o : option nat) (x : tmsg) (v : nat) : list tmsg :=
  match o with Some w => if Nat.eqb v w then [x] else [] | None => [] end.
Definition looks_eq (s1 : vstate) (L : Z -> Z -> option nat) : Prop :=
  forall c k, 0 <= c < 16 -> lookup (v_active s1) c k = L c k.

(** What precedes a note-on of channel [c], key [k] on [voice]. *)
Definition instr_of (k : Z) : Z := if is_snare k then SNARE else CYMBAL.
Definition prelude (s : vstate) (c k d t : Z) (voice : nat) : list tmsg :=
  (if match nth voice (v_chan s) None with Some c' => Z.of_nat c' =? c | None => false end then []
   else opt_msg (nth (Z.to_nat c) (v_ctrl s) None) t ++ opt_msg (nth (Z.to_nat c) (v_prog s) None) t ++
        opt_msg (nth (Z.to_nat c) (v_pitch s) None) t) ++
  (if (c =? 9) && negb (v_perc s =? instr_of k) then [(MidiEvent d (ProgramChange c (instr_of k)), t)] else []).

Definition new_voice (base : list nat) (c : Z) (L : Z -> Z -> option nat) (voice : nat) : Prop :=
  (voice < 8)%nat /\ ~ used L voice /\ (voice = nth (Z.to_nat c) base 0%nat \/ ~ In voice base) /\
  (voice = nth (Z.to_nat c) base 0%nat \/ used L (nth (Z.to_nat c) base 0%nat)).
Definition stuck (base : list nat) (c : Z) (L : Z -> Z -> option nat) : Prop :=
  used L (nth (Z.to_nat c) base 0%nat) /\ forall v, (v < 8)%nat -> ~ In v base -> used L v.

(** Result of a message, in terms of what is appended ([px]) and the sounding notes. *)
Definition step_spec (base : list nat) (s : vstate) (m : message) (t : Z) (s1 : vstate) : Prop :=
  let L := lookup (v_active s) in
  exists px, (forall v, vv s1 v = vv s v ++ px v) /\
  match m with
  | MidiEvent d (NoteOff c k vel) =>
      (forall v, px v = on_voice (L c k) (MidiEvent d (NoteOff c (drum_key c k) vel), t) v) /\
      looks_eq s1 (without L c k) /\
      v_ctrl s1 = v_ctrl s /\ v_prog s1 = v_prog s /\ v_pitch s1 = v_pitch s /\ v_chan s1 = v_chan s /\ v_perc s1 = v_perc s
  | MidiEvent d (NoteOn c k vel) =>
      let off v := on_voice (L c k) (MidiEvent d (NoteOff c k vel), t) v in
      v_ctrl s1 = v_ctrl s /\ v_pitch s1 = v_pitch s /\
      if 0 <? vel then
        exists voice, new_voice base c (without L c k) voice /\
          (forall v, px v = off v ++ (if Nat.eqb v voice
             then prelude s c k d t voice ++ [(MidiEvent d (NoteOn c (drum_key c k) vel), t)] else [])) /\
          looks_eq s1 (with_ (without L c k) c k voice) /\
          (forall v, nth v (v_chan s1) None = if Nat.eqb v voice then Some (Z.to_nat c) else nth v (v_chan s) None) /\
          (if (c =? 9) && negb (v_perc s =? instr_of k)
           then v_perc s1 = instr_of k /\ set_nth (v_prog s) 9 (Some (MidiEvent d (ProgramChange c (instr_of k)))) = Some (v_prog s1)
           else v_perc s1 = v_perc s /\ v_prog s1 = v_prog s)
      else (forall v, px v = off v) /\ looks_eq s1 (without L c k) /\
           v_prog s1 = v_prog s /\ v_chan s1 = v_chan s /\ v_perc s1 = v_perc s
  | _ =>
      v_active s1 = v_active s /\ v_chan s1 = v_chan s /\ v_perc s1 = v_perc s /\
      match m with
      | MidiEvent _ (ProgramChange c _) =>
          (forall v, px v = if hears s base c v then [(m, t)] else []) /\
          set_nth (v_prog s) (Z.to_nat c) (Some m) = Some (v_prog s1) /\ v_ctrl s1 = v_ctrl s /\ v_pitch s1 = v_pitch s
      | MidiEvent _ (ControlChange c _ _) =>
          (forall v, px v = if hears s base c v then [(m, t)] else []) /\ v_prog s1 = v_prog s /\ v_pitch s1 = v_pitch s /\
          (v_ctrl s1 = v_ctrl s \/ set_nth (v_ctrl s) (Z.to_nat c) (Some m) = Some (v_ctrl s1))
      | MidiEvent _ (PitchBendChange c _) =>
          (forall v, px v = if hears s base c v then [(m, t)] else []) /\ v_prog s1 = v_prog s /\ v_ctrl s1 = v_ctrl s /\
          set_nth (v_pitch s) (Z.to_nat c) (Some m) = Some (v_pitch s1)
      | _ => (forall v, px v = [] \/ px v = [(m, t)]) /\ v_prog s1 = v_prog s /\ v_ctrl s1 = v_ctrl s /\ v_pitch s1 = v_pitch s
      end
  end.

Lemma looks_inj s L : vinv s -> looks_eq s L -> forall c k c' k' v, 0 <= c < 16 -> 0 <= c' < 16 ->
  L c k = Some v -> L c' k' = Some v -> c = c' /\ k = k'.
Proof. intros Hs HL c k c' k' v Hc Hc' H1 H2. rewrite <- HL in H1 by assumption. rewrite <- HL in H2 by assumption. eapply vi_inj; eauto. Qed.

Lemma forall_set_nth' {A} (P : A -> Prop) (l : list A) i v r : Forall P l -> P v -> set_nth l i v = Some r -> Forall P r.
Proof. apply forall_set_nth. Qed.

Lemma drum_perc c k : (if c =? 9 then perc_note k else k) = drum_key c k.
Proof. unfold perc_note, drum_key, is_snare, SNARE_NOTE. destruct (c =? 9); reflexivity. Qed.

(** Ending a note (a note-off, or the first half of a note-on). *)
Lemma end_note s c k x : vinv s -> 0 <= c < 16 ->
  exists s1,
    (let* n := or_panic PIndex (nth_error (v_active s) (Z.to_nat c)) in
     match notes_get n k with
     | Some voice =>
         let* a := or_panic PIndex (set_nth (v_active s) (Z.to_nat c) (notes_remove n k)) in
         let* vs := push_at (v_voices s) voice x in
         Ok (set_voices (set_active s a) vs)
     | None => Ok s
     end) = Ok s1 /\ vinv s1 /\
    (forall v, vv s1 v = vv s v ++ on_voice (lookup (v_active s) c k) x v) /\
    looks_eq s1 (without (lookup (v_active s)) c k) /\
    v_ctrl s1 = v_ctrl s /\ v_prog s1 = v_prog s /\ v_pitch s1 = v_pitch s /\ v_chan s1 = v_chan s /\ v_perc s1 = v_perc s.
Proof.
  intros Hs Hc. rewrite (nth_error_nth' (v_active s) []) by (rewrite (vi_active _ Hs); lia). cbn [or_panic bind].
  change (notes_get (nth (Z.to_nat c) (v_active s) []) k) with (lookup (v_active s) c k).
  destruct (lookup (v_active s) c k) as [voice|] eqn:El.
  - destruct (set_nth_some (v_active s) (Z.to_nat c) (notes_remove (nth (Z.to_nat c) (v_active s) []) k)) as [a Ea];
      [rewrite (vi_active _ Hs); lia|]. rewrite Ea. cbn [or_panic bind].
    destruct (push_one (v_voices s) voice x) as (vs & Ev & HL & Hn).
    { rewrite (vi_voices _ Hs). eapply vi_range; eauto. }
    rewrite Ev. cbn [bind].
    assert (Hlk : forall c' k', 0 <= c' < 16 -> lookup a c' k' = without (lookup (v_active s)) c k c' k').
    { intros c' k' Hc'. rewrite (lookup_set _ _ _ _ (vi_active _ Hs) Hc Ea) by exact Hc'. unfold without.
      destruct (Z.eqb_spec c' c) as [Heq_|]; [subst c'|]; cbn [andb]; [|reflexivity]. rewrite notes_get_remove. reflexivity. }
    eexists. split; [reflexivity|]. split.
    { constructor; cbn; try apply Hs.
      - rewrite HL; apply Hs.
      - rewrite (set_nth_length _ _ _ _ Ea). apply Hs.
      - eapply forall_set_nth; [apply (vi_nodup _ Hs)| |exact Ea]. apply nodup_remove.
        pose proof (vi_nodup _ Hs) as H. rewrite Forall_forall in H. apply H, nth_In. rewrite (vi_active _ Hs). lia.
      - intros c1 k1 c2 k2 v H1 H2. rewrite !Hlk by assumption. unfold without.
        destruct (_ && _); [discriminate|]. destruct (_ && _); [discriminate|]. apply (vi_inj _ Hs); assumption.
      - intros c1 k1 v H. destruct (Nat.lt_ge_cases (Z.to_nat c1) 16) as [H16|H16].
        + destruct (Z.lt_ge_cases c1 0) as [Hneg|Hpos].
          * unfold lookup in H. replace (Z.to_nat c1) with (Z.to_nat 0) in H by lia. fold (lookup a 0 k1) in H.
            rewrite Hlk in H by lia. unfold without in H. destruct (_ && _); [discriminate|]. eapply vi_range; eauto.
          * rewrite Hlk in H by lia. unfold without in H. destruct (_ && _); [discriminate|]. eapply vi_range; eauto.
        + unfold lookup in H. rewrite nth_overflow in H; [discriminate|]. rewrite (set_nth_length _ _ _ _ Ea), (vi_active _ Hs). lia. }
    split.
    { intros v. unfold vv at 1. cbn [v_voices set_voices set_active]. rewrite Hn. reflexivity. }
    split; [exact Hlk|]. repeat split.
  - exists s. split; [reflexivity|]. split; [exact Hs|]. split; [intros v; cbn; rewrite app_nil_r; reflexivity|].
    split; [|repeat split]. intros c' k' Hc'. unfold without.
    destruct (Z.eqb_spec c' c) as [Heq_|]; [subst c'|]; cbn [andb]; [|reflexivity].
    destruct (Z.eqb_spec k' k) as [Heq_|]; [subst k'|]; [exact El|reflexivity].
Qed.

Lemma in_base base v : existsb (fun bv => Nat.eqb bv v) base = true <-> In v base.
Proof.
  rewrite existsb_exists. split; [intros (x & Hx & He); apply Nat.eqb_eq in He; subst; exact Hx|].
  intros H. exists v. split; [exact H|apply Nat.eqb_refl].
Qed.
Lemma choose_voice_spec base c s : vinv s -> base_ok base -> 0 <= c < 16 ->
  match choose_voice base (nth (Z.to_nat c) base 0%nat) (v_active s) with
  | Some voice => new_voice base c (lookup (v_active s)) voice
  | None => stuck base c (lookup (v_active s))
  end.
Proof.
  intros Hs [HbL HbF] Hc. unfold choose_voice.
  pose proof (fun v => voice_active_used (v_active s) v (vi_active _ Hs) (vi_nodup _ Hs)) as Hu.
  set (bv := nth (Z.to_nat c) base 0%nat).
  assert (Hbv : (bv < 8)%nat). { rewrite Forall_forall in HbF. apply HbF, nth_In. lia. }
  destruct (voice_active (v_active s) bv) eqn:Ea.
  - destruct (find _ (seq 0 8)) as [v|] eqn:Ef.
    + apply find_some in Ef. destruct Ef as [Hin Hp]. apply in_seq in Hin. apply andb_true_iff in Hp. destruct Hp as [Hp1 Hp2].
      apply negb_true_iff in Hp1, Hp2. split; [lia|]. split.
      * intros H. apply Hu in H. congruence.
      * split; right; [|apply Hu; exact Ea]. intros H. apply in_base in H. congruence.
    + split; [apply Hu; exact Ea|]. intros v Hv Hb. apply Hu.
      pose proof (find_none _ _ Ef v) as H. specialize (H ltac:(apply in_seq; lia)).
      cbn beta in H. apply andb_false_iff in H. destruct H as [H|H]; apply negb_false_iff in H; [|exact H].
      apply in_base in H. contradiction.
  - split; [exact Hbv|]. split; [|split; left; reflexivity]. intros H. apply Hu in H. congruence.
Qed.

Lemma step_result base s m t : vinv s -> base_ok base -> channel_ok m ->
  (exists s1, vstep base s (m, t) = Ok s1 /\ vinv s1 /\ step_spec base s m t s1) \/
  (vstep base s (m, t) = Err ECouldntFit /\
   exists d c k vel, m = MidiEvent d (NoteOn c k vel) /\ 0 < vel /\ stuck base c (without (lookup (v_active s)) c k)).
Proof.
  intros Hs Hb Hc. unfold vstep, voice_step. cbn [fst].
  assert (Hsame : forall s1, v_voices s1 = v_voices s -> v_active s1 = v_active s -> v_ctrl s1 = v_ctrl s ->
     v_prog s1 = v_prog s -> v_pitch s1 = v_pitch s -> v_chan s1 = v_chan s -> vinv s1).
  { intros s1 E1 E2 E3 E4 E5 E6. destruct Hs. constructor; rewrite ?E1, ?E2, ?E3, ?E4, ?E5, ?E6; assumption. }
  assert (Hupd : forall vs c p w, length vs = 8%nat -> length c = 16%nat -> length p = 16%nat -> length w = 16%nat ->
     vinv (mk_vstate vs c p w (v_chan s) (v_active s) (v_perc s))).
  { intros. destruct Hs. constructor; cbn; assumption. }
  destruct m as [d [|kind] data|d e|d e data|].
  - left. destruct (push_one (v_voices s) 0 (MetaEvent d SetTempo data, t)) as (vs & E & HL & Hn); [rewrite (vi_voices _ Hs); lia|].
    rewrite E. cbn [bind]. eexists. split; [reflexivity|]. split; [apply Hupd; try apply Hs; rewrite HL; apply Hs|].
    exists (fun v => if Nat.eqb v 0 then [(MetaEvent d SetTempo data, t)] else []). split; [intros v; apply Hn|].
    do 3 (split; [reflexivity|]). split; [|repeat split]. intros v. destruct (Nat.eqb v 0); auto.
  - left. eexists. split; [reflexivity|]. split; [exact Hs|]. exists (fun _ => []). split; [intros; rewrite app_nil_r; reflexivity|].
    do 3 (split; [reflexivity|]). split; [|repeat split]. auto.
  - cbn [channel_ok addressee] in Hc. unfold channel_ok in Hc. cbn [addressee] in Hc.
    destruct e as [c k vel|c k vel|c k vel|c ctl dat|c p|c p|c dat|c]; cbn [event_channel] in Hc.
    + (* NoteOff *) left. unfold v_note_off. cbn [snd].
      destruct (end_note s c k (MidiEvent d (NoteOff c (drum_key c k) vel), t) Hs Hc) as (s1 & E & Hi & Hv & HL & Hr).
      exists s1. split.
      { rewrite <- E. destruct (or_panic PIndex (nth_error (v_active s) (Z.to_nat c))) as [n| | |]; try reflexivity. cbn [bind].
        destruct (notes_get n k); [|reflexivity]. rewrite <- drum_perc. destruct (c =? 9); reflexivity. }
      split; [exact Hi|]. eexists. split; [exact Hv|]. split; [reflexivity|]. split; [exact HL|]. exact Hr.
    + (* NoteOn *) unfold v_note_on, v_retrigger. cbn [snd].
      destruct (end_note s c k (MidiEvent d (NoteOff c k vel), t) Hs Hc) as (s1 & E & Hi & Hv & HL & Hr1 & Hr2 & Hr3 & Hr4 & Hr5).
      rewrite E. cbn [bind]. clear E.
      destruct (0 <? vel) eqn:Evel.
      2:{ left. exists s1. split; [reflexivity|]. split; [exact Hi|]. eexists. split; [exact Hv|].
          do 2 (split; [assumption|]). rewrite Evel. split; [reflexivity|]. split; [exact HL|]. repeat split; assumption. }
      destruct Hb as [HbL HbF].
      rewrite (nth_error_nth' base 0%nat) by lia. cbn [or_panic bind].
      pose proof (choose_voice_spec base c s1 Hi (conj HbL HbF) Hc) as Hch.
      assert (Hus : forall v, used (lookup (v_active s1)) v <-> used (without (lookup (v_active s)) c k) v).
      { intros v. unfold used. split; intros (c' & k' & Hc' & H); exists c', k'; split; auto.
        - rewrite <- HL by assumption. exact H.
        - rewrite HL by assumption. exact H. }
      destruct (choose_voice base (nth (Z.to_nat c) base 0%nat) (v_active s1)) as [voice|].
      2:{ right. split; [reflexivity|]. exists d, c, k, vel. split; [reflexivity|]. split; [lia|].
          destruct Hch as [H1 H2]. split; [apply Hus; exact H1|]. intros v Hv' Hb'. apply Hus. auto. }
      destruct Hch as (Hvo & Hnu & Hbase & Hpref). left.
      rewrite (nth_error_nth' (v_active s1) []) by (rewrite (vi_active _ Hi); lia). cbn [or_panic bind].
      destruct (set_nth_some (v_active s1) (Z.to_nat c) (notes_insert (nth (Z.to_nat c) (v_active s1) []) k voice)) as [a Ea];
        [rewrite (vi_active _ Hi); lia|]. rewrite Ea. cbn [or_panic bind].
      assert (Hlk : forall c' k', 0 <= c' < 16 -> lookup a c' k' = with_ (lookup (v_active s1)) c k voice c' k').
      { intros c' k' Hc'. rewrite (lookup_set _ _ _ _ (vi_active _ Hi) Hc Ea) by exact Hc'. unfold with_.
        destruct (Z.eqb_spec c' c) as [Heq_|]; [subst c'|]; cbn [andb]; [|reflexivity]. rewrite notes_get_insert. reflexivity. }
      (* refresh *)
      assert (Href : exists vc, refresh s1 (Z.to_nat c) voice t =
         Ok (if match nth voice (v_chan s1) None with Some c' => Z.of_nat c' =? c | None => false end then []
             else opt_msg (nth (Z.to_nat c) (v_ctrl s1) None) t ++ opt_msg (nth (Z.to_nat c) (v_prog s1) None) t ++
                  opt_msg (nth (Z.to_nat c) (v_pitch s1) None) t, vc) /\ length vc = 8%nat /\
         forall v, nth v vc None = if Nat.eqb v voice then Some (Z.to_nat c) else nth v (v_chan s1) None).
      { unfold refresh. rewrite (nth_error_nth' (v_chan s1) None) by (rewrite (vi_chan _ Hi); lia). cbn [or_panic bind].
        destruct (nth voice (v_chan s1) None) as [c'|] eqn:En; cbn [oelse].
        - destruct (Nat.eqb_spec (Z.to_nat c) c') as [He|He].
          + exists (v_chan s1). replace (Z.of_nat c' =? c) with true by lia. split; [reflexivity|].
            split; [apply Hi|]. intros v. destruct (Nat.eqb_spec v voice) as [Hvv|]; [subst v; rewrite En, He; reflexivity|reflexivity].
          + rewrite (nth_error_nth' (v_ctrl s1) None) by (rewrite (vi_ctrl _ Hi); lia). cbn [or_panic bind].
            rewrite (nth_error_nth' (v_prog s1) None) by (rewrite (vi_prog _ Hi); lia). cbn [or_panic bind].
            rewrite (nth_error_nth' (v_pitch s1) None) by (rewrite (vi_pitch _ Hi); lia). cbn [or_panic bind].
            destruct (set_nth_some (v_chan s1) voice (Some (Z.to_nat c))) as [vc Evc]; [rewrite (vi_chan _ Hi); lia|].
            rewrite Evc. cbn [or_panic bind]. exists vc. replace (Z.of_nat c' =? c) with false by lia.
            split; [reflexivity|]. pose proof (set_nth_length _ _ _ _ Evc) as HLc. split; [rewrite HLc; apply Hi|].
            intros v. pose proof (set_nth_spec _ _ _ _ Evc v) as Hsp. destruct (Nat.eqb v voice).
            * apply (nth_error_nth _ _ _ Hsp).
            * destruct (nth_error (v_chan s1) v) eqn:Ev; [rewrite (nth_error_nth _ _ _ Hsp), (nth_error_nth _ _ _ Ev); reflexivity|].
              apply nth_error_None in Ev. rewrite !nth_overflow by lia. reflexivity.
        - destruct (Nat.eqb_spec (Z.to_nat c) 255) as [He|He]; [lia|].
          rewrite (nth_error_nth' (v_ctrl s1) None) by (rewrite (vi_ctrl _ Hi); lia). cbn [or_panic bind].
          rewrite (nth_error_nth' (v_prog s1) None) by (rewrite (vi_prog _ Hi); lia). cbn [or_panic bind].
          rewrite (nth_error_nth' (v_pitch s1) None) by (rewrite (vi_pitch _ Hi); lia). cbn [or_panic bind].
          destruct (set_nth_some (v_chan s1) voice (Some (Z.to_nat c))) as [vc Evc]; [rewrite (vi_chan _ Hi); lia|].
          rewrite Evc. cbn [or_panic bind]. exists vc.
          split; [reflexivity|]. pose proof (set_nth_length _ _ _ _ Evc) as HLc. split; [rewrite HLc; apply Hi|].
          intros v. pose proof (set_nth_spec _ _ _ _ Evc v) as Hsp. destruct (Nat.eqb v voice).
          + apply (nth_error_nth _ _ _ Hsp).
          + destruct (nth_error (v_chan s1) v) eqn:Ev; [rewrite (nth_error_nth _ _ _ Hsp), (nth_error_nth _ _ _ Ev); reflexivity|].
            apply nth_error_None in Ev. rewrite !nth_overflow by lia. reflexivity. }
      destruct Href as (vc & Eref & HLc & Hvc). rewrite Eref. cbn [bind].
      (* note messages *)
      assert (Hnm : exists vp perc, note_messages s1 (MidiEvent d (NoteOn c k vel), t) d c k vel =
         Ok ((if (c =? 9) && negb (v_perc s1 =? instr_of k) then [(MidiEvent d (ProgramChange c (instr_of k)), t)] else []) ++
             [(MidiEvent d (NoteOn c (drum_key c k) vel), t)], vp, perc) /\ length vp = 16%nat /\
         (if (c =? 9) && negb (v_perc s1 =? instr_of k)
          then perc = instr_of k /\ set_nth (v_prog s1) 9 (Some (MidiEvent d (ProgramChange c (instr_of k)))) = Some vp
          else perc = v_perc s1 /\ vp = v_prog s1)).
      { unfold note_messages. cbn [snd]. rewrite <- drum_perc. destruct (Z.eqb_spec c 9) as [Heq_|]; [subst c|]; cbn [andb].
        - fold (instr_of k). destruct (v_perc s1 =? instr_of k); cbn [negb].
          + eexists _, _. split; [reflexivity|]. split; [apply Hi|]. split; reflexivity.
          + destruct (set_nth_some (v_prog s1) (Z.to_nat 9) (Some (MidiEvent d (ProgramChange 9 (instr_of k))))) as [vp Evp];
              [rewrite (vi_prog _ Hi); lia|]. rewrite Evp. cbn [or_panic bind]. eexists _, _. split; [reflexivity|].
            split; [rewrite (set_nth_length _ _ _ _ Evp); apply Hi|]. split; [reflexivity|exact Evp].
        - eexists _, _. split; [reflexivity|]. split; [apply Hi|]. split; reflexivity. }
      destruct Hnm as (vp & perc & Enm & HLp & Hperc). rewrite Enm. cbn [bind].
      match goal with |- context [ofold _ ?l _] => destruct (push_list voice l (v_voices s1)) as (vs & Ev & HLv & Hn) end;
        [rewrite (vi_voices _ Hi); lia|].
      rewrite Ev. cbn [bind]. eexists. split; [reflexivity|]. split.
      { constructor; cbn; try apply Hi; try assumption.
        - rewrite HLv; apply Hi.
        - rewrite (set_nth_length _ _ _ _ Ea); apply Hi.
        - eapply forall_set_nth; [apply (vi_nodup _ Hi)| |exact Ea]. apply nodup_insert.
          pose proof (vi_nodup _ Hi) as H. rewrite Forall_forall in H. apply H, nth_In. rewrite (vi_active _ Hi). lia.
        - intros c1 k1 c2 k2 v H1 H2. rewrite !Hlk by assumption. unfold with_.
          destruct ((c1 =? c) && (k1 =? k)) eqn:E1; destruct ((c2 =? c) && (k2 =? k)) eqn:E2.
          + intros _ _. lia.
          + intros [= <-] H. exfalso. apply Hnu. exists c2, k2. auto.
          + intros H [= <-]. exfalso. apply Hnu. exists c1, k1. auto.
          + apply (vi_inj _ Hi); assumption.
        - intros c1 k1 v H.
          assert (Hg : forall c1, 0 <= c1 < 16 -> lookup a c1 k1 = Some v -> (v < 8)%nat).
          { intros c3 H3 H4. rewrite Hlk in H4 by lia. unfold with_ in H4. destruct ((c3 =? c) && (k1 =? k)); [injection H4 as <-; exact Hvo|].
            eapply vi_range; eauto. }
          destruct (Z.lt_ge_cases c1 0) as [Hneg|Hpos].
          + apply (Hg 0); [lia|]. unfold lookup in *. replace (Z.to_nat 0) with (Z.to_nat c1) by lia. exact H.
          + destruct (Z.lt_ge_cases c1 16) as [H16|H16]; [eapply (Hg c1); [lia|exact H]|].
            unfold lookup in H. rewrite nth_overflow in H; [discriminate|]. rewrite (set_nth_length _ _ _ _ Ea), (vi_active _ Hi). lia. }
      eexists. split.
      { intros v. unfold vv at 1. cbn [v_voices]. rewrite Hn. fold (vv s1 v). rewrite Hv. rewrite <- app_assoc. reflexivity. }
      cbn [v_ctrl v_pitch v_chan v_perc v_prog v_active].
      do 2 (split; [assumption|]). rewrite Evel. exists voice. split.
      { split; [exact Hvo|]. split; [|split; [exact Hbase|]; destruct Hpref as [Hpref|Hpref]; [left; exact Hpref|right; apply Hus; exact Hpref]]. rewrite <- Hus. exact Hnu. }
      split.
      { intros v. f_equal. destruct (Nat.eqb v voice); [|reflexivity]. unfold prelude.
        rewrite <- Hr1, <- Hr2, <- Hr3, <- Hr4, <- Hr5. rewrite <- !app_assoc. reflexivity. }
      split.
      { intros c' k' Hc'. rewrite Hlk by exact Hc'. unfold with_. destruct ((c' =? c) && (k' =? k)); [reflexivity|]. apply HL. exact Hc'. }
      split; [intros v; rewrite Hvc, Hr4; reflexivity|]. rewrite <- Hr5, <- Hr2. exact Hperc.
    + (* PolyphonicKeyPressure *) left. rewrite (nth_error_nth' (v_active s) []) by (rewrite (vi_active _ Hs); lia). cbn [or_panic bind].
      destruct (notes_get (nth (Z.to_nat c) (v_active s) []) k) as [voice|] eqn:En.
      * destruct (push_one (v_voices s) voice (MidiEvent d (PolyphonicKeyPressure c k vel), t)) as (vs & E & HL & Hn).
        { rewrite (vi_voices _ Hs). eapply (vi_range _ Hs c k). exact En. }
        rewrite E. cbn [bind]. eexists. split; [reflexivity|]. split; [apply Hupd; try apply Hs; rewrite HL; apply Hs|].
        eexists. split; [intros v; apply Hn|]. do 3 (split; [reflexivity|]). split; [|repeat split].
        intros v. destruct (Nat.eqb v voice); auto.
      * eexists. split; [reflexivity|]. split; [exact Hs|]. exists (fun _ => []). split; [intros; rewrite app_nil_r; reflexivity|].
        do 3 (split; [reflexivity|]). split; [|repeat split]. auto.
    + (* ControlChange *) left. destruct (push_channel_event_spec s base c (MidiEvent d (ControlChange c ctl dat), t) Hs Hb Hc) as (vs & E & HL & Hn).
      rewrite E. cbn [bind].
      destruct (set_nth_some (v_ctrl s) (Z.to_nat c) (Some (MidiEvent d (ControlChange c ctl dat)))) as [vc Evc]; [rewrite (vi_ctrl _ Hs); lia|].
      destruct (ctl =? 7).
      * rewrite Evc. cbn [or_panic bind]. eexists. split; [reflexivity|]. split.
        { apply Hupd; try apply Hs; [exact HL|]. rewrite (set_nth_length _ _ _ _ Evc). apply Hs. }
        eexists. split; [intros v; apply Hn|]. do 3 (split; [reflexivity|]). split; [reflexivity|].
        split; [reflexivity|]. split; [reflexivity|]. right. exact Evc.
      * cbn [bind]. eexists. split; [reflexivity|]. split; [apply Hupd; try apply Hs; exact HL|].
        eexists. split; [intros v; apply Hn|]. do 3 (split; [reflexivity|]). split; [reflexivity|].
        split; [reflexivity|]. split; [reflexivity|]. left. reflexivity.
    + (* ProgramChange *) left. destruct (push_channel_event_spec s base c (MidiEvent d (ProgramChange c p), t) Hs Hb Hc) as (vs & E & HL & Hn).
      rewrite E. cbn [bind].
      destruct (set_nth_some (v_prog s) (Z.to_nat c) (Some (MidiEvent d (ProgramChange c p)))) as [vc Evc]; [rewrite (vi_prog _ Hs); lia|].
      rewrite Evc. cbn [or_panic bind]. eexists. split; [reflexivity|]. split.
      { apply Hupd; try apply Hs; [exact HL|]. rewrite (set_nth_length _ _ _ _ Evc). apply Hs. }
      eexists. split; [intros v; apply Hn|]. do 3 (split; [reflexivity|]). split; [reflexivity|].
      split; [exact Evc|]. split; reflexivity.
    + (* ChannelPressure *) left. destruct (push_channel_event_spec s base c (MidiEvent d (ChannelPressure c p), t) Hs Hb Hc) as (vs & E & HL & Hn).
      rewrite E. cbn [bind]. eexists. split; [reflexivity|]. split; [apply Hupd; try apply Hs; exact HL|].
      eexists. split; [intros v; apply Hn|]. do 3 (split; [reflexivity|]). split; [|repeat split].
      intros v. destruct (hears s base c v); auto.
    + (* PitchBendChange *) left. destruct (push_channel_event_spec s base c (MidiEvent d (PitchBendChange c dat), t) Hs Hb Hc) as (vs & E & HL & Hn).
      rewrite E. cbn [bind].
      destruct (set_nth_some (v_pitch s) (Z.to_nat c) (Some (MidiEvent d (PitchBendChange c dat)))) as [vc Evc]; [rewrite (vi_pitch _ Hs); lia|].
      rewrite Evc. cbn [or_panic bind]. eexists. split; [reflexivity|]. split.
      { apply Hupd; try apply Hs; [exact HL|]. rewrite (set_nth_length _ _ _ _ Evc). apply Hs. }
      eexists. split; [intros v; apply Hn|]. do 3 (split; [reflexivity|]). split; [reflexivity|].
      split; [reflexivity|]. split; [reflexivity|exact Evc].
    + (* Unknown *) left. eexists. split; [reflexivity|]. split; [exact Hs|]. exists (fun _ => []).
      split; [intros; rewrite app_nil_r; reflexivity|]. do 3 (split; [reflexivity|]). split; [|repeat split]. auto.
  - left. destruct (push_one (v_voices s) 0 (SysExEvent d e data, t)) as (vs & E & HL & Hn); [rewrite (vi_voices _ Hs); lia|].
    rewrite E. cbn [bind]. eexists. split; [reflexivity|]. split; [apply Hupd; try apply Hs; rewrite HL; apply Hs|].
    exists (fun v => if Nat.eqb v 0 then [(SysExEvent d e data, t)] else []). split; [intros v; apply Hn|].
    do 3 (split; [reflexivity|]). split; [|repeat split]. intros v. destruct (Nat.eqb v 0); auto.
  - left. eexists. split; [reflexivity|]. split; [exact Hs|]. exists (fun _ => []). split; [intros; rewrite app_nil_r; reflexivity|].
    do 3 (split; [reflexivity|]). split; [|repeat split]. auto.
Qed.

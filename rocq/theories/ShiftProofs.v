(** ShiftProofs.v: proofs for C68 and C69. *)
From Coq Require Import ZArith List Bool Lia ZifyBool ZifyNat Permutation Sorted.
From Verif Require Import Base ProofLib F32 Messages Command Track SeqTree Song Paths Manifest Midi Json Cli SpecMidi SpecNotes SpecVoices SpecFile SpecHeard SpecSame SpecShift
  MergeProofs LoopProofs VoiceProofs ReadProofs ReadProofs2 TotalProofs InstrProofs FileProofs EndProofs FileExamples SameProofs.
Ltac Zify.zify_post_hook ::= Z.div_mod_to_equations.
Open Scope Z_scope.
Open Scope list_scope.

(** ** Moving messages *)
Definition is_map {A B} (f : A -> B) (a : A) (b : B) : Prop := b = f a.
Lemma orel_is_refl {A} (x : outcome A) : orel (is_map (fun a => a)) x x.
Proof. destruct x; cbn; auto; reflexivity. Qed.
Lemma transpose_rank d m : rank (transpose d m) = rank m.
Proof. destruct m as [|? []| |]; reflexivity. Qed.
Lemma transpose_for c d m t t' : for_channel c (transpose d m, t) = for_channel c (m, t').
Proof. destruct m as [|? []| |]; reflexivity. Qed.
Lemma transpose_matters d m t t' : matters (transpose d m, t) = matters (m, t').
Proof. destruct m as [? []| ? []| |]; reflexivity. Qed.
Lemma moved_undated d k x : undated (moved d k x) = moved d k (undated x).
Proof. destruct x as [[|? []| |] t]; reflexivity. Qed.
Lemma music_moved d k l : music (map (moved d k) l) = map (moved d k) (music l).
Proof.
  unfold music. rewrite filter_map_swap, !map_map. replace (filter (fun x => matters (moved d k x)) l) with (filter matters l).
  - apply map_ext. intros x. apply moved_undated.
  - apply filter_ext. intros [m t]. symmetry. apply transpose_matters.
Qed.
Lemma moved_sort d k l l' : 1 <= k -> stable_sort_of l l' -> stable_sort_of (map (moved d k) l) (map (moved d k) l').
Proof.
  intros Hk (Hp & Hs & Hf). split; [now apply Permutation_map|]. split.
  - apply sorted_map with (R := not_after); [|exact Hs]. intros x y H. unfold not_after, moved in *. cbn [fst snd]. rewrite !transpose_rank. nia.
  - intros x. rewrite !filter_map_swap. f_equal.
    assert (Hq : forall q : tmsg, same_place x (moved d k q) = true -> forall r, same_place x (moved d k r) = same_place q r).
    { intros q Hq r. unfold same_place, moved in *. cbn [fst snd] in *. rewrite !transpose_rank in *.
      destruct (snd q =? snd r) eqn:E1; destruct (rank (fst q) =? rank (fst r)) eqn:E2; cbn [andb]; nia. }
    destruct (existsb (fun q => same_place x (moved d k q)) l) eqn:Ex.
    + apply existsb_exists in Ex. destruct Ex as (q & _ & Hxq). specialize (Hq q Hxq).
      rewrite (filter_ext _ _ Hq l'), (filter_ext _ _ Hq l). apply Hf.
    + assert (Hn : forall m : list tmsg, (forall q, In q m -> In q l) -> filter (fun q => same_place x (moved d k q)) m = []).
      { induction m as [|q m IH]; intros Hm; [reflexivity|]. cbn [filter]. destruct (same_place x (moved d k q)) eqn:E.
        - exfalso. rewrite <- not_true_iff_false in Ex. apply Ex. apply existsb_exists. exists q. split; [apply Hm; now left|exact E].
        - apply IH. intros r Hr. apply Hm. now right. }
      rewrite !Hn; auto. intros q Hq'. eapply Permutation_in; [symmetry; exact Hp|exact Hq'].
Qed.
Lemma concat_map_map {A B} (f : A -> B) rs : concat (map (map f) rs) = map f (concat rs).
Proof. symmetry. apply concat_map. Qed.

(** ** The intervals *)
Definition ivl (k : Z) (x : interval) : interval := mk_interval (k * i_start x) (k * i_end x) (i_channel x) (i_voices x).
Definition ist (k : Z) (s1 s2 : istate) : Prop :=
  is_intervals s2 = map (ivl k) (is_intervals s1) /\ is_last_end s2 = k * is_last_end s1 /\ is_active s2 = is_active s1.
Lemma interval_moved d k b i l : 1 <= k -> forall s1 s2, ist k s1 s2 ->
  orel (ist k) (ofold (interval_step b i) l s1) (ofold (interval_step b i) (map (moved d k) l) s2).
Proof.
  intros Hk. induction l as [|[m t] l IH]; intros s1 s2 H; [exact H|]. cbn [map ofold]. apply orel_bind with (R := ist k); [|intros; now apply IH].
  assert (Hp : push_interval i s2 (k * t) = map (ivl k) (push_interval i s1 t)).
  { destruct H as (E1 & E2 & E3). unfold push_interval. rewrite E1, E2, E3. replace (k * is_last_end s1 <? k * t) with (is_last_end s1 <? t) by nia.
    destruct (is_last_end s1 <? t); [|reflexivity]. rewrite map_app. reflexivity. }
  destruct H as (E1 & E2 & E3). unfold moved. cbn [fst snd].
  destruct m as [? ? ?|? []| |]; cbn [transpose interval_step]; try (repeat split; assumption);
    rewrite E3; (apply orel_bind with (R := eq); [apply orel_refl|]); intros a b0 <-; unfold ist; cbn [orel is_intervals is_last_end is_active]; auto.
Qed.
Lemma intervals_moved d k b chs1 : 1 <= k -> forall chs2 i mx1 mx2, map music chs2 = map (map (moved d k)) (map music chs1) ->
  orel (fun r1 r2 => fst r2 = map (map (ivl k)) (fst r1)) (all_intervals b chs1 i mx1) (all_intervals b chs2 i mx2).
Proof.
  intros Hk. induction chs1 as [|c1 chs1 IH]; intros [|c2 chs2] i mx1 mx2 H; try discriminate; cbn [all_intervals]; [reflexivity|].
  assert (E1 : music c2 = map (moved d k) (music c1)) by (cbn [map] in H; congruence). assert (E2 : map music chs2 = map (map (moved d k)) (map music chs1)) by (cbn [map] in H; congruence).
  apply orel_bind with (R := ist k).
  - pose proof (interval_music b i c1 _ _ (isim_refl_max mx1 mx1)) as A1. pose proof (interval_music b i c2 _ _ (isim_refl_max mx2 mx2)) as A2.
    assert (H0 : ist k (mk_istate [] 0 0 mx1) (mk_istate [] 0 0 mx2)) by (repeat split; cbn; lia).
    pose proof (interval_moved d k b i (music c1) Hk _ _ H0) as A3. rewrite E1 in A2.
    assert (A4 : orel (ist k) (ofold (interval_step b i) (music c1) (mk_istate [] 0 0 mx1)) (ofold (interval_step b i) c2 (mk_istate [] 0 0 mx2))).
    { eapply orel_trans; [|exact A3|eapply orel_sym; [apply isim_sym|exact A2]]. intros x y z (? & ? & ?) (? & ? & ?). repeat split; congruence. }
    eapply orel_trans; [|exact A1|exact A4]. intros x y z (? & ? & ?) (? & ? & ?). repeat split; congruence.
  - intros s1 s2 H1. cbn beta in H1. apply orel_bind with (R := fun r1 r2 => fst r2 = map (map (ivl k)) (fst r1)); [now apply IH|].
    intros r1 r2 Er. cbn [orel fst map]. rewrite Er. f_equal. apply H1.
Qed.
Lemma overlaps_ivl k x y : 1 <= k -> overlaps (ivl k x) (ivl k y) = overlaps x y.
Proof. intros Hk. unfold overlaps, ivl. cbn [i_start i_end i_voices]. f_equal; [f_equal|]; nia. Qed.
Lemma overlapping_ivl k l1 l2 : 1 <= k -> overlapping (map (ivl k) l1) (map (ivl k) l2) = overlapping l1 l2.
Proof.
  intros Hk. unfold overlapping. induction l1 as [|x l1 IH]; [reflexivity|]. cbn [map existsb]. rewrite IH. f_equal. clear IH.
  induction l2 as [|y l2 IH]; [reflexivity|]. cbn [map existsb]. now rewrite IH, overlaps_ivl.
Qed.
Lemma valid_ivl k ch active : 1 <= k -> forall i e, valid_voices (map (ivl k) ch) (map (map (ivl k)) active) i e = valid_voices ch active i e.
Proof.
  intros Hk. induction active as [|v active IH]; intros i e; [reflexivity|]. cbn [map valid_voices]. rewrite overlapping_ivl by exact Hk. rewrite !IH.
  destruct v; reflexivity.
Qed.
Lemma upd_map {A} (f : A -> A) l i g h : (forall x, f (g x) = h (f x)) -> map f (upd l i g) = upd (map f l) i h.
Proof.
  intros H. unfold upd. rewrite nth_error_map. destruct (nth_error l i) as [x|]; cbn [option_map]; [|reflexivity].
  rewrite map_app. cbn [map]. now rewrite firstn_map, skipn_map, H.
Qed.
Lemma base_ivl k chs : 1 <= k -> forall active, find_base_voices (map (map (ivl k)) chs) (map (map (ivl k)) active) = find_base_voices chs active.
Proof.
  intros Hk. induction chs as [|ch chs IH]; intros active; [reflexivity|]. cbn [map find_base_voices]. rewrite valid_ivl by exact Hk.
  induction (valid_voices ch active 0 false) as [|v vs IHv]; [reflexivity|].
  rewrite <- (upd_map (map (ivl k)) active v (fun l => l ++ ch) (fun l => l ++ map (ivl k) ch)) by (intros; apply map_app).
  rewrite IH, IHv. reflexivity.
Qed.

(** ** The voices *)
Definition mnotes (d : Z) (n : notes) : notes := map (fun x => (fst x + d, snd x)) n.
Definition smove (d k : Z) (s : vstate) : vstate :=
  mk_vstate (map (map (moved d k)) (v_voices s)) (map (option_map (transpose d)) (v_ctrl s)) (map (option_map (transpose d)) (v_prog s))
    (map (option_map (transpose d)) (v_pitch s)) (v_chan s) (map (mnotes d) (v_active s)) (v_perc s).
Lemma get_moved d n key : notes_get (mnotes d n) (key + d) = notes_get n key.
Proof.
  unfold notes_get, mnotes. induction n as [|[x v] n IH]; [reflexivity|]. cbn [map find fst snd]. replace (x + d =? key + d) with (x =? key) by lia.
  destruct (x =? key); [reflexivity|exact IH].
Qed.
Lemma remove_moved d n key : notes_remove (mnotes d n) (key + d) = mnotes d (notes_remove n key).
Proof.
  unfold notes_remove, mnotes. rewrite filter_map_swap. f_equal. apply filter_ext. intros [x v]. cbn [fst]. f_equal. lia.
Qed.
Lemma insert_moved d n key v : notes_insert (mnotes d n) (key + d) v = mnotes d (notes_insert n key v).
Proof. unfold notes_insert. rewrite remove_moved. unfold mnotes. now rewrite map_app. Qed.
Lemma active_moved d a v : voice_active (map (mnotes d) a) v = voice_active a v.
Proof.
  unfold voice_active. induction a as [|n a IH]; [reflexivity|]. cbn [map existsb]. rewrite IH. f_equal. clear. unfold mnotes.
  induction n as [|x n IH]; [reflexivity|]. cbn [map existsb snd]. now rewrite IH.
Qed.
Lemma choose_moved d base bv a : choose_voice base bv (map (mnotes d) a) = choose_voice base bv a.
Proof.
  unfold choose_voice. rewrite active_moved. destruct (voice_active a bv); [|reflexivity].
  assert (H : forall l, find (fun v => negb (existsb (fun bv => Nat.eqb bv v) base) && negb (voice_active (map (mnotes d) a) v)) l =
    find (fun v => negb (existsb (fun bv => Nat.eqb bv v) base) && negb (voice_active a v)) l); [|apply H].
  induction l as [|v l IH]; [reflexivity|]. cbn [find]. rewrite active_moved, IH. reflexivity.
Qed.
Lemma nth_moved {A B} (f : A -> B) p l i : orel (is_map f) (or_panic p (nth_error l i)) (or_panic p (nth_error (map f l) i)).
Proof. rewrite nth_error_map. destruct (nth_error l i); reflexivity. Qed.
Lemma set_moved {A B} (f : A -> B) p x l : forall i, orel (is_map (map f)) (or_panic p (set_nth l i x)) (or_panic p (set_nth (map f l) i (f x))).
Proof.
  induction l as [|y l IH]; intros [|i]; cbn [map set_nth or_panic orel]; try reflexivity. specialize (IH i).
  destruct (set_nth l i x), (set_nth (map f l) i (f x)); cbn [or_panic orel] in *; try contradiction; try reflexivity. rewrite IH. reflexivity.
Qed.
Lemma push_moved {A B} (f : A -> B) vs i x : orel (is_map (map (map f))) (push_at vs i x) (push_at (map (map f) vs) i (f x)).
Proof.
  unfold push_at. rewrite nth_error_map. destruct (nth_error vs i) as [y|]; cbn [option_map]; [|reflexivity].
  replace (map f y ++ [f x]) with (map f (y ++ [x])) by now rewrite map_app. apply set_moved.
Qed.
Lemma push_all_moved {A B} (f : A -> B) ts x : forall vs, orel (is_map (map (map f))) (ofold (fun vs v => push_at vs v x) ts vs) (ofold (fun vs v => push_at vs v (f x)) ts (map (map f) vs)).
Proof.
  induction ts as [|v ts IH]; intros vs; cbn [ofold]; [reflexivity|]. eapply orel_bind; [apply push_moved|]. intros a b ->. apply IH.
Qed.
Lemma push_list_moved {A B} (f : A -> B) v l : forall vs, orel (is_map (map (map f))) (ofold (fun vs x => push_at vs v x) l vs) (ofold (fun vs x => push_at vs v x) (map f l) (map (map f) vs)).
Proof.
  induction l as [|x l IH]; intros vs; cbn [ofold map]; [reflexivity|]. eapply orel_bind; [apply push_moved|]. intros a b ->. apply IH.
Qed.
Lemma channel_moved d k s base ch x : orel (is_map (map (map (moved d k)))) (push_channel_event s base ch same x) (push_channel_event (smove d k s) base ch same (moved d k x)).
Proof.
  unfold push_channel_event. eapply orel_bind; [apply nth_moved|]. intros n n2 ->. apply orel_bind with (R := eq); [apply orel_refl|]. intros bv ? <-.
  unfold same. replace (map snd (mnotes d n)) with (map snd n) by (unfold mnotes; rewrite map_map; reflexivity).
  eapply orel_bind; [apply push_all_moved|]. intros a b ->. destruct (existsb _ _); [reflexivity|]. apply push_moved.
Qed.
Definition plain_note (d c : Z) : Prop := d = 0 \/ c <> 9.
Lemma transpose_0 m : transpose 0 m = m.
Proof. destruct m as [|? []| |]; cbn [transpose]; rewrite ?Z.add_0_r; reflexivity. Qed.
Lemma off_moved d k s t dt c n v : plain_note d c ->
  orel (is_map (smove d k)) (v_note_off s (MidiEvent dt (NoteOff c n v), t) dt c n v)
    (v_note_off (smove d k s) (moved d k (MidiEvent dt (NoteOff c n v), t)) dt c (n + d) v).
Proof.
  intros Hd. unfold v_note_off. eapply orel_bind; [apply nth_moved|]. intros a a2 ->. rewrite get_moved. destruct (notes_get a n) as [voice|]; [|reflexivity].
  rewrite remove_moved. eapply orel_bind; [apply set_moved|]. intros ac ac2 ->. cbn [snd moved fst].
  eapply orel_bind with (R := is_map (map (map (moved d k)))).
  - destruct (c =? 9) eqn:E9; [|apply push_moved]. destruct Hd as [->|Hd]; [|lia]. rewrite Z.add_0_r. set (q := MidiEvent dt _).
    replace (q, k * t) with (moved 0 k (q, t)) by (unfold moved; cbn [fst snd]; now rewrite transpose_0). apply push_moved.
  - intros vs vs2 ->. reflexivity.
Qed.
Lemma retrigger_moved d k s dt c n v t :
  orel (is_map (smove d k)) (v_retrigger s dt c n v t) (v_retrigger (smove d k s) dt c (n + d) v (k * t)).
Proof.
  unfold v_retrigger. eapply orel_bind; [apply nth_moved|]. intros a a2 ->. rewrite get_moved. destruct (notes_get a n) as [voice|]; [|reflexivity].
  rewrite remove_moved. eapply orel_bind; [apply set_moved|]. intros ac ac2 ->.
  eapply orel_bind with (R := is_map (map (map (moved d k)))); [exact (push_moved (moved d k) (v_voices s) voice (MidiEvent dt (NoteOff c n v), t))|].
  intros vs vs2 ->. reflexivity.
Qed.
Lemma opt_moved d k o t : opt_msg (option_map (transpose d) o) (k * t) = map (moved d k) (opt_msg o t).
Proof. destruct o; reflexivity. Qed.
Lemma refresh_moved d k s c voice t :
  orel (is_map (fun r => (map (moved d k) (fst r), snd r))) (refresh s c voice t) (refresh (smove d k s) c voice (k * t)).
Proof.
  unfold refresh. cbn [smove v_chan v_ctrl v_prog v_pitch]. apply orel_bind with (R := eq); [apply orel_refl|]. intros lc ? <-.
  destruct (Nat.eqb c (oelse lc 0xff%nat)); [reflexivity|].
  eapply orel_bind; [apply nth_moved|]. intros c1 ? ->. eapply orel_bind; [apply nth_moved|]. intros p1 ? ->. eapply orel_bind; [apply nth_moved|]. intros w1 ? ->.
  apply orel_bind with (R := eq); [apply orel_refl|]. intros vc ? <-. cbn [orel]. unfold is_map. cbn [fst snd]. rewrite !map_app, !opt_moved. reflexivity.
Qed.
Lemma messages_moved d k s dt c n v t : plain_note d c ->
  orel (is_map (fun q => (map (moved d k) (fst (fst q)), map (option_map (transpose d)) (snd (fst q)), snd q)))
    (note_messages s (MidiEvent dt (NoteOn c n v), t) dt c n v) (note_messages (smove d k s) (moved d k (MidiEvent dt (NoteOn c n v), t)) dt c (n + d) v).
Proof.
  intros Hd. unfold note_messages. cbn [smove v_perc v_prog snd moved fst]. destruct (c =? 9) eqn:E9; [|reflexivity].
  destruct Hd as [->|Hd]; [|lia]. rewrite Z.add_0_r. destruct (v_perc s =? _).
  - cbn [orel]. unfold is_map, moved. cbn [fst snd map transpose]. rewrite Z.add_0_r. reflexivity.
  - eapply orel_bind; [apply (set_moved (option_map (transpose 0)) PIndex (Some (MidiEvent dt (ProgramChange c (if is_snare n then SNARE else CYMBAL)))))|]. intros vp ? ->.
    cbn [orel]. unfold is_map, moved. cbn [fst snd map transpose]. rewrite Z.add_0_r. reflexivity.
Qed.
Lemma on_moved d k s base dt c n v t : plain_note d c ->
  orel (is_map (smove d k)) (v_note_on s base (MidiEvent dt (NoteOn c n v), t) dt c n v)
    (v_note_on (smove d k s) base (moved d k (MidiEvent dt (NoteOn c n v), t)) dt c (n + d) v).
Proof.
  intros Hd. unfold v_note_on. cbn [snd fst moved]. eapply orel_bind; [apply retrigger_moved|]. intros s' ? ->. clear s. rename s' into s.
  destruct (0 <? v); [|reflexivity]. apply orel_bind with (R := eq); [apply orel_refl|]. intros bv ? <-. cbn [smove v_active]. rewrite choose_moved.
  destruct (choose_voice base bv (v_active s)) as [voice|]; [|reflexivity].
  eapply orel_bind; [apply nth_moved|]. intros a ? ->. rewrite insert_moved. eapply orel_bind; [apply set_moved|]. intros ac ? ->.
  eapply orel_bind; [apply (refresh_moved d k s)|]. intros [pre vc] [pre2 vc2] E. cbn [fst snd] in E. injection E as -> ->.
  eapply orel_bind; [exact (messages_moved d k s dt c n v t Hd)|]. intros [[nm vp] pe] [[nm2 vp2] pe2] E. cbn [fst snd] in E. injection E as -> -> ->.
  rewrite <- map_app. cbn [v_voices]. eapply orel_bind; [apply push_list_moved|]. intros vs ? ->. reflexivity.
Qed.
Definition melodic (d : Z) (x : tmsg) : Prop := d = 0 \/ drum_note (fst x) = false.
Lemma melodic_off d dt c n v t : melodic d (MidiEvent dt (NoteOff c n v), t) -> plain_note d c.
Proof. intros [H|H]; [now left|right]. intros ->. discriminate. Qed.
Lemma melodic_on d dt c n v t : melodic d (MidiEvent dt (NoteOn c n v), t) -> plain_note d c.
Proof. intros [H|H]; [now left|right]. intros ->. discriminate. Qed.
Lemma step_moved d k base s x : melodic d x -> matters x = true -> orel (is_map (smove d k)) (vstep base s x) (vstep base (smove d k s) (moved d k x)).
Proof.
  intros Hd Hm. destruct x as [m t]. unfold vstep, voice_step. cbn [fst moved].
  destruct m as [dt [] data|dt e| |]; try discriminate; cbn [transpose].
  - eapply orel_bind; [exact (push_moved (moved d k) (v_voices s) 0 (MetaEvent dt SetTempo data, t))|]. intros vs ? ->. reflexivity.
  - destruct e; try discriminate; cbn [fst snd].
    + apply (off_moved d k s t). exact (melodic_off _ _ _ _ _ _ Hd).
    + apply on_moved. exact (melodic_on _ _ _ _ _ _ Hd).
    + eapply orel_bind; [exact (channel_moved d k s base (Z.to_nat ch) (MidiEvent dt (ControlChange ch control data), t))|]. intros vs ? ->.
      apply orel_bind with (R := is_map (map (option_map (transpose d)))).
      * destruct (control =? 7); [|reflexivity]. exact (set_moved (option_map (transpose d)) PIndex (Some (MidiEvent dt (ControlChange ch control data))) (v_ctrl s) (Z.to_nat ch)).
      * intros c ? ->. reflexivity.
    + eapply orel_bind; [exact (channel_moved d k s base (Z.to_nat ch) (MidiEvent dt (ProgramChange ch program), t))|]. intros vs ? ->.
      eapply orel_bind; [exact (set_moved (option_map (transpose d)) PIndex (Some (MidiEvent dt (ProgramChange ch program))) (v_prog s) (Z.to_nat ch))|]. intros c ? ->. reflexivity.
Qed.
Lemma run_moved d k base l : Forall (fun x => melodic d x /\ matters x = true) l -> forall s,
  orel (is_map (smove d k)) (ofold (vstep base) l s) (ofold (vstep base) (map (moved d k) l) (smove d k s)).
Proof.
  induction 1 as [|x l [Hx Hm] Hl IH]; intros s; cbn [ofold map]; [reflexivity|]. eapply orel_bind; [now apply step_moved|]. intros a ? ->. apply IH.
Qed.
Lemma merge_moved d k rs1 rs2 m1 m2 : 1 <= k -> ordered_merge rs1 m1 -> ordered_merge rs2 m2 -> Forall (StronglySorted not_after) rs1 ->
  Forall (StronglySorted not_after) rs2 -> map music rs2 = map (map (moved d k)) (map music rs1) -> music m2 = map (moved d k) (music m1).
Proof.
  intros Hk H1 H2 S1 S2 E. apply merge_stable in H1; [|exact S1]. apply merge_stable in H2; [|exact S2].
  apply music_sort in H1. apply music_sort in H2. apply (moved_sort d k _ _ Hk) in H1. rewrite music_concat in H1, H2. rewrite E, concat_map_map in H2.
  rewrite (stable_sort_is _ _ H1), (stable_sort_is _ _ H2). reflexivity.
Qed.
Lemma melodic_bare d x : melodic d x -> melodic d (undated x).
Proof. intros [H|H]; [now left|right]. rewrite <- H. destruct x as [[|? []| |] t]; reflexivity. Qed.

(** ** What the voices hold *)
Definition fits (d k : Z) (m : message) : Prop :=
  (d = 0 \/ forall n, key_of m = Some n -> 0 <= n < 152 /\ 0 <= n + d < 152) /\ (k = 1 \/ switches_on m = false).
Definition kept (d k T : Z) (x : tmsg) : Prop := fits d k (fst x) /\ 0 <= snd x <= T.
Definition ofits (d k : Z) (o : option message) : Prop := forall m, o = Some m -> fits d k m.
Record keeps (d k T : Z) (s : vstate) : Prop := mk_keeps {
  kp_voices : Forall (Forall (kept d k T)) (v_voices s);
  kp_ctrl : Forall (ofits d k) (v_ctrl s);
  kp_prog : Forall (ofits d k) (v_prog s);
  kp_pitch : Forall (ofits d k) (v_pitch s)
}.
Lemma push_kept {A} (P : A -> Prop) vs i x vs' : Forall (Forall P) vs -> P x -> push_at vs i x = Ok vs' -> Forall (Forall P) vs'.
Proof.
  intros H Hx E. unfold push_at in E. destruct (nth_error vs i) as [y|] eqn:Ey; [|discriminate]. destruct (set_nth vs i (y ++ [x])) as [r|] eqn:Es; [|discriminate].
  injection E as <-. eapply forall_set_nth'; [exact H| |exact Es]. apply Forall_app. split; [|repeat constructor; exact Hx].
  rewrite Forall_forall in H. apply H. eapply nth_error_In; eauto.
Qed.
Lemma push_list_kept {A} (P : A -> Prop) v l : forall vs vs', Forall (Forall P) vs -> Forall P l -> ofold (fun vs x => push_at vs v x) l vs = Ok vs' -> Forall (Forall P) vs'.
Proof.
  induction l as [|x l IH]; intros vs vs' H Hl E; cbn [ofold] in E; [injection E as <-; exact H|]. inversion Hl; subst. inv_bind E.
  eapply IH; [|eassumption|exact E]. eapply push_kept; eauto.
Qed.
Lemma push_all_kept {A} (P : A -> Prop) x ts : forall vs vs', Forall (Forall P) vs -> P x -> ofold (fun vs v => push_at vs v x) ts vs = Ok vs' -> Forall (Forall P) vs'.
Proof.
  induction ts as [|v l IH]; intros vs vs' H Hx E; cbn [ofold] in E; [injection E as <-; exact H|]. inv_bind E.
  eapply IH; [|eassumption|exact E]. eapply push_kept; eauto.
Qed.
Lemma channel_kept (P : tmsg -> Prop) s base ch x vs : Forall (Forall P) (v_voices s) -> P x -> push_channel_event s base ch same x = Ok vs -> Forall (Forall P) vs.
Proof.
  intros H Hx E. unfold push_channel_event in E. inv_bind E. inv_bind E. inv_bind E. match goal with HH : push_voices _ _ _ = Ok _ |- _ => apply (push_all_kept P) in HH; [|exact H|exact Hx]; rename HH into HV end.
  destruct (existsb _ _); [injection E as <-; exact HV|]. eapply push_kept; eauto.
Qed.
Lemma set_some {A} p (l : list A) i x q : or_panic p (set_nth l i x) = Ok q -> set_nth l i x = Some q.
Proof. destruct (set_nth l i x); cbn; congruence. Qed.
Lemma fits_note d k dt dt' c n v v' : fits d k (MidiEvent dt (NoteOn c n v)) -> fits d k (MidiEvent dt' (NoteOff c n v')).
Proof. intros [H _]. split; [exact H|right; reflexivity]. Qed.
Lemma fits_plain d k m : key_of m = None -> switches_on m = false -> fits d k m.
Proof. intros H1 H2. split; [right; intros n E; congruence|now right]. Qed.
Lemma opt_kept d k T o t : ofits d k o -> 0 <= t <= T -> Forall (kept d k T) (opt_msg o t).
Proof. intros H Ht. destruct o; cbn [opt_msg]; [|constructor]. constructor; [|constructor]. split; [apply H; reflexivity|exact Ht]. Qed.
Lemma step_keeps d k T base s x s' : keeps d k T s -> kept d k T x -> melodic d x -> matters x = true -> vstep base s x = Ok s' -> keeps d k T s'.
Proof.
  intros Hs [Hf Ht] Hd Hm E. destruct x as [m t]. cbn [fst snd] in Hf, Ht. unfold vstep, voice_step in E. cbn [fst] in E.
  assert (Hx : kept d k T (m, t)) by (split; assumption). destruct Hs as [K1 K2 K3 K4].
  destruct m as [dt [] data|dt e| |]; try discriminate.
  - inv_bind E. injection E as <-. constructor; cbn; auto. eapply push_kept; eauto.
  - destruct e; try discriminate.
    + pose proof (melodic_off _ _ _ _ _ _ Hd) as Hp. unfold v_note_off in E. inv_bind E. destruct (notes_get a note); [|injection E as <-; constructor; auto].
      inv_bind E. inv_bind E. injection E as <-. constructor; cbn; auto. match goal with HH : push_at _ _ _ = Ok _ |- _ => eapply push_kept; [exact K1| |exact HH] end.
      destruct (ch =? 9) eqn:E9; [|exact Hx]. destruct Hp as [->|Hp]; [|lia]. split; [split; [now left|right; reflexivity]|exact Ht].
    + pose proof (melodic_on _ _ _ _ _ _ Hd) as Hp. unfold v_note_on in E. inv_bind E.
      assert (Ka : keeps d k T a).
      { unfold v_retrigger in Ha. inv_bind Ha. destruct (notes_get a0 note); [|injection Ha as <-; constructor; auto].
        inv_bind Ha. inv_bind Ha. injection Ha as <-. constructor; cbn; auto. match goal with HH : push_at _ _ _ = Ok _ |- _ => eapply push_kept; [exact K1| |exact HH] end.
        split; [eapply fits_note, Hf|exact Ht]. }
      clear K1 K2 K3 K4. destruct (0 <? velocity); [|injection E as <-; exact Ka]. destruct Ka as [K1 K2 K3 K4].
      inv_bind E. destruct (choose_voice _ _ _); [|discriminate]. inv_bind E. inv_bind E. inv_bind E. destruct a3 as [pre vc]. inv_bind E. destruct a3 as [[nm vp] pe]. inv_bind E.
      injection E as <-.
      assert (Hpre : Forall (kept d k T) pre).
      { unfold refresh in Ha3. inv_bind Ha3. destruct (Nat.eqb _ _); [injection Ha3 as <- <-; constructor|]. inv_bind Ha3. inv_bind Ha3. inv_bind Ha3. inv_bind Ha3. injection Ha3 as <- <-.
        cbn [snd] in *.
        assert (Hn : forall l i o, Forall (ofits d k) l -> or_panic PUnwrap (nth_error l i) = Ok o -> ofits d k o).
        { intros l i o Hl Ho. destruct (nth_error l i) as [o'|] eqn:En; [|discriminate]. injection Ho as ->. rewrite Forall_forall in Hl. apply Hl. eapply nth_error_In; eauto. }
        apply Forall_app. split; [apply opt_kept; eauto|]. apply Forall_app. split; apply opt_kept; eauto. }
      assert (Hnm : Forall (kept d k T) nm /\ Forall (ofits d k) vp).
      { unfold note_messages in Ha4. destruct (ch =? 9) eqn:E9; [|injection Ha4 as <- <- <-; split; [constructor; [exact Hx|constructor]|exact K3]].
        destruct Hp as [->|Hp]; [|lia]. cbn [snd] in Ha4. 
        assert (Hon : kept 0 k T (MidiEvent dt (NoteOn ch (perc_note note) velocity), t)) by (split; [split; [now left|right; reflexivity]|exact Ht]).
        destruct (v_perc _ =? _); [injection Ha4 as <- <- <-; split; [constructor; [exact Hon|constructor]|exact K3]|].
        inv_bind Ha4. injection Ha4 as <- <- <-. split; [constructor; [|constructor; [exact Hon|constructor]]; split; [split; [now left|right; reflexivity]|exact Ht]|].
        eapply forall_set_nth'; [exact K3| |exact (set_some _ _ _ _ _ Ha6)]. intros m Em. injection Em as <-. split; [now left|right; reflexivity]. }
      destruct Hnm as [Hnm Hvp]. constructor; cbn; auto. eapply push_list_kept; [exact K1| |exact Ha5]. apply Forall_app. auto.
    + inv_bind E. inv_bind E. injection E as <-. constructor; cbn; auto; [eapply channel_kept; eauto|].
      destruct (control =? 7); [|injection Ha0 as <-; exact K2]. 
      eapply forall_set_nth'; [exact K2| |exact (set_some _ _ _ _ _ Ha0)]. intros m Em. injection Em as <-. exact Hf.
    + inv_bind E. inv_bind E. injection E as <-. constructor; cbn; auto; [eapply channel_kept; eauto|].
      eapply forall_set_nth'; [exact K3| |exact (set_some _ _ _ _ _ Ha0)]. intros m Em. injection Em as <-. exact Hf.
Qed.
Lemma run_keeps d k T base l : Forall (fun x => melodic d x /\ kept d k T x /\ matters x = true) l -> forall s s', keeps d k T s ->
  ofold (vstep base) l s = Ok s' -> keeps d k T s'.
Proof.
  induction 1 as [|x l (Hx & Hk & Hm) Hl IH]; intros s s' Hs E; cbn [ofold] in E; [injection E as <-; exact Hs|]. inv_bind E.
  eapply IH; [|exact E]. eapply step_keeps; eauto.
Qed.
Lemma keeps0 d k T base : keeps d k T (vstate0 base).
Proof.
  assert (Ho : Forall (ofits d k) (repeat None 16)).
  { apply Forall_forall. intros o Ho. apply repeat_spec in Ho. subst. intros m E. discriminate. }
  constructor; cbn [vstate0 v_voices v_ctrl v_prog v_pitch]; try exact Ho. apply Forall_forall. intros l Hl. apply repeat_spec in Hl. subst. constructor.
Qed.
Lemma kept_bare d k T x : kept d k T x -> kept d k T (undated x).
Proof. destruct x as [[|? []| |] t]; intros H; exact H. Qed.
Definition vmoved (d k T : Z) (l1 l2 : list tmsg) : Prop := music l2 = map (moved d k) (music l1) /\ Forall (kept d k T) (music l1).
Lemma smove_0 d k base : smove d k (vstate0 base) = vstate0 base.
Proof. reflexivity. Qed.
Lemma voices_moved d k T chs1 chs2 base o1 o2 : 1 <= k -> base_ok base -> channels_ok chs1 -> channels_ok chs2 ->
  map music chs2 = map (map (moved d k)) (map music chs1) -> Forall (Forall (fun x => matters x = true -> melodic d x /\ kept d k T x)) chs1 ->
  (forall k, permutes (o1 k)) -> (forall k, permutes (o2 k)) ->
  orel (Forall2 (vmoved d k T)) (channels_to_voices chs1 base o1) (channels_to_voices chs2 base o2).
Proof.
  intros Hk Hb H1 H2 E Hd P1 P2. destruct (channels_merge chs1 H1) as (m1 & M1 & _ & T1 & _ & R1). destruct (channels_merge chs2 H2) as (m2 & M2 & _ & T2 & _ & R2).
  rewrite R1, R2 by assumption. assert (Em : music m2 = map (moved d k) (music m1)) by (eapply merge_moved; eauto; [apply H1|apply H2]).
  assert (Ht : forall m, Forall typed m -> Forall (fun x => channel_ok (fst x)) m) by (intros m Hm; eapply Forall_impl; [|exact Hm]; intros x (Hx & _); exact Hx).
  pose proof (run_same base m1 Hb _ _ (vinv0 base) (Ht _ T1) (sim_refl base)) as A1. pose proof (run_same base m2 Hb _ _ (vinv0 base) (Ht _ T2) (sim_refl base)) as A2.
  assert (Hall : Forall (fun x => melodic d x /\ kept d k T x /\ matters x = true) (music m1)).
  { apply Forall_forall. intros x Hx. pose proof (music_matters m1) as Hm. rewrite Forall_forall in Hm. specialize (Hm x Hx).
    apply in_music in Hx. destruct Hx as (y & Hy & My & ->).
    assert (Hy' : In y (concat chs1)) by (eapply Permutation_in; [apply interleave_perm, ordered_interleave, M1|exact Hy]).
    apply in_concat in Hy'. destruct Hy' as (ch & Hch & Hy'). rewrite Forall_forall in Hd. specialize (Hd ch Hch). rewrite Forall_forall in Hd. specialize (Hd y Hy' My).
    split; [apply melodic_bare, Hd|]. split; [apply kept_bare, Hd|exact Hm]. }
  assert (Hmel : Forall (fun x => melodic d x /\ matters x = true) (music m1)) by (eapply Forall_impl; [|exact Hall]; cbn; tauto).
  pose proof (run_moved d k base (music m1) Hmel (vstate0 base)) as A3. rewrite smove_0 in A3.
  pose proof (run_keeps d k T base (music m1) Hall (vstate0 base)) as A4.
  rewrite Em in A2. destruct (ofold (vstep base) m1 _), (ofold (vstep base) m2 _), (ofold (vstep base) (map _ _) _), (ofold (vstep base) (music m1) _); cbn [orel bind] in *; try contradiction; try congruence.
  unfold is_map in A3. subst. specialize (A4 a2 (keeps0 d k T base) eq_refl). apply kp_voices in A4.
  pose proof (sm_voices _ _ A1) as V1. pose proof (sm_voices _ _ A2) as V2. cbn [smove v_voices] in V2. clear -V1 V2 A4. revert V2. generalize (v_voices a0).
  revert V1 A4. generalize (v_voices a), (v_voices a2). intros l1 l2 V1. induction V1; intros A4 l0 V2; inversion V2; subst; inversion A4; subst; constructor; auto.
  unfold vsame, vmoved in *. match goal with HH : music _ = music (map _ _) |- _ => rewrite HH end. rewrite music_moved. split; [congruence|].
  match goal with HH : music x = music y |- _ => rewrite HH end. apply Forall_forall. intros z Hz. apply in_music in Hz. destruct Hz as (z' & Hz & _ & ->). apply kept_bare.
  match goal with HH : Forall (kept d k T) y |- _ => rewrite Forall_forall in HH; auto end.
Qed.

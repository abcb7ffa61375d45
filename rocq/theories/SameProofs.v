(** SameProofs.v: proofs for C66. *)
From Coq Require Import ZArith List Bool Lia ZifyBool ZifyNat Permutation Sorted.
From Verif Require Import Base ProofLib F32 Messages Command Track SeqTree Song Paths Manifest Midi Json Cli SpecMidi SpecNotes SpecVoices SpecFile SpecHeard SpecSame
  MergeProofs LoopProofs VoiceProofs ReadProofs ReadProofs2 TotalProofs InstrProofs FileProofs EndProofs FileExamples.
Ltac Zify.zify_post_hook ::= Z.div_mod_to_equations.
Open Scope Z_scope.
Open Scope list_scope.

(** ** Related outcomes *)
Definition orel {A B} (R : A -> B -> Prop) (x : outcome A) (y : outcome B) : Prop :=
  match x, y with
  | Ok a, Ok b => R a b
  | Err e, Err e' => e = e'
  | Panic p, Panic q => p = q
  | Diverge, Diverge => True
  | _, _ => False
  end.
Lemma orel_bind {A B C D} (R : A -> B -> Prop) (S : C -> D -> Prop) x y f g :
  orel R x y -> (forall a b, R a b -> orel S (f a) (g b)) -> orel S (bind x f) (bind y g).
Proof. destruct x, y; cbn; try tauto; auto. Qed.
Lemma orel_refl {A} (x : outcome A) : orel eq x x.
Proof. destruct x; cbn; auto. Qed.
Lemma orel_eq {A} (x y : outcome A) : orel eq x y -> x = y.
Proof. destruct x, y; cbn; try tauto; congruence. Qed.
Lemma orel_trans {A B C} (R : A -> B -> Prop) (S : B -> C -> Prop) (T : A -> C -> Prop) x y z :
  (forall a b c, R a b -> S b c -> T a c) -> orel R x y -> orel S y z -> orel T x z.
Proof. destruct x, y, z; cbn; try tauto; try congruence; eauto. Qed.

(** ** The music of a list *)
Lemma bare_rank m : rank (bare m) = rank m.
Proof. destruct m as [|? []| |]; reflexivity. Qed.
Lemma bare_for c m t : for_channel c (bare m, t) = for_channel c (m, t).
Proof. destruct m as [|? []| |]; reflexivity. Qed.
Lemma bare_matters m t t' : matters (bare m, t) = matters (m, t').
Proof. destruct m as [? []| ? []| |]; reflexivity. Qed.
Lemma matters_bare m1 m2 t : bare m1 = bare m2 -> matters (m1, t) = matters (m2, t).
Proof. intros E. rewrite <- (bare_matters m1 t t), <- (bare_matters m2 t t), E. reflexivity. Qed.
Lemma music_app l1 l2 : music (l1 ++ l2) = music l1 ++ music l2.
Proof. unfold music. rewrite filter_app, map_app. reflexivity. Qed.
Lemma music_one m1 m2 t : bare m1 = bare m2 -> music [(m1, t)] = music [(m2, t)].
Proof. intros E. unfold music. cbn [filter]. rewrite (matters_bare m1 m2 t E). destruct (matters (m2, t)); [|reflexivity]. unfold undated. cbn [map fst snd]. now rewrite E. Qed.
Lemma music_none x : matters x = false -> music [x] = [].
Proof. intros E. unfold music. cbn [filter]. now rewrite E. Qed.
Lemma music_concat rs : music (concat rs) = concat (map music rs).
Proof. induction rs as [|r rs IH]; [reflexivity|]. cbn [concat map]. now rewrite music_app, IH. Qed.
Lemma music_matters l : Forall (fun x => matters x = true) (music l).
Proof.
  apply Forall_forall. intros x Hx. apply in_map_iff in Hx. destruct Hx as ([m t] & <- & Hx). apply filter_In in Hx. unfold undated. cbn [fst snd].
  rewrite (bare_matters m t t). apply Hx.
Qed.
Lemma filter_map_swap {A B} (f : A -> B) p l : filter p (map f l) = map f (filter (fun x => p (f x)) l).
Proof. induction l as [|x l IH]; [reflexivity|]. cbn [map filter]. destruct (p (f x)); cbn [map]; now rewrite IH. Qed.
Lemma filter_comm {A} (p q : A -> bool) l : filter p (filter q l) = filter q (filter p l).
Proof. induction l as [|x l IH]; [reflexivity|]. cbn [filter]. destruct (p x) eqn:E1, (q x) eqn:E2; cbn [filter]; rewrite ?E1, ?E2, ?IH; reflexivity. Qed.
Lemma same_place_undated k x : same_place k (undated x) = same_place k x.
Proof. unfold same_place, undated. cbn [fst snd]. now rewrite bare_rank. Qed.
Lemma music_filter p l : (forall x, p (undated x) = p x) -> filter p (music l) = music (filter p l).
Proof.
  intros H. unfold music. rewrite filter_map_swap, filter_comm. f_equal. f_equal. apply filter_ext. exact H.
Qed.
Lemma sorted_filter {A} (R : A -> A -> Prop) p l : StronglySorted R l -> StronglySorted R (filter p l).
Proof.
  induction 1 as [|x l H IH Hx]; [constructor|]. cbn [filter]. destruct (p x); [|exact IH]. constructor; [exact IH|].
  apply Forall_forall. intros y Hy. apply filter_In in Hy. rewrite Forall_forall in Hx. now apply Hx.
Qed.
Lemma sorted_map {A B} (R : A -> A -> Prop) (Q : B -> B -> Prop) f l : (forall x y, R x y -> Q (f x) (f y)) ->
  StronglySorted R l -> StronglySorted Q (map f l).
Proof.
  intros H. induction 1 as [|x l Hl IH Hx]; cbn [map]; constructor; [exact IH|]. apply Forall_forall. intros y Hy. apply in_map_iff in Hy.
  destruct Hy as (z & <- & Hz). rewrite Forall_forall in Hx. auto.
Qed.
Lemma music_sort l l' : stable_sort_of l l' -> stable_sort_of (music l) (music l').
Proof.
  intros (Hp & Hs & Hf). split; [apply Permutation_map, filter_perm; exact Hp|]. split.
  - apply sorted_map with (R := not_after); [|apply sorted_filter; exact Hs]. intros x y H. unfold not_after, undated in *. cbn [fst snd]. now rewrite !bare_rank.
  - intros k. rewrite !music_filter by (intros; apply same_place_undated). now rewrite Hf.
Qed.

(** ** The merge is a stable sort of the channels one after the other *)
Lemma merge_stable rs m : ordered_merge rs m -> Forall (StronglySorted not_after) rs -> stable_sort_of (concat rs) m.
Proof.
  intros H Hs. split; [symmetry; apply interleave_perm, ordered_interleave, H|]. split; [apply (ordered_merge_sorted rs m H Hs)|].
  intros k. revert Hs. induction H as [rs H|rs i x r rs' m Hi Hmin Hfirst Hset Hm IH]; intros Hs.
  - replace (concat rs) with (@nil tmsg); [reflexivity|]. induction H as [|? ? -> ? IH]; cbn; auto. apply IH. now inversion Hs.
  - assert (Hsr : StronglySorted not_after r).
    { rewrite Forall_forall in Hs. specialize (Hs (x :: r) (nth_error_In _ _ Hi)). now inversion Hs. }
    cbn [filter]. rewrite (IH (forall_set_nth _ _ _ _ _ Hs Hsr Hset)). clear IH Hm Hmin Hsr.
    revert i rs' Hi Hset Hfirst. induction rs as [|y rs IH]; intros [|i] rs' Hi Hset Hfirst; try discriminate; cbn in *.
    + injection Hi as ->. injection Hset as <-. cbn. destruct (same_place k x); reflexivity.
    + destruct (set_nth rs i r) as [q|] eqn:E; [|discriminate]. injection Hset as <-. cbn [concat]. rewrite !filter_app.
      inversion Hs as [|? ? Hy Hs']; subst. specialize (IH Hs' i q Hi E). rewrite <- IH.
      2:{ intros j y' q' Hj Hy'. apply (Hfirst (S j) y' q'); [lia|exact Hy']. }
      destruct (same_place k x) eqn:Ek; [|reflexivity].
      replace (filter (same_place k) y) with (@nil tmsg); [reflexivity|]. symmetry. destruct y as [|z y]; [reflexivity|].
      specialize (Hfirst 0%nat z y ltac:(lia) eq_refl). inversion Hy as [|? ? _ Hz]; subst. clear -Hfirst Hz Ek.
      assert (Hall : forall w, In w (z :: y) -> same_place k w = false).
      { intros w Hw. assert (Hzw : not_after z w). { destruct Hw as [<-|Hw]; [unfold not_after; right; lia|]. rewrite Forall_forall in Hz. auto. }
        unfold same_place, not_after in *. lia. }
      clear -Hall. induction (z :: y) as [|w l IH]; [reflexivity|]. cbn [filter]. rewrite (Hall w (or_introl eq_refl)). apply IH. intros v Hv. apply Hall. now right.
Qed.
Lemma music_merge rs1 rs2 m1 m2 : ordered_merge rs1 m1 -> ordered_merge rs2 m2 -> Forall (StronglySorted not_after) rs1 ->
  Forall (StronglySorted not_after) rs2 -> map music rs1 = map music rs2 -> music m1 = music m2.
Proof.
  intros H1 H2 S1 S2 E. apply merge_stable in H1; [|exact S1]. apply merge_stable in H2; [|exact S2].
  apply music_sort in H1. apply music_sort in H2. rewrite music_concat in H1, H2. rewrite E in H1.
  rewrite (stable_sort_is _ _ H1), (stable_sort_is _ _ H2). reflexivity.
Qed.

(** ** The intervals *)
Definition isim (s1 s2 : istate) : Prop :=
  is_intervals s1 = is_intervals s2 /\ is_last_end s1 = is_last_end s2 /\ is_active s1 = is_active s2.
Lemma interval_music b i ch : forall s1 s2, isim s1 s2 -> orel isim (ofold (interval_step b i) ch s1) (ofold (interval_step b i) (music ch) s2).
Proof.
  induction ch as [|[m t] ch IH]; intros s1 s2 H; [exact H|]. change ((m, t) :: ch) with ([(m, t)] ++ ch). rewrite music_app.
  destruct H as (E1 & E2 & E3).
  assert (Hn : matters (m, t) = false -> orel isim (ofold (interval_step b i) ([(m, t)] ++ ch) s1) (ofold (interval_step b i) (music [(m, t)] ++ music ch) s2)).
  { intros Hm. pose proof (music_none _ Hm) as Em. match goal with |- orel _ _ (ofold _ (?a ++ _) _) => replace a with (@nil tmsg) by (symmetry; exact Em) end. cbn [app ofold]. unfold matters in Hm. cbn [fst] in Hm.
    assert (Hs : exists s1', interval_step b i s1 (m, t) = Ok s1' /\ isim s1' s2).
    { destruct m as [? [] ?|? []| |]; try discriminate; cbn [interval_step]; (eexists; split; [reflexivity|]); repeat split; assumption. }
    destruct Hs as (s1' & -> & Hs). cbn [bind]. now apply IH. }
  destruct (matters (m, t)) eqn:Em; [clear Hn|now apply Hn].
  unfold music at 1. cbn [filter]. rewrite Em. cbn [map app ofold]. unfold undated. cbn [fst snd]. apply orel_bind with (R := isim); [|intros; now apply IH].
  destruct m as [? [] ?|? []| |]; try discriminate; cbn [bare interval_step]; try (repeat split; assumption);
    rewrite E3; (apply orel_bind with (R := eq); [apply orel_refl|]); intros a b0 ->; unfold isim, push_interval; cbn [orel is_intervals is_last_end is_active];
    rewrite E1, E2, E3; auto.
Qed.
Lemma isim_refl_max mx1 mx2 : isim (mk_istate [] 0 0 mx1) (mk_istate [] 0 0 mx2).
Proof. repeat split. Qed.
Lemma isim_sym s1 s2 : isim s1 s2 -> isim s2 s1.
Proof. intros (? & ? & ?). repeat split; congruence. Qed.
Lemma orel_sym {A B} (R : A -> B -> Prop) (Q : B -> A -> Prop) x y : (forall a b, R a b -> Q b a) -> orel R x y -> orel Q y x.
Proof. destruct x, y; cbn; try tauto; auto. Qed.
Lemma intervals_music b chs1 : forall chs2 i mx1 mx2, map music chs1 = map music chs2 ->
  orel (fun r1 r2 => fst r1 = fst r2) (all_intervals b chs1 i mx1) (all_intervals b chs2 i mx2).
Proof.
  induction chs1 as [|c1 chs1 IH]; intros [|c2 chs2] i mx1 mx2 H; try discriminate; cbn [all_intervals]; [reflexivity|].
  assert (E1 : music c1 = music c2) by (cbn [map] in H; congruence). assert (E2 : map music chs1 = map music chs2) by (cbn [map] in H; congruence).
  apply orel_bind with (R := isim).
  - eapply orel_trans; [|apply (interval_music b i c1 _ (mk_istate [] 0 0 mx2)), isim_refl_max|eapply orel_sym; [apply isim_sym|]].
    2:{ rewrite E1. apply (interval_music b i c2 (mk_istate [] 0 0 mx2) (mk_istate [] 0 0 mx2)). repeat split. }
    intros a b0 c (? & ? & ?) (? & ? & ?). repeat split; congruence.
  - intros s1 s2 (E & _). apply orel_bind with (R := fun r1 r2 => fst r1 = fst r2); [now apply IH|]. intros r1 r2 Er. cbn [orel fst]. now rewrite E, Er.
Qed.

(** ** One message on its way to the voices *)
Definition bsame (o1 o2 : option message) : Prop := option_map bare o1 = option_map bare o2.
Definition silent_opt (o : option message) : Prop := forall m t, o = Some m -> matters (m, t) = false.
Definition vsame (l1 l2 : list tmsg) : Prop := music l1 = music l2.
Record sim (s1 s2 : vstate) : Prop := mk_sim {
  sm_voices : Forall2 vsame (v_voices s1) (v_voices s2);
  sm_ctrl : Forall2 bsame (v_ctrl s1) (v_ctrl s2);
  sm_prog : Forall2 bsame (v_prog s1) (v_prog s2);
  sm_pitch : length (v_pitch s1) = length (v_pitch s2);
  sm_pitch1 : Forall silent_opt (v_pitch s1);
  sm_pitch2 : Forall silent_opt (v_pitch s2);
  sm_chan : v_chan s1 = v_chan s2;
  sm_active : v_active s1 = v_active s2;
  sm_perc : v_perc s1 = v_perc s2
}.
Lemma forall2_nth_error {A B} (R : A -> B -> Prop) l1 l2 : Forall2 R l1 l2 -> forall i, orel R (or_panic PIndex (nth_error l1 i)) (or_panic PIndex (nth_error l2 i)).
Proof. induction 1; intros [|i]; cbn; auto. Qed.
Lemma forall2_nth_unwrap {A B} (R : A -> B -> Prop) l1 l2 : Forall2 R l1 l2 -> forall i, orel R (or_panic PUnwrap (nth_error l1 i)) (or_panic PUnwrap (nth_error l2 i)).
Proof. induction 1; intros [|i]; cbn; auto. Qed.
Lemma forall2_set {A B} (R : A -> B -> Prop) x y : R x y -> forall l1 l2, Forall2 R l1 l2 -> forall i,
  orel (Forall2 R) (or_panic PIndex (set_nth l1 i x)) (or_panic PIndex (set_nth l2 i y)).
Proof.
  intros Hxy. induction 1 as [|a b l1 l2 Hab H IH]; intros [|i]; cbn [set_nth or_panic orel]; auto.
  specialize (IH i). destruct (set_nth l1 i x), (set_nth l2 i y); cbn in *; auto; discriminate.
Qed.
Lemma push_same vs1 vs2 i l1 l2 : Forall2 vsame vs1 vs2 -> vsame [l1] [l2] -> orel (Forall2 vsame) (push_at vs1 i l1) (push_at vs2 i l2).
Proof.
  intros H Hx. unfold push_at. pose proof (forall2_nth_error _ _ _ H i) as Hn. destruct (nth_error vs1 i), (nth_error vs2 i); cbn [or_panic orel] in Hn; try contradiction; [|reflexivity].
  apply forall2_set; [|exact H]. unfold vsame in *. rewrite !music_app. congruence.
Qed.
Lemma push_all_same t1 : forall vs1 vs2 l1 l2, Forall2 vsame vs1 vs2 -> vsame [l1] [l2] -> orel (Forall2 vsame) (push_voices vs1 t1 l1) (push_voices vs2 t1 l2).
Proof.
  unfold push_voices. induction t1 as [|v t IH]; intros vs1 vs2 l1 l2 H Hx; cbn [ofold]; [exact H|].
  apply orel_bind with (R := Forall2 vsame); [now apply push_same|]. intros; now apply IH.
Qed.
Lemma push_channel_same s1 s2 base ch x1 x2 : sim s1 s2 -> vsame [x1] [x2] ->
  orel (Forall2 vsame) (push_channel_event s1 base ch same x1) (push_channel_event s2 base ch same x2).
Proof.
  intros H Hx. unfold push_channel_event. rewrite (sm_active _ _ H). apply orel_bind with (R := eq); [apply orel_refl|]. intros n ? <-.
  apply orel_bind with (R := eq); [apply orel_refl|]. intros bv ? <-.
  apply orel_bind with (R := Forall2 vsame); [apply push_all_same; [apply H|exact Hx]|]. intros a b Hab.
  destruct (existsb _ _); [exact Hab|]. now apply push_same.
Qed.
Lemma forall2_len {A B} (R : A -> B -> Prop) l1 l2 : Forall2 R l1 l2 -> length l1 = length l2.
Proof. induction 1; cbn; congruence. Qed.
Lemma push_list_same voice l1 : forall l2 vs1 vs2, Forall2 vsame vs1 vs2 -> (voice < length vs1)%nat -> vsame l1 l2 ->
  orel (Forall2 vsame) (ofold (fun vs x => push_at vs voice x) l1 vs1) (ofold (fun vs x => push_at vs voice x) l2 vs2).
Proof.
  intros l2 vs1 vs2 H Hv Hl. pose proof (forall2_len _ _ _ H) as HL.
  destruct (push_list voice l1 vs1 Hv) as (r1 & E1 & HL1 & Hr1). destruct (push_list voice l2 vs2) as (r2 & E2 & HL2 & Hr2); [lia|].
  rewrite E1, E2. cbn [orel]. clear E1 E2.
  assert (Hn : forall v, vsame (nth v r1 []) (nth v r2 [])).
  { intros v. rewrite Hr1, Hr2. assert (Hv0 : vsame (nth v vs1 []) (nth v vs2 [])).
    { clear -H. revert v. induction H; intros [|v]; cbn; try reflexivity; auto. }
    destruct (Nat.eqb v voice); unfold vsame in *; rewrite ?music_app; congruence. }
  assert (HL' : length r1 = length r2) by congruence. clear -Hn HL'. revert r2 HL' Hn. induction r1 as [|a r1 IH]; intros [|b r2] HL Hn; try discriminate; constructor.
  - apply (Hn 0%nat).
  - apply IH; [now injection HL|]. intros v. apply (Hn (S v)).
Qed.

Lemma vsame_one m1 m2 t : bare m1 = bare m2 -> vsame [(m1, t)] [(m2, t)].
Proof. apply music_one. Qed.
Lemma sim_active s1 s2 a vs1 vs2 : sim s1 s2 -> Forall2 vsame vs1 vs2 -> sim (set_voices (set_active s1 a) vs1) (set_voices (set_active s2 a) vs2).
Proof. intros [] H. constructor; cbn; auto. Qed.
Lemma note_off_same s1 s2 m1 m2 t d1 d2 c k vel : sim s1 s2 -> bare m1 = bare m2 ->
  orel sim (v_note_off s1 (m1, t) d1 c k vel) (v_note_off s2 (m2, t) d2 c k vel).
Proof.
  intros H Hm. unfold v_note_off. rewrite (sm_active _ _ H). apply orel_bind with (R := eq); [apply orel_refl|]. intros n ? <-.
  destruct (notes_get n k) as [voice|]; [|exact H]. apply orel_bind with (R := eq); [apply orel_refl|]. intros a ? <-.
  apply orel_bind with (R := Forall2 vsame).
  - apply push_same; [apply H|]. cbn [snd]. destruct (c =? 9); apply vsame_one; [reflexivity|exact Hm].
  - intros vs1 vs2 Hvs. cbn [orel]. now apply sim_active.
Qed.
Lemma retrigger_same s1 s2 t d1 d2 c k vel : sim s1 s2 ->
  orel (fun s1' s2' => sim s1' s2' /\ length (v_voices s1') = length (v_voices s1)) (v_retrigger s1 d1 c k vel t) (v_retrigger s2 d2 c k vel t).
Proof.
  intros H. unfold v_retrigger. rewrite (sm_active _ _ H). apply orel_bind with (R := eq); [apply orel_refl|]. intros n ? <-.
  destruct (notes_get n k) as [voice|]; [|split; [exact H|reflexivity]]. apply orel_bind with (R := eq); [apply orel_refl|]. intros a ? <-.
  assert (Hp : orel (Forall2 vsame) (push_at (v_voices s1) voice (MidiEvent d1 (NoteOff c k vel), t)) (push_at (v_voices s2) voice (MidiEvent d2 (NoteOff c k vel), t))).
  { apply push_same; [apply H|]. now apply vsame_one. }
  destruct (push_at (v_voices s1) voice _) as [vs1| | |] eqn:E1; destruct (push_at (v_voices s2) voice _) as [vs2| | |]; cbn [orel bind] in *; try contradiction; auto.
  split; [now apply sim_active|]. cbn. apply push_at_ok in E1. apply E1.
Qed.
Lemma opt_same o1 o2 t : bsame o1 o2 -> vsame (opt_msg o1 t) (opt_msg o2 t).
Proof. unfold bsame. destruct o1, o2; cbn; intros H; try discriminate; [|reflexivity]. apply vsame_one. congruence. Qed.
Lemma opt_silent o t : silent_opt o -> music (opt_msg o t) = [].
Proof. intros H. destruct o as [m|]; [|reflexivity]. apply music_none. now apply H. Qed.
Lemma refresh_same s1 s2 c voice t : sim s1 s2 ->
  orel (fun r1 r2 => vsame (fst r1) (fst r2) /\ snd r1 = snd r2) (refresh s1 c voice t) (refresh s2 c voice t).
Proof.
  intros H. unfold refresh. rewrite (sm_chan _ _ H). apply orel_bind with (R := eq); [apply orel_refl|]. intros lc ? <-.
  destruct (Nat.eqb c (oelse lc 0xff%nat)); [split; reflexivity|].
  apply orel_bind with (R := bsame); [apply forall2_nth_unwrap, H|]. intros c1 c2 Hc.
  apply orel_bind with (R := bsame); [apply forall2_nth_unwrap, H|]. intros p1 p2 Hp.
  apply orel_bind with (R := fun w1 w2 => silent_opt w1 /\ silent_opt w2).
  { apply forall2_nth_unwrap. pose proof (sm_pitch _ _ H) as HL. pose proof (sm_pitch1 _ _ H) as H1. pose proof (sm_pitch2 _ _ H) as H2. clear -HL H1 H2.
    revert HL H2. generalize (v_pitch s2). induction H1; intros [|? ?] HL H2; try discriminate; constructor; inversion H2; subst; auto. }
  intros w1 w2 [Hw1 Hw2]. apply orel_bind with (R := eq); [apply orel_refl|]. intros vc ? <-. cbn [orel fst snd]. split; [|reflexivity].
  unfold vsame. rewrite !music_app, (opt_silent w1), (opt_silent w2) by assumption. rewrite (opt_same _ _ t Hc), (opt_same _ _ t Hp). reflexivity.
Qed.
Lemma note_messages_same s1 s2 m1 m2 t d1 d2 c k vel : sim s1 s2 -> bare m1 = bare m2 ->
  orel (fun q1 q2 => vsame (fst (fst q1)) (fst (fst q2)) /\ Forall2 bsame (snd (fst q1)) (snd (fst q2)) /\ snd q1 = snd q2)
    (note_messages s1 (m1, t) d1 c k vel) (note_messages s2 (m2, t) d2 c k vel).
Proof.
  intros H Hm. unfold note_messages. cbn [snd]. rewrite (sm_perc _ _ H). destruct (c =? 9).
  - destruct (v_perc s2 =? _); [cbn [orel fst snd]; split; [now apply vsame_one|]; split; [apply H|reflexivity]|].
    apply orel_bind with (R := Forall2 bsame); [apply forall2_set; [reflexivity|apply H]|]. intros vp1 vp2 Hvp. cbn [orel fst snd].
    split; [|split; [exact Hvp|reflexivity]]. reflexivity.
  - cbn [orel fst snd]. split; [now apply vsame_one|]. split; [apply H|reflexivity].
Qed.
Lemma note_on_same base s1 s2 m1 m2 t d1 d2 c k vel : base_ok base -> length (v_voices s1) = 8%nat -> sim s1 s2 -> bare m1 = bare m2 ->
  orel sim (v_note_on s1 base (m1, t) d1 c k vel) (v_note_on s2 base (m2, t) d2 c k vel).
Proof.
  intros [HbL HbF] HL H Hm. unfold v_note_on. cbn [snd].
  eapply orel_bind; [apply retrigger_same; exact H|]. cbn beta. intros s1' s2' [H' HL']. clear H. rename H' into H. rewrite HL in HL'. clear HL.
  destruct (0 <? vel); [|exact H].
  destruct (nth_error base (Z.to_nat c)) as [bv|] eqn:Ebv; [|reflexivity]. cbn [or_panic bind].
  assert (Hbv : (bv < 8)%nat) by (rewrite Forall_forall in HbF; apply HbF; eapply nth_error_In; eauto).
  rewrite (sm_active _ _ H). destruct (choose_voice base bv (v_active s2')) as [voice|] eqn:Ec; [|reflexivity].
  assert (Hvoice : (voice < 8)%nat).
  { unfold choose_voice in Ec. destruct (voice_active _ _); [|congruence]. apply find_some in Ec. destruct Ec as [Ec _]. apply in_seq in Ec. lia. }
  apply orel_bind with (R := eq); [apply orel_refl|]. intros n ? <-. apply orel_bind with (R := eq); [apply orel_refl|]. intros a ? <-.
  eapply orel_bind; [apply (refresh_same _ _ _ _ _ H)|]. intros [pre1 vc1] [pre2 vc2] [Hpre Hvc]. cbn [fst snd] in Hpre, Hvc. subst vc2.
  eapply orel_bind; [apply (note_messages_same _ _ m1 m2 t d1 d2 c k vel H Hm)|]. intros [[nm1 vp1] pe1] [[nm2 vp2] pe2] (Hnm & Hvp & Hpe). cbn [fst snd] in Hnm, Hvp, Hpe. subst pe2.
  apply orel_bind with (R := Forall2 vsame).
  - apply push_list_same; [apply H|lia|]. unfold vsame in *. rewrite !music_app. congruence.
  - intros vs1 vs2 Hvs. cbn [orel]. destruct H. constructor; cbn; auto.
Qed.
Lemma step_same base s1 s2 m1 m2 t : base_ok base -> length (v_voices s1) = 8%nat -> sim s1 s2 -> bare m1 = bare m2 -> matters (m1, t) = true ->
  orel sim (vstep base s1 (m1, t)) (vstep base s2 (m2, t)).
Proof.
  intros Hb HL H Hm Hmat. unfold vstep, voice_step. cbn [fst].
  destruct m1 as [d1 [] data|d1 e| |]; try discriminate; destruct m2 as [d2 [] data2|d2 e2| |]; cbn [bare] in Hm; try discriminate.
  - assert (data2 = data) by congruence. subst data2. apply orel_bind with (R := Forall2 vsame); [apply push_same; [apply H|now apply vsame_one]|].
    intros vs1 vs2 Hvs. cbn [orel]. destruct H. constructor; cbn; auto.
  - assert (e2 = e) by congruence. subst e2. assert (Hv : vsame [(MidiEvent d1 e, t)] [(MidiEvent d2 e, t)]) by now apply vsame_one.
    destruct e; try discriminate.
    + now apply note_off_same.
    + now apply note_on_same.
    + eapply orel_bind; [apply push_channel_same; [exact H|exact Hv]|]. intros vs1 vs2 Hvs.
      apply orel_bind with (R := Forall2 bsame).
      * destruct (control =? 7); [|apply H]. apply forall2_set; [reflexivity|apply H].
      * intros c1 c2 Hc. cbn [orel]. destruct H. constructor; cbn; auto.
    + eapply orel_bind; [apply push_channel_same; [exact H|exact Hv]|]. intros vs1 vs2 Hvs.
      apply orel_bind with (R := Forall2 bsame); [apply forall2_set; [reflexivity|apply H]|].
      intros c1 c2 Hc. cbn [orel]. destruct H. constructor; cbn; auto.
Qed.
(** An ignored message changes nothing that matters. *)
Lemma ignored_step base s1 s2 m t : vinv s1 -> base_ok base -> channel_ok m -> sim s1 s2 -> matters (m, t) = false ->
  exists s1', vstep base s1 (m, t) = Ok s1' /\ vinv s1' /\ sim s1' s2.
Proof.
  intros Hi Hb Hc H Hm. destruct (step_result base s1 m t Hi Hb Hc) as [(s1' & E & Hi' & px & Hv & Hs)|(_ & d & c & k & vel & -> & _)]; [|discriminate].
  exists s1'. split; [exact E|]. split; [exact Hi'|].
  assert (Hpx : (forall v, px v = [] \/ px v = [(m, t)]) -> Forall2 vsame (v_voices s1') (v_voices s2)).
  { intros Hp. assert (Hn : forall v, vsame (nth v (v_voices s1') []) (nth v (v_voices s2) [])).
    { intros v. change (vsame (vv s1' v) (nth v (v_voices s2) [])). rewrite Hv. unfold vsame. rewrite music_app.
      assert (Ev : music (vv s1 v) = music (nth v (v_voices s2) [])).
      { pose proof (sm_voices _ _ H) as Hvs. unfold vv. change (vsame (nth v (v_voices s1) []) (nth v (v_voices s2) [])). clear -Hvs. revert v. induction Hvs; intros [|v]; cbn; try reflexivity; auto. }
      rewrite Ev. destruct (Hp v) as [->| ->]; [rewrite app_nil_r; reflexivity|]. pose proof (music_none _ Hm) as En. match goal with |- _ ++ ?a = _ => replace a with (@nil tmsg) by (symmetry; exact En) end. apply app_nil_r. }
    pose proof (forall2_len _ _ _ (sm_voices _ _ H)) as HL. rewrite (vi_voices _ Hi) in HL. pose proof (vi_voices _ Hi') as HL'. rewrite HL in HL'. clear -Hn HL'.
    revert Hn HL'. generalize (v_voices s1'), (v_voices s2). induction l as [|a l IH]; intros [|b l2] Hn HL; try discriminate; constructor.
    - apply (Hn 0%nat).
    - apply IH; [|now injection HL]. intros v. apply (Hn (S v)). }
  destruct H as [H1 H2 H3 H4 H5 H6 H7 H8 H9]. unfold matters in Hm. cbn [fst] in Hm.
  destruct m as [d [] data|d e|d e data|]; try discriminate.
  - destruct Hs as (A1 & A2 & A3 & A4 & A5 & A6 & A7). constructor; rewrite ?A1, ?A2, ?A3, ?A5, ?A6, ?A7; auto.
  - destruct e; try discriminate.
    + destruct Hs as (A1 & A2 & A3 & A4 & A5 & A6 & A7). constructor; rewrite ?A1, ?A2, ?A3, ?A5, ?A6, ?A7; auto.
    + destruct Hs as (A1 & A2 & A3 & A4 & A5 & A6 & A7).
      assert (Ec : v_ctrl s1' = v_ctrl s1).
      { unfold vstep, voice_step in E. cbn [fst] in E. inv_bind E. replace (control =? 7) with false in E by lia. cbn [bind] in E. injection E as <-. reflexivity. }
      constructor; rewrite ?A1, ?A2, ?A3, ?A5, ?A6, ?Ec; auto. apply Hpx. intros v. rewrite A4. destruct (hears s1 base ch v); auto.
    + destruct Hs as (A1 & A2 & A3 & A4 & A5 & A6 & A7). constructor; rewrite ?A1, ?A2, ?A3, ?A5, ?A6, ?A7; auto.
    + destruct Hs as (A1 & A2 & A3 & A4 & A5 & A6 & A7). constructor; rewrite ?A1, ?A2, ?A3, ?A5, ?A6; auto.
      * apply Hpx. intros v. rewrite A4. destruct (hears s1 base ch v); auto.
      * rewrite (set_nth_length _ _ _ _ A7). exact H4.
      * eapply forall_set_nth'; [exact H5| |exact A7]. intros m' t' Em. injection Em as <-. reflexivity.
    + destruct Hs as (A1 & A2 & A3 & A4 & A5 & A6 & A7). constructor; rewrite ?A1, ?A2, ?A3, ?A5, ?A6, ?A7; auto.
  - destruct Hs as (A1 & A2 & A3 & A4 & A5 & A6 & A7). constructor; rewrite ?A1, ?A2, ?A3, ?A5, ?A6, ?A7; auto.
  - destruct Hs as (A1 & A2 & A3 & A4 & A5 & A6 & A7). constructor; rewrite ?A1, ?A2, ?A3, ?A5, ?A6, ?A7; auto.
Qed.
Lemma run_same base l : base_ok base -> forall s1 s2, vinv s1 -> Forall (fun x => channel_ok (fst x)) l -> sim s1 s2 ->
  orel sim (ofold (vstep base) l s1) (ofold (vstep base) (music l) s2).
Proof.
  intros Hb. induction l as [|[m t] l IH]; intros s1 s2 Hi Hl H; [exact H|]. inversion Hl as [|? ? Hm Hl']; subst. cbn [fst] in Hm. cbn [ofold].
  destruct (matters (m, t)) eqn:Em.
  - replace (music ((m, t) :: l)) with ((bare m, t) :: music l).
    2:{ unfold music. cbn [filter]. rewrite Em. reflexivity. }
    cbn [ofold].
    pose proof (step_same base s1 s2 m (bare m) t Hb (vi_voices _ Hi) H) as Hst. specialize (Hst ltac:(destruct m; reflexivity) Em).
    destruct (step_result base s1 m t Hi Hb Hm) as [(s1' & E & Hi' & _)|(E & _)]; rewrite E in *; destruct (vstep base s2 (bare m, t)); cbn [orel bind] in *; try contradiction; auto.
  - replace (music ((m, t) :: l)) with (music l) by (unfold music; cbn [filter]; now rewrite Em).
    destruct (ignored_step base s1 s2 m t Hi Hb Hm H Em) as (s1' & -> & Hi' & H'). cbn [bind]. now apply IH.
Qed.
Lemma sim_refl base : sim (vstate0 base) (vstate0 base).
Proof.
  assert (Hs : Forall silent_opt (repeat None 16)) by (repeat constructor; intros ? ? E; discriminate).
  constructor; cbn [vstate0 v_voices v_ctrl v_prog v_pitch v_chan v_active v_perc]; try reflexivity; try exact Hs; repeat constructor.
Qed.
Lemma voices_same chs1 chs2 base o1 o2 : base_ok base -> channels_ok chs1 -> channels_ok chs2 -> map music chs1 = map music chs2 ->
  (forall k, permutes (o1 k)) -> (forall k, permutes (o2 k)) ->
  orel (Forall2 vsame) (channels_to_voices chs1 base o1) (channels_to_voices chs2 base o2).
Proof.
  intros Hb H1 H2 E P1 P2. destruct (channels_merge chs1 H1) as (m1 & M1 & _ & T1 & _ & R1). destruct (channels_merge chs2 H2) as (m2 & M2 & _ & T2 & _ & R2).
  rewrite R1, R2 by assumption. assert (Em : music m1 = music m2) by (eapply music_merge; eauto; [apply H1|apply H2]).
  assert (Ht : forall m, Forall typed m -> Forall (fun x => channel_ok (fst x)) m) by (intros m Hm; eapply Forall_impl; [|exact Hm]; intros x (Hx & _); exact Hx).
  pose proof (run_same base m1 Hb _ _ (vinv0 base) (Ht _ T1) (sim_refl base)) as A1. pose proof (run_same base m2 Hb _ _ (vinv0 base) (Ht _ T2) (sim_refl base)) as A2.
  rewrite Em in A1. destruct (ofold (vstep base) m1 _), (ofold (vstep base) m2 _), (ofold (vstep base) (music m2) _); cbn [orel bind] in *; try contradiction; try congruence.
  pose proof (sm_voices _ _ A1) as V1. pose proof (sm_voices _ _ A2) as V2. clear -V1 V2. revert V2. generalize (v_voices a0). induction V1; intros l1 V2; inversion V2; subst; constructor; auto.
  unfold vsame in *. congruence.
Qed.

(** ** Conversion *)
Lemma music_cons x l : music (x :: l) = if matters x then undated x :: music l else music l.
Proof. unfold music. cbn [filter]. destruct (matters x); reflexivity. Qed.
Lemma track_music b tpb tf l : forall s, ofold (track_step b tpb tf) l s = ofold (track_step b tpb tf) (music l) s.
Proof.
  induction l as [|x l IH]; intros s; [reflexivity|]. rewrite music_cons. cbn [ofold]. destruct (matters x) eqn:Em.
  - cbn [ofold]. replace (track_step b tpb tf s (undated x)) with (track_step b tpb tf s x) by (destruct x as [[] t]; reflexivity).
    destruct (track_step b tpb tf s x); cbn [bind]; try reflexivity. apply IH.
  - replace (track_step b tpb tf s x) with (Ok s); [cbn [bind]; apply IH|]. destruct x as [m t].
    unfold matters in Em. cbn [fst] in Em. destruct m as [? [] ?|? []| |]; try discriminate; try reflexivity. cbn [track_step]. unfold on_control_change.
    replace (control =? 5) with false by lia. replace (control =? 7) with false by lia. replace (control =? 37) with false by lia. replace (control =? 65) with false by lia. reflexivity.
Qed.
Lemma convert_same b tpb mx tf vs1 : forall vs2, Forall2 vsame vs1 vs2 -> convert_voices b vs1 tpb mx tf = convert_voices b vs2 tpb mx tf.
Proof.
  induction 1 as [|v1 v2 vs1 vs2 Hv H IH]; [reflexivity|]. cbn [convert_voices].
  replace (track_new b v1 tpb mx tf) with (track_new b v2 tpb mx tf).
  2:{ unfold track_new. rewrite (track_music b tpb tf v1), (track_music b tpb tf v2). rewrite Hv. reflexivity. }
  rewrite IH. reflexivity.
Qed.

(** ** Files *)
Lemma file_end_unique ts t t' : file_end ts t -> file_end ts t' -> t = t'.
Proof.
  intros [H1 H2] [H3 H4]. rewrite Forall_forall in H1, H3. destruct H2 as [H2|[E ->]], H4 as [H4|[E' ->]]; try (rewrite E in *; destruct H4); try (rewrite E' in *; destruct H2); [|reflexivity].
  specialize (H1 _ H4). specialize (H3 _ H2). lia.
Qed.
Lemma map_nth16 {A} (f : list tmsg -> A) l1 l2 : length l1 = 16%nat -> length l2 = 16%nat -> (forall c, (c < 16)%nat -> f (nth c l1 []) = f (nth c l2 [])) -> map f l1 = map f l2.
Proof.
  intros H1 H2 H. assert (HL : length l1 = length l2) by congruence. rewrite <- H1 in H. clear H1 H2.
  revert l2 HL H. induction l1 as [|a l1 IH]; intros [|b l2] HL H; try discriminate; [reflexivity|]. cbn [map]. f_equal.
  - apply (H 0%nat). cbn. lia.
  - apply IH; [now injection HL|]. intros c Hc. apply (H (S c)). cbn. lia.
Qed.
Definition hsame (h1 h2 : handler) : Prop :=
  Forall2 vsame (h_voices h1) (h_voices h2) /\ h_ticks_per_beat h1 = h_ticks_per_beat h2 /\ h_max_time h1 = h_max_time h2.
Lemma read_same b cbs1 cbs2 o1 o2 : accepted cbs1 -> accepted cbs2 -> same_music cbs1 cbs2 ->
  (forall k, permutes (o1 k)) -> (forall k, permutes (o2 k)) ->
  orel hsame (midi_read b cbs1 true o1) (midi_read b cbs2 true o2).
Proof.
  intros (F1 & T1 & K1) (F2 & T2 & K2) (Hb & He & Hm) P1 P2. unfold midi_read.
  destruct (callbacks_ok cbs1 0 F1) as [tpb1 E1]. destruct (callbacks_ok cbs2 0 F2) as [tpb2 E2]. rewrite E1, E2. cbn [bind r_tracks r_tpb].
  pose proof (callbacks_ticks _ _ _ E1) as B1. pose proof (callbacks_ticks _ _ _ E2) as B2. cbn [r_tpb] in B1, B2.
  change (tpb1 = beat_ticks cbs1) in B1. change (tpb2 = beat_ticks cbs2) in B2. assert (Etpb : tpb1 = tpb2) by congruence. clear E1 E2 B1 B2.
  destruct (merge_ok b _ K1) as (chs1 & C1 & L1 & S1). destruct (merge_ok b _ K2) as (chs2 & C2 & L2 & S2). rewrite C1, C2. cbn [bind].
  pose proof (channels_ok_read _ _ _ (tracks_typed _ T1) C1) as O1. pose proof (channels_ok_read _ _ _ (tracks_typed _ T2) C2) as O2.
  assert (Emus : map music chs1 = map music chs2).
  { apply map_nth16; [exact L1|exact L2|]. intros c Hc. now apply (Hm c). }
  pose proof (intervals_music b chs1 chs2 0 0 0 Emus) as Hiv.
  destruct (all_intervals b chs1 0 0) as [[iv1 mx1]| | |] eqn:I1; destruct (all_intervals b chs2 0 0) as [[iv2 mx2]| | |] eqn:I2; cbn [orel bind fst snd] in *; try contradiction; auto.
  subst iv2. assert (Emx : mx1 = mx2).
  { apply (file_end_unique (tracks_of cbs2)); [apply (He mx1)|]; [exact (intervals_file_end b _ chs1 mx1 iv1 L1 S1 K1 I1)|exact (intervals_file_end b _ chs2 mx2 iv1 L2 S2 K2 I2)]. }
  destruct (find_base_voices iv1 (repeat [] 8)) as [base|] eqn:Eb; [|reflexivity].
  assert (Hbo : base_ok base).
  { eapply base_ok_found; [|exact Eb]. apply all_intervals_length in I1. cbn [fst] in I1. rewrite I1. exact L1. }
  apply orel_bind with (R := Forall2 vsame); [now apply voices_same|]. intros v1 v2 Hv. cbn [orel]. repeat split; assumption.
Qed.
Lemma song_same b w1 w2 o1 o2 opt p1 p2 tf cbs1 cbs2 :
  midi_file w1 p1 = (cbs1, true) -> midi_file w2 p2 = (cbs2, true) -> accepted cbs1 -> accepted cbs2 ->
  (forall k, permutes (o1 k)) -> (forall k, permutes (o2 k)) -> same_music cbs1 cbs2 ->
  song_from_midi_file b w1 o1 opt p1 tf = song_from_midi_file b w2 o2 opt p2 tf.
Proof.
  intros W1 W2 A1 A2 P1 P2 H. unfold song_from_midi_file. rewrite W1, W2. apply orel_eq.
  eapply orel_bind; [apply (read_same b cbs1 cbs2 o1 o2); assumption|]. intros h1 h2 (Hv & Ht & Hx).
  unfold song_from_midi. rewrite Ht, Hx, (convert_same _ _ _ _ _ _ Hv). apply orel_refl.
Qed.

(** ** Dropping ignored events, and the order of tracks *)
Lemma for_undated c x : for_channel c (undated x) = for_channel c x.
Proof. destruct x as [m t]. apply bare_for. Qed.
Lemma music_flat ts : music (flat_map (timed 0) ts) = flat_map (fun t => music (timed 0 t)) ts.
Proof. induction ts as [|t ts IH]; [reflexivity|]. cbn [flat_map]. now rewrite music_app, IH. Qed.
Lemma music_file ts c : music (file_order ts c) = filter (for_channel c) (flat_map (fun t => music (timed 0 t)) ts).
Proof. unfold file_order. rewrite <- music_filter by (intros; apply for_undated). now rewrite music_flat. Qed.
Lemma sorted_music ts1 ts2 c l1 l2 : stable_sort_of (file_order ts1 c) l1 -> stable_sort_of (file_order ts2 c) l2 ->
  music (file_order ts1 c) = music (file_order ts2 c) -> music l1 = music l2.
Proof.
  intros H1 H2 E. apply music_sort in H1. apply music_sort in H2. rewrite E in H1. now rewrite (stable_sort_is _ _ H1), (stable_sort_is _ _ H2).
Qed.
Lemma ignored_same b w1 w2 o1 o2 opt p1 p2 tf cbs1 cbs2 :
  midi_file w1 p1 = (cbs1, true) -> midi_file w2 p2 = (cbs2, true) -> accepted cbs1 -> accepted cbs2 ->
  (forall k, permutes (o1 k)) -> (forall k, permutes (o2 k)) ->
  beat_ticks cbs1 = beat_ticks cbs2 -> (forall t, file_end (tracks_of cbs1) t <-> file_end (tracks_of cbs2) t) ->
  Forall2 (fun t1 t2 => music (timed 0 t1) = music (timed 0 t2)) (tracks_of cbs1) (tracks_of cbs2) ->
  song_from_midi_file b w1 o1 opt p1 tf = song_from_midi_file b w2 o2 opt p2 tf.
Proof.
  intros W1 W2 A1 A2 P1 P2 Hb He Ht. apply (song_same b w1 w2 o1 o2 opt p1 p2 tf cbs1 cbs2); try assumption. split; [exact Hb|]. split; [exact He|].
  intros c l1 l2 _ H1 H2. apply (sorted_music _ _ c _ _ H1 H2). rewrite !music_file. f_equal.
  clear -Ht. induction Ht as [|t1 t2 ts1 ts2 E H IH]; [reflexivity|]. cbn [flat_map]. now rewrite E, IH.
Qed.
Lemma in_music x l : In x (music l) -> exists y, In y l /\ matters y = true /\ x = undated y.
Proof. intros H. apply in_map_iff in H. destruct H as (y & <- & Hy). apply filter_In in Hy. exists y. tauto. Qed.
Lemma addressee_bare m : addressee (bare m) = addressee m.
Proof. destruct m as [|? []| |]; reflexivity. Qed.
Lemma apart_music t1 t2 c k : tracks_apart t1 t2 ->
  filter (same_place k) (filter (for_channel c) (music (timed 0 t1))) = [] \/ filter (same_place k) (filter (for_channel c) (music (timed 0 t2))) = [].
Proof.
  intros H. destruct (filter (same_place k) (filter (for_channel c) (music (timed 0 t1)))) as [|x l1] eqn:E1; [auto|].
  destruct (filter (same_place k) (filter (for_channel c) (music (timed 0 t2)))) as [|y l2] eqn:E2; [auto|]. exfalso.
  assert (Hx : In x (filter (same_place k) (filter (for_channel c) (music (timed 0 t1))))) by (rewrite E1; now left).
  assert (Hy : In y (filter (same_place k) (filter (for_channel c) (music (timed 0 t2))))) by (rewrite E2; now left). clear E1 E2.
  apply filter_In in Hx. destruct Hx as [Hx Kx]. apply filter_In in Hx. destruct Hx as [Hx Cx]. apply in_music in Hx. destruct Hx as (x' & Ix & Mx & ->).
  apply filter_In in Hy. destruct Hy as [Hy Ky]. apply filter_In in Hy. destruct Hy as [Hy Cy]. apply in_music in Hy. destruct Hy as (y' & Iy & My & ->).
  specialize (H x' y' Ix Iy Mx My). rewrite same_place_undated in Kx, Ky. rewrite for_undated in Cx, Cy. unfold for_channel in Cx, Cy.
  destruct (addressee (fst x')) as [a1|]; [|discriminate]. destruct (addressee (fst y')) as [a2|]; [|discriminate].
  assert (Ea : a1 = a2) by lia. subst a2. specialize (H eq_refl). unfold same_place in *. lia.
Qed.
Lemma pairs_perm {A} (R : A -> A -> Prop) l l' : (forall x y, R x y -> R y x) -> Permutation l l' -> ForallOrdPairs R l -> ForallOrdPairs R l'.
Proof.
  intros Hsym. induction 1 as [|x l l' H IH|x y l|l l' l'' H1 IH1 H2 IH2]; intros HF; auto.
  - inversion HF as [|? ? Hx Hl]; subst. constructor; [|auto]. rewrite Forall_forall in *. intros z Hz. apply Hx. eapply Permutation_in; [symmetry; exact H|exact Hz].
  - inversion HF as [|? ? Hx Hl]; subst. inversion Hl as [|? ? Hy Hl']; subst. inversion Hx as [|? ? Hxy Hx']; subst.
    constructor; [constructor; [now apply Hsym|exact Hy]|]. constructor; assumption.
Qed.
Lemma apart_sym t1 t2 : tracks_apart t1 t2 -> tracks_apart t2 t1.
Proof. intros H x y Hx Hy Mx My E. specialize (H y x Hy Hx My Mx (eq_sym E)). unfold same_place in *. lia. Qed.
Lemma perm_places ts1 ts2 c k : Permutation ts1 ts2 -> ForallOrdPairs tracks_apart ts1 ->
  filter (same_place k) (filter (for_channel c) (flat_map (fun t => music (timed 0 t)) ts1)) =
  filter (same_place k) (filter (for_channel c) (flat_map (fun t => music (timed 0 t)) ts2)).
Proof.
  induction 1 as [|x l l' H IH|x y l|l l' l'' H1 IH1 H2 IH2]; intros HF; cbn [flat_map]; rewrite ?filter_app; auto.
  - inversion HF; subst. now rewrite IH.
  - inversion HF as [|? ? Hx Hl]; subst. inversion Hx as [|? ? Hxy _]; subst. rewrite !app_assoc. f_equal.
    destruct (apart_music y x c k Hxy) as [E|E]; rewrite E; now rewrite ?app_nil_r.
  - rewrite IH1 by exact HF. apply IH2. eapply pairs_perm; [intros; now apply apart_sym|exact H1|exact HF].
Qed.
Lemma order_same b w1 w2 o1 o2 opt p1 p2 tf cbs1 cbs2 :
  midi_file w1 p1 = (cbs1, true) -> midi_file w2 p2 = (cbs2, true) -> accepted cbs1 -> accepted cbs2 ->
  (forall k, permutes (o1 k)) -> (forall k, permutes (o2 k)) ->
  beat_ticks cbs1 = beat_ticks cbs2 -> Permutation (tracks_of cbs1) (tracks_of cbs2) -> ForallOrdPairs tracks_apart (tracks_of cbs1) ->
  song_from_midi_file b w1 o1 opt p1 tf = song_from_midi_file b w2 o2 opt p2 tf.
Proof.
  intros W1 W2 A1 A2 P1 P2 Hb Hp Ha. apply (song_same b w1 w2 o1 o2 opt p1 p2 tf cbs1 cbs2); try assumption. split; [exact Hb|].
  assert (Hflat : Permutation (flat_map (timed 0) (tracks_of cbs1)) (flat_map (timed 0) (tracks_of cbs2))) by now apply Permutation_flat_map.
  split.
  - intros t. assert (Hc : Permutation (channel_times (tracks_of cbs1)) (channel_times (tracks_of cbs2))) by (apply Permutation_map, filter_perm; exact Hflat).
    unfold file_end. split; intros [H1 H2]; (split; [eapply Permutation_Forall; [|exact H1]; (exact Hc || exact (Permutation_sym Hc))|]).
    + destruct H2 as [H2|[H2 H3]]; [left; eapply Permutation_in; eauto|right]. split; [|exact H3]. rewrite H2 in Hc. now apply Permutation_nil in Hc.
    + destruct H2 as [H2|[H2 H3]]; [left; eapply Permutation_in; [symmetry; exact Hc|exact H2]|right]. split; [|exact H3]. rewrite H2 in Hc. symmetry in Hc. now apply Permutation_nil in Hc.
  - intros c l1 l2 _ H1 H2. apply music_sort in H1. apply music_sort in H2. rewrite music_file in H1, H2.
    assert (H1' : stable_sort_of (filter (for_channel c) (flat_map (fun t => music (timed 0 t)) (tracks_of cbs2))) (music l1)).
    { destruct H1 as (Q1 & Q2 & Q3). split; [|split; [exact Q2|]].
      - rewrite <- Q1. apply filter_perm. symmetry. now apply Permutation_flat_map.
      - intros k. rewrite Q3. now apply perm_places. }
    now rewrite (stable_sort_is _ _ H1'), (stable_sort_is _ _ H2).
Qed.

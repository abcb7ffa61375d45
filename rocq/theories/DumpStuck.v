(** DumpStuck.v: the voices a failed merge leaves (C84). *)
From Coq Require Import ZArith List Bool Lia ZifyBool ZifyNat Permutation Sorted.
From Verif Require Import Base ProofLib Messages Midi MidiDump SpecMidi SpecNotes SpecVoices SpecDump.
From Verif Require Import MergeProofs LoopProofs VoiceProofs DistributeProofs ReadProofs ReadProofs2 TotalProofs BaseVoiceProofs DumpProofs.
Import ListNotations.
Open Scope Z_scope.

Lemma step_state_order base o s x : permutes o -> step_state base o s x = step_state base (fun n => n) s x.
Proof. intros Ho. unfold step_state. rewrite (voice_step_order base o s x Ho). reflexivity. Qed.
Fixpoint run_state (base : list nat) (m : list tmsg) (s : vstate) : outcome (bool * vstate) :=
  match m with
  | [] => Ok (true, s)
  | x :: r => let* q := step_state base (fun n => n) s x in if fst q then run_state base r (snd q) else Ok q
  end.
Lemma loop_state_merge : forall n chs idx rs,
  rs = rests chs idx -> length idx = length chs -> Forall2 (fun ch k => (k <= length ch)%nat) chs idx -> times_ok rs ->
  total rs = n ->
  exists m, ordered_merge rs m /\
    forall fuel base order s, (n < fuel)%nat -> (forall k, permutes (order k)) ->
      loop_state fuel chs base order idx (finished rs) s = run_state base m s.
Proof.
  induction n as [|n IH]; intros chs idx rs Hrs HL HF Ht Htot.
  - apply total_zero in Htot. exists []. split; [constructor; exact Htot|]. intros fuel base order s Hf _.
    apply finished_all in Htot. rewrite Htot.
    assert (HLr : length rs = length chs) by (subst rs; unfold rests; rewrite map_length, combine_length; lia).
    destruct fuel; cbn [loop_state]; rewrite HLr, Nat.ltb_irrefl; reflexivity.
  - assert (Hne : ~ Forall (fun r => r = []) rs).
    { intros H. apply total_nils in H. lia. }
    destruct (pick_spec rs Ht Hne) as (i & x & r & Hp & Hi & Hmin & Hfirst).
    assert (HLr : length rs = length chs) by (subst rs; unfold rests; rewrite map_length, combine_length; lia).
    apply nth_error_lt in Hi as Hlt.
    destruct (nth_error chs i) as [ch|] eqn:Ech; [|apply nth_error_None in Ech; lia].
    destruct (nth_error idx i) as [k|] eqn:Ek; [|apply nth_error_None in Ek; lia].
    pose proof (rests_nth _ _ _ _ _ Ech Ek) as Hr. rewrite <- Hrs, Hi in Hr. injection Hr as Hr.
    symmetry in Hr. destruct (skipn_cons_nth _ _ _ _ Hr) as [Hx Hr'].
    destruct (set_nth_some idx i (S k)) as [idx' Hidx]; [lia|].
    pose proof (rests_set _ _ _ _ _ _ HL Ech Ek Hidx) as Hset. rewrite Hr', <- Hrs in Hset.
    assert (Htr : Forall (fun x0 : tmsg => 0 <= snd x0 < 2 ^ 32) r).
    { unfold times_ok in Ht. rewrite Forall_forall in Ht. apply nth_error_In in Hi. specialize (Ht _ Hi). inversion Ht; assumption. }
    destruct (IH chs idx' (rests chs idx')) as (m & Hm & Hrun); [reflexivity| | | | |].
    + rewrite (set_nth_length _ _ _ _ Hidx). exact HL.
    + clear -HF Hidx Ech Ek Hx. apply nth_error_lt in Hx. revert i idx' Hidx Ech Ek. induction HF as [|c k' chs idx Hc HF IH];
        intros [|i] idx' Hidx Ech Ek; try discriminate; cbn in *.
      * injection Ech as ->. injection Ek as ->. injection Hidx as <-. constructor; [lia|exact HF].
      * destruct (set_nth idx i (S k)) as [q|] eqn:E; [|discriminate]. injection Hidx as <-. constructor; [exact Hc|].
        eapply IH; eauto.
    + eapply forall_set_nth; [exact Ht|exact Htr|exact Hset].
    + pose proof (total_set _ _ _ _ _ Hi Hset). lia.
    + exists (x :: m). split; [econstructor; eauto|].
      intros fuel base order s Hfuel Hord. destruct fuel as [|fuel]; [lia|]. cbn [loop_state].
      destruct (finished_all rs) as [Hle Heq]. destruct (Nat.ltb_spec (finished rs) (length chs)) as [Hlt'|Hge].
      2:{ exfalso. apply Hne, Heq. lia. }
      rewrite next_channel_rests, <- Hrs, Hp. cbn [or_panic bind]. rewrite Ech. cbn [or_panic bind].
      rewrite Ek. cbn [or_panic bind]. rewrite Hx. cbn [or_panic bind]. rewrite Hidx. cbn [or_panic bind].
      rewrite (step_state_order base _ s x (Hord fuel)). cbn [run_state].
      replace (if Nat.eqb (S k) (length ch) then S (finished rs) else finished rs) with (finished (rests chs idx')).
      2:{ rewrite (finished_set _ _ _ _ _ Hi Hset). destruct r as [|z r]; cbn [is_nil].
          - destruct (Nat.eqb_spec (S k) (length ch)) as [|Hne']; [reflexivity|].
            exfalso. apply nth_error_lt in Hx. assert (Hlen : length (skipn (S k) ch) = O) by (rewrite Hr'; reflexivity).
            rewrite skipn_length in Hlen. lia.
          - destruct (Nat.eqb_spec (S k) (length ch)) as [He|]; [|reflexivity].
            rewrite He, skipn_all in Hr'. discriminate. }
      destruct (step_state base (fun n => n) s x) as [[[|] s1]| | |]; cbn [bind fst snd]; try reflexivity. apply Hrun; [lia|exact Hord].
Qed.


Lemma merge_state_merge chs : times_ok chs ->
  exists m, ordered_merge chs m /\ forall base order, (forall k, permutes (order k)) ->
    merge_state chs base order = let* r := run_state base m (vstate0 base) in Ok (fst r, v_voices (snd r)).
Proof.
  intros Ht. destruct (loop_state_merge (total chs) chs (repeat O (length chs)) chs) as (m & Hm & Hrun); auto.
  - symmetry; apply rests_zero.
  - apply repeat_length.
  - clear Ht. induction chs; cbn; constructor; auto. lia.
  - exists m. split; [exact Hm|]. intros base order Ho. unfold merge_state.
    change (length (filter is_nil chs)) with (finished chs). rewrite Hrun; [reflexivity| |exact Ho].
    unfold total. lia.
Qed.
Lemma run_fails base m : forall s s', run_state base m s = Ok (false, s') ->
  exists p d c k vel t q s1, m = p ++ (MidiEvent d (NoteOn c k vel), t) :: q /\ ofold (vstep base) p s = Ok s1 /\
    vstep base s1 (MidiEvent d (NoteOn c k vel), t) = Err ECouldntFit /\ v_retrigger s1 d c k vel t = Ok s'.
Proof.
  induction m as [|[ev t] m IH]; intros s s' H; [discriminate|]. cbn [run_state] in H. unfold step_state in H.
  change (voice_step base (fun n => n)) with (vstep base) in H. destruct (vstep base s (ev, t)) as [s2|e|pp|] eqn:E; cbn [bind fst snd] in H; try discriminate.
  - destruct (IH _ _ H) as (p & d & c & k & vel & t' & q & s1 & -> & Hp & H1 & H2). exists ((ev, t) :: p), d, c, k, vel, t', q, s1.
    split; [reflexivity|]. split; [cbn [ofold]; rewrite E; exact Hp|]. auto.
  - destruct (step_fails base (fun n => n) s (ev, t) e E) as (-> & d & c & k & vel & s2 & Hev & Hr). cbn [fst snd] in Hev, Hr. subst ev.
    cbn [fst snd] in H. rewrite Hr in H. cbn [bind fst snd] in H. injection H as <-.
    exists [], d, c, k, vel, t, m, s. auto.
Qed.

(** ** The note-off written before the failure *)
Lemma merged_off p d c k vel t : merged_notes (p ++ [(MidiEvent d (NoteOff c k vel), t)]) = merged_notes (p ++ [(MidiEvent d (NoteOn c k 0), t)]).
Proof.
  assert (He : forall c' k' l, merged_end c' k' (l ++ [(MidiEvent d (NoteOff c k vel), t)]) = merged_end c' k' (l ++ [(MidiEvent d (NoteOn c k 0), t)])).
  { intros c' k'. induction l as [|[m u] l IH]; [reflexivity|]. cbn [app merged_end]. destruct m as [? ? ?|? []|? ? ?|]; rewrite ?IH; reflexivity. }
  induction p as [|[m u] p IH]; [reflexivity|]. cbn [app merged_notes]. destruct m as [? ? ?|? []|? ? ?|]; rewrite ?IH, ?He; reflexivity.
Qed.
Lemma voice_off p d c k vel t : voice_notes (p ++ [(MidiEvent d (NoteOff c k vel), t)]) = voice_notes (p ++ [(MidiEvent d (NoteOff c k 0), t)]).
Proof.
  assert (He : forall l, voice_end (l ++ [(MidiEvent d (NoteOff c k vel), t)]) = voice_end (l ++ [(MidiEvent d (NoteOff c k 0), t)])).
  { induction l as [|[m u] l IH]; [reflexivity|]. cbn [app voice_end]. destruct m as [? ? ?|? []|? ? ?|]; rewrite ?IH; reflexivity. }
  induction p as [|[m u] p IH]; [reflexivity|]. cbn [app voice_notes]. destruct m as [? ? ?|? []|? ? ?|]; rewrite ?IH, ?He; reflexivity.
Qed.
Lemma alternates_off d c k vel t p : forall o, alternates o (p ++ [(MidiEvent d (NoteOff c k vel), t)]) <-> alternates o (p ++ [(MidiEvent d (NoteOff c k 0), t)]).
Proof.
  induction p as [|[m u] p IH]; intros o; [reflexivity|]. cbn [app alternates]. destruct m as [? ? ?|? []|? ? ?|]; rewrite ?IH; reflexivity.
Qed.
Lemma retrigger_pushes s d c k vel t s' : v_retrigger s d c k vel t = Ok s' ->
  length (v_voices s') = length (v_voices s) /\ exists o, (forall v, vv s' v = vv s v ++ on_voice o (MidiEvent d (NoteOff c k vel), t) v) /\
  exists s0, v_retrigger s d c k 0 t = Ok s0 /\ length (v_voices s0) = length (v_voices s) /\ forall v, vv s0 v = vv s v ++ on_voice o (MidiEvent d (NoteOff c k 0), t) v.
Proof.
  intros H. unfold v_retrigger in *. cbv zeta in *. destruct (nth_error (v_active s) (Z.to_nat c)) as [n|]; cbn [or_panic bind] in *; [|discriminate].
  destruct (notes_get n k) as [w|].
  - destruct (set_nth (v_active s) (Z.to_nat c) (notes_remove n k)) as [a|]; cbn [or_panic bind] in *; [|discriminate].
    destruct (push_at (v_voices s) w (MidiEvent d (NoteOff c k vel), t)) as [vs|? |? |] eqn:Ep; cbn [bind] in H; try discriminate. injection H as <-.
    assert (Hw : (w < length (v_voices s))%nat).
    { unfold push_at in Ep. destruct (nth_error (v_voices s) w) eqn:E; [apply nth_error_Some; congruence|discriminate]. }
    destruct (push_one (v_voices s) w (MidiEvent d (NoteOff c k vel), t) Hw) as (vs1 & E1 & HL1 & Hn1). rewrite Ep in E1. injection E1 as <-.
    destruct (push_one (v_voices s) w (MidiEvent d (NoteOff c k 0), t) Hw) as (vs2 & E2 & HL2 & Hn2).
    split; [exact HL1|]. exists (Some w). split; [intros v; unfold vv; cbn [v_voices set_voices set_active]; apply Hn1|].
    eexists. rewrite E2. cbn [bind]. split; [reflexivity|]. split; [exact HL2|]. intros v. unfold vv. cbn [v_voices set_voices set_active]. apply Hn2.
  - injection H as <-. split; [reflexivity|]. exists None. split; [intros v; cbn; now rewrite app_nil_r|]. exists s. split; [reflexivity|]. split; [reflexivity|].
    intros v. cbn. now rewrite app_nil_r.
Qed.

Lemma fail_notes base p d c k vel t s1 s' : base_ok base -> Forall typed (p ++ [(MidiEvent d (NoteOn c k vel), t)]) ->
  ofold (vstep base) p (vstate0 base) = Ok s1 -> v_retrigger s1 d c k vel t = Ok s' ->
  Forall (alternates None) (v_voices s') /\
  Permutation (flat_map voice_notes (v_voices s')) (map drum (merged_notes (p ++ [(MidiEvent d (NoteOff c k vel), t)]))).
Proof.
  intros Hb Ht Hp Hr. apply Forall_app in Ht. destruct Ht as [Htp Htx]. inversion Htx as [|? ? Hx _]; subst.
  destruct (retrigger_pushes _ _ _ _ _ _ _ Hr) as (HL' & o & Hv' & s0 & Hr0 & HL0 & Hv0).
  assert (Hrun : ofold (vstep base) (p ++ [(MidiEvent d (NoteOn c k 0), t)]) (vstate0 base) = Ok s0).
  { rewrite ofold_app, Hp. cbn [bind ofold]. unfold vstep, voice_step. cbn [fst]. unfold v_note_on. cbn [snd]. rewrite Hr0. reflexivity. }
  destruct (run_spec base (p ++ [(MidiEvent d (NoteOn c k 0), t)]) Hb (vstate0 base) s0) as (Hs & _ & sx & Hsx & [_ Hg] & Hperm).
  - apply vinv0.
  - apply remembered0.
  - apply Forall_app. split; [eapply Forall_impl; [|exact Htp]; intros x (H & _); exact H|]. constructor; [exact (proj1 Hx)|constructor].
  - apply Forall_app. split; [eapply Forall_impl; [|exact Htp]; intros x (_ & _ & H); exact H|]. constructor; [cbn; lia|constructor].
  - exact Hrun.
  - assert (Hvv : forall v, vv s0 v = sx v) by (intros v; rewrite Hsx, vv0; reflexivity).
    assert (H8 : length (v_voices s') = 8%nat) by (rewrite HL', <- HL0; apply (vi_voices _ Hs)).
    assert (Hn : forall v, voice_notes (vv s' v) = voice_notes (sx v)).
    { intros v. rewrite <- Hvv, Hv', Hv0. unfold on_voice. destruct o as [w|]; [|reflexivity]. destruct (Nat.eqb v w); [apply voice_off|reflexivity]. }
    split.
    + apply Forall_forall. intros l Hl. apply In_nth with (d := []) in Hl. destruct Hl as (v & Hv & <-). fold (vv s' v).
      assert (Ha : alternates None (vv s0 v)).
      { rewrite Hvv. apply Hg. intros (c' & k' & _ & Hl). rewrite lookup0 in Hl. discriminate. }
      rewrite Hv0 in Ha. rewrite Hv'. unfold on_voice in *. destruct o as [w|]; [|exact Ha]. destruct (Nat.eqb v w); [apply alternates_off|]; exact Ha.
    + rewrite <- (flat_map_nth voice_notes (v_voices s')). rewrite H8.
      rewrite (flat_map_ext_in _ (fun v => voice_notes (sx v))); [|intros v _; apply Hn].
      fold (notes8 sx). rewrite merged_off. exact Hperm.
Qed.
Lemma dump_stuck b cbs order e d : Forall callback_typed cbs -> (forall k, permutes (order k)) -> read_state b cbs true order = Ok (Some e, d) ->
  (exists base, conflict_free (map ch_intervals (d_channels d)) base) ->
  exists p dt c k vel t q, interleave (map ch_messages (d_channels d)) (p ++ (MidiEvent dt (NoteOn c k vel), t) :: q) /\ 0 < vel /\ 0 <= c < 16 /\
    StronglySorted not_after (p ++ (MidiEvent dt (NoteOn c k vel), t) :: q) /\
    length (d_voices d) = 8%nat /\ Forall (alternates None) (d_voices d) /\
    Permutation (flat_map voice_notes (d_voices d)) (map drum (notes_in (p ++ [(MidiEvent dt (NoteOff c k vel), t)]))) /\
    forall v, (v < 8)%nat -> (shown_base d (Z.to_nat c) = Some v \/ forall c', shown_base d c' <> Some v) ->
      sounding_after false (nth v (d_voices d) []) = true.
Proof.
  intros Hcb Ho H Hfit. destruct (state_shape _ _ _ _ _ _ Hcb H) as (_ & _ & [(? & _)|(_ & chs & ivs & base & Hc & Hi & HL & HLi & Hb & Hd & Hrest)]); [discriminate|].
  pose proof (tracks_typed cbs Hcb) as Hty. pose proof (channels_ok_read _ _ _ Hty Hc) as Hchs.
  destruct (channels_of_fields chs ivs base) as (E1 & E2 & E3); [lia|destruct Hb; lia|]. rewrite <- Hd in E1, E2, E3. rewrite E2 in Hfit. rewrite E1.
  destruct Hrest as [(Hf & _)|(Hf & ok & Hm & He)]; [destruct (base_voices_complete _ _ _ _ _ Hty Hc Hi Hf Hfit)|].
  destruct ok; [discriminate|]. destruct Hchs as (_ & Ht & Hs & _).
  destruct (merge_state_merge chs) as (m & Hom & Hrun).
  { eapply Forall_impl; [|exact Ht]. intros l Hl. eapply Forall_impl; [|exact Hl]. intros x (_ & Hx & _). exact Hx. }
  rewrite (Hrun base order Ho) in Hm. inv_bind Hm. destruct a as [ok s']. cbn [fst snd] in Hm. injection Hm as -> Hvs.
  match goal with P : run_state _ _ _ = Ok _ |- _ => destruct (run_fails _ _ _ _ P) as (p & dt & c & k & vel & t & q & s1 & -> & Hp & Hx & Hr) end.
  destruct (ordered_merge_sorted _ _ Hom Hs) as [Hsm Hin].
  assert (Htm : Forall typed (p ++ (MidiEvent dt (NoteOn c k vel), t) :: q)).
  { apply Forall_forall. intros y Hy. destruct (Hin y Hy) as (r & Hrr & Hyr). rewrite Forall_forall in Ht. specialize (Ht r Hrr).
    rewrite Forall_forall in Ht. auto. }
  assert (Htp : Forall typed (p ++ [(MidiEvent dt (NoteOn c k vel), t)])).
  { apply Forall_app in Htm. destruct Htm as [A B]. inversion B; subst. apply Forall_app. split; [exact A|]. constructor; [assumption|constructor]. }
  pose proof Htp as Htp'. apply Forall_app in Htp'. destruct Htp' as [Hp1 Hp2]. pose proof (Forall_inv Hp2) as Hx1.
  pose proof (proj1 Hx1) as Hc1. assert (Hc16 : 0 <= c < 16) by exact Hc1.
  destruct (sound_run base p Hb _ _ (vinv0 base) (remembered0 base) Hp1 (sound_inv0 base) Hp) as (Hv1 & _ & Hi1).
  destruct (step_result base s1 (MidiEvent dt (NoteOn c k vel)) t Hv1 Hb Hc1) as [(s2 & E & _)|(_ & ? & ? & ? & ? & Eq & Hvel & Hstk)]; [congruence|].
  injection Eq as <- <- <- <-.
  destruct (retrigger_sounds _ _ _ _ _ _ _ Hv1 Hc16 Hi1 Hr) as (H8 & Hu).
  destruct (fail_notes base p dt c k vel t s1 s' Hb Htp Hp Hr) as (Halt & Hperm).
  exists p, dt, c, k, vel, t, q. split; [apply ordered_interleave; exact Hom|]. split; [exact Hvel|]. split; [exact Hc16|]. split; [exact Hsm|].
  rewrite <- Hvs. split; [exact H8|]. split; [exact Halt|]. split.
  - rewrite Hperm. apply Permutation_map. apply merged_channel_notes. apply Forall_app. split; [eapply Forall_impl; [|exact Hp1]; intros x (Hx0 & _); exact Hx0|].
    constructor; [exact Hc1|constructor].
  - intros v Hv Hor. apply Hu. destruct Hstk as [Hs1 Hs2].
    assert (Hsb : forall c', shown_base d c' = nth_error base c') by (intros c'; unfold shown_base; rewrite <- E3; symmetry; apply nth_error_map).
    destruct Hor as [Hor|Hor]; [rewrite Hsb in Hor; rewrite <- (nth_error_nth _ _ 0%nat Hor); exact Hs1|].
    apply Hs2; [exact Hv|]. intros Hi9. apply In_nth_error in Hi9. destruct Hi9 as (c' & E). apply (Hor c'). rewrite Hsb. exact E.
Qed.

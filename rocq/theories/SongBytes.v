(** SongBytes.v: converted songs hold bytes only, so they survive JSON (C58). *)
From Coq Require Import ZArith List Bool Lia ZifyBool ZifyNat Permutation.
From Verif Require Import Base ProofLib F32 Messages Command Track SeqTree Song Paths Manifest Midi Json Cli SpecNspc SpecMidi SpecVoices SpecVoice SpecLoop SpecSong
  TempoProofs TrackProofs VoiceProofs MergeProofs LoopProofs DistributeProofs ReadProofs ReadProofs2 InstrProofs TotalProofs FileProofs AramMore OptExpand SongProofs.
Open Scope Z_scope.
Open Scope list_scope.

Definition inb (c : pcmd) : Prop :=
  (option_ok (duration c) /\ option_ok (velocity c) /\ option_ok (sustain c) /\ command_ok (cmd c)) /\ forall t k, cmd c <> CallLoop t k.
Lemma as_u8 x : u8 (as_u 8 x).
Proof. unfold as_u, u8. pose proof (Z.mod_pos_bound x (2 ^ 8)). lia. Qed.
Lemma inb_plain c : command_ok c -> (forall t k, c <> CallLoop t k) -> inb (plain_cmd c).
Proof. intros H1 H2. split; [|exact H2]. cbn. auto. Qed.
Lemma split_u8 q t : u8 (d_length (split_length q t)).
Proof.
  unfold split_length. destruct (0x7f <? q); [destruct (_ =? 0)|]; cbn [d_length]; try apply as_u8. unfold u8. lia.
Qed.
Lemma duration_u8 b t tpb c d : get_duration b t tpb c = Ok d -> u8 (d_length d).
Proof. unfold get_duration. intros H. inv_bind H. injection H as <-. apply split_u8. Qed.
Lemma inb_rest d : u8 d -> inb (rest_cmd d).
Proof. intros H. split; [cbn; auto|]. intros ? ?. discriminate. Qed.
Lemma inb_tie d : u8 d -> inb (tie_cmd d).
Proof. intros H. split; [cbn; auto|]. intros ? ?. discriminate. Qed.
Lemma u8_127 : u8 0x7f. Proof. unfold u8. lia. Qed.
Lemma inb_insert_rest b cs e t tpb r : Forall inb cs -> insert_rest b cs e t tpb = Ok r -> Forall inb (fst r).
Proof.
  intros HF H. unfold insert_rest in H. destruct (e <? t); [|injection H as <-; exact HF].
  inv_bind H. inv_bind H. injection H as <-. cbn [fst]. pose proof (duration_u8 _ _ _ _ _ Ha) as Hd.
  assert (H1 : Forall inb (cs ++ repeat (rest_cmd 0x7f) (Z.to_nat (overflow_count a)))).
  { apply Forall_app. split; [exact HF|]. apply Forall_forall. intros x Hx. apply repeat_spec in Hx. subst. apply inb_rest, u8_127. }
  destruct (0 <? d_length a); [|exact H1]. apply Forall_app. split; [exact H1|]. constructor; [apply inb_rest; exact Hd|constructor].
Qed.
Definition st_in (s : tstate) : Prop := Forall inb (commands s) /\ 0 <= note_velocity s < 128.
Lemma step_in b tpb tf s ev s' : midi_valid (fst ev) -> st_in s -> track_step b tpb tf s ev = Ok s' -> st_in s'.
Proof.
  intros Hv [HF Hn] H. destruct ev as [m t]. cbn [fst] in Hv. unfold track_step in H.
  destruct m as [d e data|d e|d e data|]; [| |injection H as <-; split; assumption|injection H as <-; split; assumption].
  - unfold on_meta in H. destruct e; [|injection H as <-; split; assumption]. inv_bind H. injection H as <-. split; [|exact Hn].
    cbn [commands set_commands]. apply Forall_app. split; [exact HF|]. constructor; [|constructor]. apply inb_plain; [apply tempo_byte_u8|intros ? ?; discriminate].
  - destruct e as [c k v|c k v|c k v|c ctl v|c p|c p|c v|c]; cbn in Hv; try (injection H as <-; split; assumption).
    + unfold on_note_off in H. destruct (note_start s) as [st|]; [|injection H as <-; split; assumption].
      inv_bind H. inv_bind H. inv_bind H. inv_bind H. injection H as <-. split; [|exact Hn]. cbn [commands].
      pose proof (duration_u8 _ _ _ _ _ Ha0) as Hd. apply Forall_app. split; [exact HF|]. constructor.
      * assert (Hc : command_ok a1 /\ forall t0 k0, a1 <> CallLoop t0 k0).
        { destruct (match last_opt (commands s) with Some c0 => is_slide c0 | None => false end).
          - injection Ha1 as <-. split; [exact I|intros ? ?; discriminate].
          - inv_bind Ha1. injection Ha1 as <-. apply arith_ok in Ha3; [|lia]. split; [cbn; unfold u8; lia|intros ? ?; discriminate]. }
        destruct Hc as [Hc1 Hc2]. split; [|exact Hc2]. cbn. split; [|split; [|split; [|exact Hc1]]].
        -- destruct (0 <? overflow_count a0); [apply u8_127|exact Hd].
        -- unfold u8. pose proof (Z.div_le_upper_bound (note_velocity s) 8 127 ltac:(lia) ltac:(lia)). pose proof (Z.div_pos (note_velocity s) 8 ltac:(lia) ltac:(lia)). lia.
        -- unfold u8. lia.
      * unfold overflow_ties. destruct (0 <? overflow_count a0); [|constructor]. apply Forall_app. split.
        -- apply Forall_forall. intros x Hx. apply repeat_spec in Hx. subst. apply inb_tie, u8_127.
        -- constructor; [apply inb_tie; exact Hd|constructor].
    + unfold on_note_on in H. inv_bind H. destruct a as [c1 e]. inv_bind H. destruct (note_start s); [discriminate|]. injection H as <-.
      apply inb_insert_rest in Ha; [|exact HF]. cbn [fst] in Ha. split; [|cbn; lia]. cbn [commands].
      unfold push_slide in Ha0. destruct (portamento s); [|injection Ha0 as <-; exact Ha].
      destruct (last_opt c1) as [lc|] eqn:El; [|injection Ha0 as <-; exact Ha]. inv_bind Ha0. inv_bind Ha0. apply arith_ok in Ha2; [|lia].
      assert (Hlc : inb lc) by (apply last_opt_some in El; destruct El as (l' & ->); apply Forall_app in Ha; destruct Ha as [_ Ha]; inversion Ha; assumption).
      unfold create_pitch_slide in Ha0. pose proof (duration_u8 _ _ _ _ _ Ha1) as Hd.
      assert (Hs : forall dd, duration lc = Some dd -> Forall inb (c1 ++ [mk_pcmd None None None (PitchSlide (dd - Z.min (d_length a0) dd) (d_length a0) a1)])).
      { intros dd Ed. apply Forall_app. split; [exact Ha|]. constructor; [|constructor]. destruct Hlc as [(Hd1 & _) _]. rewrite Ed in Hd1. cbn in Hd1.
        split; [|intros ? ?; discriminate]. cbn. unfold u8 in *. repeat split; lia. }
      destruct (cmd lc); try (injection Ha0 as <-; exact Ha); (destruct (duration lc) as [dd|]; injection Ha0 as <-; [apply Hs; reflexivity|exact Ha]).
    + unfold on_control_change in H. destruct (ctl =? 5); [injection H as <-; split; assumption|]. destruct (ctl =? 7).
      { inv_bind H. injection H as <-. apply arith_ok in Ha; [|lia]. split; [|exact Hn]. cbn [commands set_commands]. apply Forall_app. split; [exact HF|].
        constructor; [|constructor]. apply inb_plain; [cbn; unfold u8; lia|intros ? ?; discriminate]. }
      destruct (ctl =? 37); [injection H as <-; split; assumption|]. destruct (ctl =? 65); injection H as <-; split; assumption.
    + unfold on_program_change in H. inv_bind H. destruct a as [c1 e]. inv_bind H. injection H as <-. apply inb_insert_rest in Ha; [|exact HF]. cbn [fst] in Ha.
      split; [|exact Hn]. cbn [commands]. apply Forall_app. split; [exact Ha|]. constructor; [|constructor]. apply inb_plain; [|intros ? ?; discriminate]. cbn.
      destruct (c =? 9); [injection Ha0 as <-; unfold u8; lia|]. apply or_panic_ok in Ha0. apply nth_error_In in Ha0. 
      assert (HM : Forall u8 INSTRUMENT_MAP) by (repeat (constructor; [unfold u8; vm_compute; split; congruence|]); constructor).
      rewrite Forall_forall in HM. exact (HM _ Ha0).
Qed.
Lemma sustain_in : forall n l r, (length l <= n)%nat -> Forall inb l -> sustain_pass l = Ok r -> Forall inb r.
Proof.
  induction n as [|n IH]; intros l r Hl HF H; destruct l as [|c l]; cbn [length] in Hl; try lia; cbn [sustain_pass] in H.
  - injection H as <-. constructor.
  - injection H as <-. constructor.
  - destruct l as [|x l]; [injection H as <-; exact HF|]. inv_bind H. destruct a as [skip c']. inv_bind H. injection H as <-.
    inversion HF as [|? ? H1 H2]; subst. inversion H2 as [|? ? H3 H4]; subst.
    constructor.
    + unfold set_sustain in Ha. destruct (cmd c) eqn:Ec; try (injection Ha as _ <-; exact H1).
      destruct (cmd x) eqn:Ex; try (injection Ha as _ <-; exact H1). inv_bind Ha. inv_bind Ha. cbv zeta in Ha.
      destruct (_ =? 0); [discriminate|]. destruct (_ || _); [|injection Ha as _ <-; exact H1]. injection Ha as _ <-.
      destruct H1 as [(A1 & A2 & A3 & A4) A5]. rewrite Ec in A4. split; [|intros ? ?; discriminate]. cbn. split; [apply as_u8|]. split; [exact A2|]. split; [|exact A4].
      pose proof (as_u8 (a0 * 8 / (a0 + a1))) as Hu. unfold u8 in *. lia.
    + destruct skip; (eapply IH; [|  |exact Ha0]); try assumption; cbn [length] in *; lia.
Qed.
Lemma track_in b events tpb mt tf t : Forall (fun x => midi_valid (fst x)) events -> track_new b events tpb mt tf = Ok t -> Forall inb t.
Proof.
  intros Hv H. unfold track_new in H. inv_bind H.
  assert (HS : st_in a).
  { eapply (ofold_inv st_in); [| |exact Ha]; [|split; [constructor|cbn; lia]]. intros s x s' Hx Hs E. rewrite Forall_forall in Hv. eapply step_in; [apply Hv; exact Hx|exact Hs|exact E]. }
  destruct HS as [HF _]. destruct (commands a) eqn:Ec; [injection H as <-; constructor|]. rewrite <- Ec in *. inv_bind H.
  assert (HF' : Forall inb (fst a0)).
  { destruct (_ <? _); [eapply inb_insert_rest; [exact HF|exact Ha0]|injection Ha0 as <-; exact HF]. }
  eapply sustain_in; [reflexivity|exact HF'|exact H].
Qed.

Lemma converted_in b voices tpb mt tf trs : Forall (Forall (fun x => midi_valid (fst x))) voices -> convert_voices b voices tpb mt tf = Ok trs ->
  Forall (fun tr : track => Forall inb tr) trs /\ (length trs <= length voices)%nat.
Proof.
  revert trs. induction voices as [|v vs IH]; intros trs HF H; cbn [convert_voices] in H; [injection H as <-; split; [constructor|cbn; lia]|].
  inversion HF as [|? ? H1 H2]; subst. inv_bind H. inv_bind H. destruct (IH _ H2 Ha0) as [I1 I2]. apply track_in in Ha; [|exact H1].
  destruct a; injection H as <-; (split; [|cbn [length]; lia]); [exact I1|]. constructor; assumption.
Qed.
Lemma loop_free_in (tr : track) : Forall inb tr -> loop_free tr.
Proof. intros H. eapply Forall_impl; [|exact H]. intros c [_ Hc]. intros t n E. exact (Hc t n E). Qed.

Lemma converted_song_ok b voices tpb mt tf opt s : (length voices <= 8)%nat -> Forall (Forall (fun x => midi_valid (fst x))) voices ->
  song_from_midi b voices tpb mt tf opt = Ok s -> Z.of_nat (length (tracks s)) < 2 ^ 64 -> song_ok s.
Proof.
  intros H8 HF H HL. unfold song_from_midi in H. inv_bind H. cbv zeta in H. destruct (converted_in _ _ _ _ _ _ HF Ha) as [HI Hlen].
  assert (Hp : Forall (Forall (fun i => Z.of_nat i < 2 ^ 64)) [seq 0 (length a)]).
  { constructor; [|constructor]. apply Forall_forall. intros i Hi. apply in_seq in Hi. lia. }
  destruct opt.
  - inv_bind H. injection H as <-. cbn [tracks] in HL. split; [exact Hp|]. cbn [tracks].
    assert (Hfree : Forall loop_free a) by (eapply Forall_impl; [|exact HI]; intros; apply loop_free_in; assumption).
    pose proof (optimize_from _ _ _ Ha0) as Hfrom. pose proof (optimize_wfl _ _ _ Hfree Ha0) as [Hw1 Hw2].
    apply Forall_forall. intros tr Htr. apply Forall_forall. intros pc Hpc.
    rewrite Forall_forall in Hfrom. specialize (Hfrom tr Htr). rewrite Forall_forall in Hfrom. destruct (Hfrom pc Hpc) as [(tr0 & T1 & T2)|(t & k & Hk & ->)].
    + rewrite Forall_forall in HI. specialize (HI tr0 T1). rewrite Forall_forall in HI. apply (HI pc T2).
    + cbn. unfold u8. repeat split; try lia. apply In_nth_error in Htr. destruct Htr as [i Hi].
      destruct (Nat.lt_ge_cases i (length a)) as [Hia|Hia].
      * destruct (Hw1 i tr _ t k Hia Hi Hpc eq_refl) as [? _]. lia.
      * destruct (Hw2 i tr Hia Hi) as (G1 & G2 & _). rewrite Forall_forall in G2. specialize (G2 _ Hpc). destruct G2.
  - injection H as <-. split; [exact Hp|]. cbn [tracks]. eapply Forall_impl; [|exact HI]. intros tr Htr. eapply Forall_impl; [|exact Htr]. intros c Hc. apply Hc.
Qed.

Lemma read_valid b cbs complete order h : Forall callback_typed cbs -> (forall k, permutes (order k)) -> file_ok (tracks_of cbs) ->
  Forall (Forall midi_valid) (tracks_of cbs) -> midi_read b cbs complete order = Ok h ->
  length (h_voices h) = 8%nat /\ Forall (Forall (fun x => midi_valid (fst x))) (h_voices h).
Proof.
  intros Hty Ho Hfo Hmv H. split; [apply (read_voices b cbs complete order h Hty Ho H)|].
  destruct (midi_read_inv _ _ _ _ _ H Hty) as (r & chs & ivs & mx & base & Hr & _ & Hc & Hok & _ & _ & Hb & Hv & _).
  destruct (read_ok_tracks _ _ _ _ _ H) as (_ & _ & tpb' & Hr'). rewrite Hr in Hr'. injection Hr' as ->. cbn [r_tracks] in *.
  destruct (merge_ok b (tracks_of cbs) Hfo) as (chs' & Hc' & HL & Hs). rewrite Hc in Hc'. injection Hc' as <-.
  destruct (channels_merge chs Hok) as (m & Hm & Hsm & Htm & _ & Hrun).
  rewrite Hrun in Hv by exact Ho. inv_bind Hv. injection Hv as <-.
  assert (Hval : Forall (fun x => midi_valid (fst x)) m).
  { apply Forall_forall. intros x Hx. apply (timed_valid (tracks_of cbs)); [exact Hmv|].
    apply (Permutation_in x (interleave_perm _ _ (ordered_interleave _ _ Hm))) in Hx. apply in_concat in Hx. destruct Hx as (ch & Hch & Hx).
    apply In_nth with (d := []) in Hch. destruct Hch as (c & _ & <-). destruct (Hs c) as [Hp _].
    apply (Permutation_in x (Permutation_sym Hp)) in Hx. apply filter_In in Hx. apply Hx. }
  destruct (kept_run base m a Hb Htm Ha Hval) as (Hmsgs & _).
  apply Forall_forall. intros v Hin. apply Forall_forall. intros x Hx. apply In_nth with (d := []) in Hin. destruct Hin as (i & _ & Ei).
  apply (Hmsgs i x). unfold vv in *. rewrite <- Ei in Hx. exact Hx.
Qed.

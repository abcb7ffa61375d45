(** RenderProofs.v: all that the driver plays of a file, and a successful build as an edit of the ROM file (C73, C74). *)
From Coq Require Import ZArith List Bool Lia ZifyBool ZifyNat Permutation Sorted String.
From Verif Require Import Base ProofLib F32 Messages Command Track SeqTree Song Paths Manifest Midi Json Cli SpecMidi SpecNotes SpecVoices SpecVoice SpecNspc
  SpecLoop SpecRom SpecBank SpecAram SpecSong SpecPlayback SpecFile SpecControl SpecGate SpecHeard SpecVolume SpecConsole SpecScore SpecJson Run SpecRun SpecCommand SpecSuccess SpecRendered
  AramMore SongProofs PlaybackProofs FileProofs FilePlay FileHeard HeardProofs SettingProofs FileSettings EndProofs VolumeProofs RomLib RomBanks RomFinal RomTwice ConsoleProofs JsonProofs ScoreProofs
  CommandPaths RunProofs CommandProofs RomSuccess.
From Verif Require Rom.
Ltac Zify.zify_post_hook ::= Z.div_mod_to_equations.
Import ListNotations.
Open Scope Z_scope.
Open Scope list_scope.

(** ** One performance of a file. *)
Lemma file_renders b w order opt p tf s s0 cbs mem a lp at_ :
  midi_file w p = (cbs, true) -> Forall callback_typed cbs -> (forall k, permutes (order k)) ->
  renderable (beat_ticks cbs) (tracks_of cbs) ->
  song_from_midi_file b w order opt p tf = Ok s -> song_from_midi_file b w order false p tf = Ok s0 ->
  Forall seven_bit (tracks s0) -> (opt = true -> keeps_music (tracks s0) (tracks s)) ->
  song_in mem a lp s at_ -> mem 0 = None -> renders mem a tf cbs (loud_file b w order opt p tf cbs).
Proof.
  intros Ew Hty Ho Hrf Hs Hs0 Hsb Hopt Hin H0.
  destruct (file_tempo b w order opt p tf s s0 cbs mem a lp at_ Ew Hty Ho Hrf Hs Hs0 Hsb Hopt Hin H0) as (ess & Hess & HT).
  destruct (file_ending b w order opt p tf s s0 cbs mem a lp at_ Ew Hty Ho Hrf Hs Hs0 Hsb Hopt Hin H0) as (ess' & en & Hess' & He1 & He2).
  rewrite (song_plays_det _ _ _ _ Hess' Hess) in *. clear ess' Hess'.
  assert (Hloud' : loud_file b w order opt p tf cbs -> (forall notes n, file_notes (tracks_of cbs) notes -> In n notes -> 8 <= nt_vel n) /\
    (opt = true -> keeps_music (tracks s0) (tracks s) /\ Forall (velocity_safe (tracks s)) (tracks s))).
  { intros [A B]. split; [exact A|]. intros E. split; [exact (Hopt E)|exact (B E s Hs)]. }
  revert Hloud'. generalize (loud_file b w order opt p tf cbs). intros loud Hloud.
  unfold song_from_midi_file in Hs, Hs0. rewrite Ew in Hs, Hs0.
  inv_bind Hs0. rename a0 into h. rename Ha into Hh. rewrite Hh in Hs. cbn [bind] in Hs.
  unfold song_from_midi in Hs0. inv_bind Hs0. cbv zeta in Hs0. injection Hs0 as <-. cbn [tracks] in *. rename a0 into trs.
  apply convert_voices_spec in Ha. rename Ha into Htr.
  destruct (file_voices_calm b cbs order h Hty Ho Hh Hrf) as (Etpb & Hv8 & Hvok & Hcalm & notes & Hfn & Hperm).
  destruct (file_reading b cbs order h Hty Ho Hh Hrf) as (chs & base & m & vs & Hrd & Hcv & _). rewrite Etpb in *.
  assert (Hv8' : (length (h_voices h) <= 8)%nat) by (rewrite Hv8; constructor).
  set (ns := flat_map (fun v => filter ended (voice_notes v)) (h_voices h)) in *.
  assert (Hsame : Forall2 same_note (flat_map notes_of (h_voices h)) ns).
  { unfold ns. clear - Hcalm. induction Hcalm as [|v l (A1 & _ & A3) _ IH]; [constructor|]. cbn [flat_map]. apply Forall2_app; [|exact IH].
    exact (notes_agree v None 0 A1 A3). }
  exists notes, ns, ess. split; [exact Hfn|]. split; [exact Hperm|]. split; [exact Hess|]. split; [constructor|].
  - destruct (song_sounds b _ _ _ _ _ _ _ _ _ _ _ _ Hs Hv8' (rf_beat _ _ Hrf) Hvok Htr Hsb Hopt Hin H0) as (e2 & He & Hheard).
    rewrite (song_plays_det _ _ _ _ He Hess) in Hheard. clear -Hsame Hheard. clearbody ns. revert ns Hsame.
    induction Hheard as [|x v l1 l2 Hx _ IH]; intros ns Hsame; inversion Hsame as [|? n ? ns' (E1 & E2 & E3 & E4) Hs']; subst; constructor; auto.
    rewrite <- E1, <- E3. exact Hx.
  - destruct (song_instruments b _ _ _ _ _ _ _ _ _ _ _ _ Hs Hv8' (rf_beat _ _ Hrf) Hvok Htr Hsb Hopt Hin H0) as (e2 & He & HF).
    rewrite (song_plays_det _ _ _ _ He Hess) in HF. clear He e2.
    assert (E : map fst (flat_map (fun v => filter ends (struck None v)) (h_voices h)) = ns).
    { unfold ns. clear. induction (h_voices h) as [|v l IH]; [reflexivity|]. cbn [flat_map]. rewrite map_app, filter_ends, IH. reflexivity. }
    rewrite <- E.
    assert (HG : Forall2 (fun x y => same_note (fst x) (fst y) /\ snd x = inst_of y)
      (flat_map (fun v => combine (notes_of v) (sets_of INSTRUMENT None (outline_of tf v))) (h_voices h)) (flat_map (fun v => filter ends (struck None v)) (h_voices h))).
    { clear - Hvok Hcalm. induction Hvok as [|v l (Hv & _) _ IH]; [constructor|]. inversion Hcalm as [|? ? (A1 & _ & A3) Hcalm']; subst. cbn [flat_map].
      apply Forall2_app; [|now apply IH]. apply voice_instruments; [exact (voice_valid _ _ _ Hv)|exact A1|exact A3]. }
    assert (HP : forall y, In y (flat_map (fun v => filter ends (struck None v)) (h_voices h)) ->
       plays_program (tracks_of cbs) (fst y) (inst_of y) /\ plays_drum (tracks_of cbs) (fst y) (inst_of y)).
    { intros y Hy. apply in_flat_map in Hy. destruct Hy as (v & Hv & Hy). apply filter_In in Hy. destruct Hy as [Hy _].
      eapply reading_programs; eassumption. }
    clear - HF HG HP. revert HG HP. generalize (flat_map (fun v => filter ends (struck None v)) (h_voices h)).
    induction HF as [|x z l1 l2 (E1 & E2) _ IH]; intros l HG HP; inversion HG as [|? y ? l' ((G1 & _ & G3 & _) & G2) HG']; subst; cbn [map]; constructor.
    + rewrite G1, G3 in E1. rewrite E2, G2. split; [exact E1|]. exact (HP y (or_introl eq_refl)).
    + apply IH; [exact HG'|]. intros y' Hy'. apply HP. now right.
  - destruct (song_volumes b _ _ _ _ _ _ _ _ _ _ _ _ Hs Hv8' (rf_beat _ _ Hrf) Hvok Htr Hsb Hopt Hin H0) as (e2 & He & HF).
    rewrite (song_plays_det _ _ _ _ He Hess) in HF. clear He e2.
    assert (E : map fst (flat_map (fun v => filter vends (vstruck None v)) (h_voices h)) = ns).
    { unfold ns. clear. induction (h_voices h) as [|v l IH]; [reflexivity|]. cbn [flat_map]. rewrite map_app, vfilter_ends, IH. reflexivity. }
    rewrite <- E.
    assert (HG : Forall2 (fun x y => same_note (fst x) (fst y) /\ snd x = vol_end y)
      (flat_map (fun v => combine (notes_of v) (sets_of VOLUME (Some 0xc8) (outline_of tf v))) (h_voices h)) (flat_map (fun v => filter vends (vstruck None v)) (h_voices h))).
    { clear - Hvok Hcalm. induction Hvok as [|v l (Hv & _) _ IH]; [constructor|]. inversion Hcalm as [|? ? (A1 & _ & A3) Hcalm']; subst. cbn [flat_map].
      apply Forall2_app; [|now apply IH]. apply voice_volumes; [exact (voice_valid _ _ _ Hv)|exact A1|exact A3]. }
    assert (HP : forall y, In y (flat_map (fun v => filter vends (vstruck None v)) (h_voices h)) -> plays_volume (tracks_of cbs) (fst y) (vol_end y)).
    { intros y Hy. apply in_flat_map in Hy. destruct Hy as (v & Hv & Hy). apply filter_In in Hy. destruct Hy as [Hy _].
      eapply reading_volumes; eassumption. }
    clear - HF HG HP. revert HG HP. generalize (flat_map (fun v => filter vends (vstruck None v)) (h_voices h)).
    induction HF as [|x z l1 l2 (E1 & E2) _ IH]; intros l HG HP; inversion HG as [|? y ? l' ((G1 & _ & G3 & _) & G2) HG']; subst; cbn [map]; constructor.
    + rewrite G1, G3 in E1. rewrite E2, G2. split; [exact E1|]. exact (HP y (or_introl eq_refl)).
    + apply IH; [exact HG'|]. intros y' Hy'. apply HP. now right.
  - exact HT.
  - exists en. split; [exact He1|exact He2].
  - intros Hl. destruct (Hloud Hl) as [Hvel Hsafe]. unfold full_notes.
    assert (Hn8 : forall n, In n ns -> 8 <= nt_vel n).
    { intros n Hn. apply (Permutation_in n Hperm) in Hn. apply filter_In in Hn. destruct Hn as [Hn _].
      apply in_map_iff in Hn. destruct Hn as (m0 & <- & Hm). exact (Hvel notes m0 Hfn Hm). }
    assert (Hv : forall v x, In v (h_voices h) -> In x (notes_of v) -> 8 <= n_vel x).
    { intros v x Hv Hx. assert (Hi : In x (flat_map notes_of (h_voices h))) by (apply in_flat_map; eauto).
      clear - Hi Hsame Hn8. revert Hi Hn8. induction Hsame as [|y n l1 l2 (E1 & E2 & E3 & E4) _ IH]; intros Hi Hn8; [destruct Hi|].
      destruct Hi as [->|Hi]; [rewrite E4; apply Hn8; now left|apply IH; [exact Hi|intros m0 Hm; apply Hn8; now right]]. }
    destruct (song_fully b _ _ _ _ _ _ _ _ _ _ _ _ Hs Hv8' (rf_beat _ _ Hrf) Hvok Htr Hsb Hv Hsafe Hin H0) as (e2 & He & Hheard).
    rewrite (song_plays_det _ _ _ _ He Hess) in Hheard. clear -Hsame Hheard. clearbody ns. revert ns Hsame.
    induction Hheard as [|x v l1 l2 Hx _ IH]; intros ns Hsame; inversion Hsame as [|? n ? ns' (E1 & E2 & E3 & E4) Hs']; subst; constructor; auto.
    exists (n_off v). split; [now symmetry|]. rewrite <- E1, <- E3, <- E4. exact Hx.
Qed.

(** ** A successful build. *)
Lemma built_write b t order o fl c rom f f' r m Ls : built b t order o fl c rom f f' r m Ls ->
  exists m' r' sss n, map songs m = map songs m' /\ f' rom = Some r' /\
    banks_fit b (converter b (world_of t f) order (negb (skip_optimization fl))) 0 0 m' Ls sss /\
    os_rom o = Rom.Wrote n /\ (length r <= n)%nat /\
    Rom.rom_write b (verbose_flag fl) m' r (os_open o rom) (map lo_addr Ls) (converter b (world_of t f) order (negb (skip_optimization fl))) (Rom.Wrote n) = (Ok tt, r').
Proof.
  intros [Ho Hc Hr Hi Hm Hal HL HI HT HR HS (n & Hos & Hn) H].
  destruct (success_fits _ _ _ _ _ _ _ _ _ _ _ _ Ho Hc Hr Hm Hal HT HR HS H) as (sss & Hfit).
  destruct (command_rom _ _ _ _ _ _ _ _ _ _ _ _ Hc Hr Hal Hm H) as (m' & r' & Em & Hr' & Hw). rewrite Hos in Hw.
  exists m', r', sss, n. split; [exact Em|]. split; [exact Hr'|]. split; [exact (fit_songs _ _ _ _ _ _ _ Hfit m' Em)|]. auto.
Qed.
Lemma built_slot b t order o fl c rom f f' r m Ls : built b t order o fl c rom f f' r m Ls ->
  exists r', f' rom = Some r' /\ is_image r' /\ Forall (layout_ok r') Ls /\ same_outside (fun x => exists L, In L Ls /\ lo_data L x) r r' /\
  forall k j L sd, in_slot m Ls k j L sd -> exists s a at_,
    match Manifest.input sd with
    | Some p => converter b (world_of t f) order (negb (skip_optimization fl)) p (Manifest.tempo_factor sd) = Ok s
    | None => song_empty b = Ok s
    end /\
    holds (aram r' (lo_blocks L)) (slot_address m k j) a /\ song_in (aram r' (lo_blocks L)) a (loops sd) s at_.
Proof.
  intros HB. destruct (built_write _ _ _ _ _ _ _ _ _ _ _ _ HB) as (m' & r' & sss & n & Em & Hr' & Hfit & Hos & Hn & Hw).
  apply good_write in Hw; [|exact Hn]. destruct Hw as [Hw _]. exists r'. split; [exact Hr'|].
  destruct (all_banks b _ _ _ 0%nat 0%nat m' Ls sss Hfit r r' [] eq_refl eq_refl (bu_image _ _ _ _ _ _ _ _ _ _ _ _ HB) (bu_layouts _ _ _ _ _ _ _ _ _ _ _ _ HB)
    (bu_independent _ _ _ _ _ _ _ _ _ _ _ _ HB) Hw) as (X1 & X2 & X3 & _).
  split; [exact X1|]. split; [exact X2|]. split; [exact X3|].
  intros k j L sd (bk & Hk & HL & Hj). destruct (banks_read _ _ _ _ _ _ _ _ Hfit (bu_image _ _ _ _ _ _ _ _ _ _ _ _ HB) (bu_layouts _ _ _ _ _ _ _ _ _ _ _ _ HB) (bu_independent _ _ _ _ _ _ _ _ _ _ _ _ HB) Hw) as [_ Hread].
  assert (Hk' : exists bk', nth_error m' k = Some bk' /\ songs bk' = songs bk).
  { apply (map_nth_error songs) in Hk. rewrite Em in Hk. destruct (nth_error m' k) as [bk'|] eqn:E.
    - apply (map_nth_error songs) in E. exists bk'. split; [reflexivity|congruence].
    - apply nth_error_None in E. rewrite (proj2 (nth_error_None (map songs m') k)) in Hk by (rewrite map_length; lia). discriminate. }
  destruct Hk' as (bk' & Hk' & Ebk). rewrite <- Ebk in Hj.
  destruct (fit_nth _ _ _ _ _ _ _ Hfit k bk' L Hk' HL) as (ss & ls & Hss & Hld).
  destruct (loaded_nth _ _ _ _ _ Hld j sd Hj) as (s & Hs & Hconv).
  destruct (Hread k bk' L ss Hk' HL Hss) as (fa & _ & [B1 B2 _]). destruct (B2 j sd s Hj Hs) as (a & at_ & Ha & _ & Hin).
  exists s, a, at_. split; [exact Hconv|]. split; [|exact Hin]. unfold slot_address. rewrite (count_songs_map _ _ k Em). exact Ha.
Qed.

(** ** What the slots of a successful build play. *)
Lemma song_renders b t order opt f sd s mem a at_ : (forall i, permutes (order i)) ->
  match Manifest.input sd with
  | Some p => converter b (world_of t f) order opt p (Manifest.tempo_factor sd) = Ok s
  | None => song_empty b = Ok s
  end -> song_in mem a (loops sd) s at_ -> mem 0 = None ->
    (if loops sd then starts_again mem a else stops mem a) /\
    (forall p cbs, Manifest.input sd = Some p -> mid_file p ->
       good_midi b (world_of t f) order opt p (Manifest.tempo_factor sd) cbs ->
       renders mem a (Manifest.tempo_factor sd) cbs (loud_file b (world_of t f) order opt p (Manifest.tempo_factor sd) cbs)) /\
    (Manifest.input sd = None -> song_plays mem a (repeat [] 8)) /\
    (forall p s part loud, Manifest.input sd = Some p -> ~ mid_file p -> holds_song t f p s -> song_parts s part ->
       song_calls s -> Forall (fun tr : track => Forall playable tr) (tracks s) ->
       (loud = true -> Forall (fun tr : track => Forall full tr) (tracks s) /\
          Forall (fun i => forall tr, nth_error (tracks s) i = Some tr -> velocity_safe (tracks s) tr) part) ->
       exists ess, song_plays mem a ess /\ plays_part (plays_track loud s) part ess).
Proof.
  intros Ho Hconv Hin Hz.
  split; [pose proof (si_after _ _ _ _ _ Hin) as Haf; destruct (loops sd); unfold starts_again, stops; tauto|]. split; [|split].
  - intros p cbs Hp Hmid (G1 & G2 & G3 & s0 & G4 & G5 & G6). rewrite Hp, (proj1 (converter_choice _ _ _ _ _ _) Hmid) in Hconv.
    assert (G7 : opt = true -> keeps_music (tracks s0) (tracks s)) by (intros ->; exact (G6 eq_refl s Hconv)).
    eapply file_renders; eassumption.
  - intros Hp. rewrite Hp in Hconv. eapply silent_song; eassumption.
  - intros p s1 part loud Hp Hmid (content & v & Hf & Hv & Hs1) Hpart Hc Hpl Hloud. rewrite Hp, (proj2 (converter_choice _ _ _ _ _ _) Hmid) in Hconv.
    assert (E : from_json (json_file (world_of t f) p) = Ok s1) by (cbn [world_of json_file]; rewrite Hf; apply reads_iff; exists v; auto).
    rewrite E in Hconv. injection Hconv as <-.
    exact (looped_song loud _ _ _ _ _ part Hin Hz Hpart Hc Hpl Hloud).
Qed.
Lemma built_renders b t order o fl c rom f f' r m Ls : built b t order o fl c rom f f' r m Ls ->
  exists r', f' rom = Some r' /\ forall k j L sd, in_slot m Ls k j L sd -> zero_free L ->
  exists a, holds (aram r' (lo_blocks L)) (slot_address m k j) a /\
    (if loops sd then starts_again (aram r' (lo_blocks L)) a else stops (aram r' (lo_blocks L)) a) /\
    (forall p cbs, Manifest.input sd = Some p -> mid_file p ->
       good_midi b (world_of t f) order (negb (skip_optimization fl)) p (Manifest.tempo_factor sd) cbs ->
       renders (aram r' (lo_blocks L)) a (Manifest.tempo_factor sd) cbs
         (loud_file b (world_of t f) order (negb (skip_optimization fl)) p (Manifest.tempo_factor sd) cbs)) /\
    (Manifest.input sd = None -> song_plays (aram r' (lo_blocks L)) a (repeat [] 8)) /\
    (forall p s part loud, Manifest.input sd = Some p -> ~ mid_file p -> holds_song t f p s -> song_parts s part ->
       song_calls s -> Forall (fun tr : track => Forall playable tr) (tracks s) ->
       (loud = true -> Forall (fun tr : track => Forall full tr) (tracks s) /\
          Forall (fun i => forall tr, nth_error (tracks s) i = Some tr -> velocity_safe (tracks s) tr) part) ->
       exists ess, song_plays (aram r' (lo_blocks L)) a ess /\ plays_part (plays_track loud s) part ess).
Proof.
  intros HB. destruct (built_slot _ _ _ _ _ _ _ _ _ _ _ _ HB) as (r' & Hr' & _ & _ & _ & Hslot). exists r'. split; [exact Hr'|].
  intros k j L sd Hsl Hz. destruct (Hslot k j L sd Hsl) as (s & a & at_ & Hconv & Ha & Hin). exists a. split; [exact Ha|].
  exact (song_renders _ _ _ _ _ _ _ _ _ _ (bu_order _ _ _ _ _ _ _ _ _ _ _ _ HB) Hconv Hin (aram_zero _ _ Hz)).
Qed.

(** ** The same command on another content of the ROM file. *)
Lemma conv_same b t f g rom order order2 opt p tf : (forall i, permutes (order i)) -> (forall i, permutes (order2 i)) -> (forall q, q <> rom -> g q = f q) -> p <> rom ->
  converter b (world_of t g) order2 opt p tf = converter b (world_of t f) order opt p tf.
Proof.
  intros Ho Ho2 Hg Hp. assert (E : song_from_midi_file b (world_of t g) order2 opt p tf = song_from_midi_file b (world_of t f) order opt p tf).
  { rewrite <- (midi_same b (world_of t f) order2 order opt p tf Ho2 Ho). unfold song_from_midi_file. cbn [world_of midi_file]. rewrite (Hg p Hp). reflexivity. }
  unfold converter. cbn [world_of json_file]. rewrite (Hg p Hp), E. reflexivity.
Qed.
Lemma slots_same (P : song_def -> Prop) (m m' : list bank) : map songs m = map songs m' -> (forall bk sd, In bk m -> In sd (songs bk) -> P sd) ->
  forall bk sd, In bk m' -> In sd (songs bk) -> P sd.
Proof.
  intros E H bk sd Hbk Hsd. apply (in_map songs) in Hbk. rewrite <- E in Hbk. apply in_map_iff in Hbk. destruct Hbk as (bk0 & E0 & H0). apply (H bk0); [exact H0|]. rewrite E0. exact Hsd.
Qed.
Lemma rerun_raw b t order order2 o fl c rom f f' r m Ls n : (forall i, permutes (order i)) -> builds_rom c rom -> f rom = Some r -> asked t f c m ->
  addresses c (map lo_addr Ls) -> os_rom o = Rom.Wrote n -> run b t order o fl c f = (Ok tt, f') -> (forall i, permutes (order2 i)) -> reads_elsewhere c rom m ->
  exists m' r', map songs m = map songs m' /\ f' rom = Some r' /\
    Rom.rom_write b (verbose_flag fl) m' r true (map lo_addr Ls) (converter b (world_of t f) order (negb (skip_optimization fl))) (Rom.Wrote n) = (Ok tt, r') /\
    forall g q o2, (forall x, x <> rom -> g x = f x) -> g rom = Some q ->
    run b t order2 o2 fl c g =
      (let '(res, q') := Rom.rom_write b (verbose_flag fl) m' q (os_open o2 rom) (map lo_addr Ls) (converter b (world_of t f) order (negb (skip_optimization fl))) (os_rom o2) in
       (res, store g rom q')).
Proof.
  intros Ho Hc Hr Hm Hal Hos H Ho2 [Hman Hin].
  pose proof (addresses_read _ _ Hal) as Hra.
  set (conv := converter b (world_of t f) order (negb (skip_optimization fl))) in *.
  assert (Hsame : forall m' g, map songs m = map songs m' -> (forall x, x <> rom -> g x = f x) -> forall q op os, Rom.rom_write b (verbose_flag fl) m' q op (map lo_addr Ls) (converter b (world_of t g) order2 (negb (skip_optimization fl))) os =
     Rom.rom_write b (verbose_flag fl) m' q op (map lo_addr Ls) conv os).
  { intros m' g Em Hg q op os. apply rom_write_ext.
    assert (Hin' := slots_same (fun sd => forall p, Manifest.input sd = Some p -> p <> rom) m m' Em (fun bk sd H1 H2 p Hp => Hin bk sd p H1 H2 Hp)).
    clear - Hin' Ho Ho2 Hg. induction m' as [|bk l IH]; constructor.
    - assert (Hb := fun sd Hs => Hin' bk sd (or_introl eq_refl) Hs). clear - Hb Ho Ho2 Hg. induction (songs bk) as [|sd l IH]; constructor.
      + split; [reflexivity|]. split; [reflexivity|]. unfold Rom.load_song. destruct (Manifest.input sd) as [p|] eqn:Ep; [|reflexivity].
        unfold conv. rewrite (conv_same b t f g rom order order2 _ p _ Ho Ho2 Hg); [reflexivity|]. exact (Hb sd (or_introl eq_refl) p Ep).
      + apply IH. intros sd' Hs. apply Hb. now right.
    - apply IH. intros bk' sd Hb. apply Hin'. now right. }
  assert (K : forall op m', (forall content openable os, op os content openable =
      Rom.rom_write b (verbose_flag fl) m' content openable (map lo_addr Ls) conv os) -> asked t f c m' ->
    on_rom f o rom (op (os_rom o)) = (Ok tt, f') ->
    (forall g q o2, (forall x, x <> rom -> g x = f x) -> g rom = Some q -> run b t order2 o2 fl c g =
      (let '(res, q') := Rom.rom_write b (verbose_flag fl) m' q (os_open o2 rom) (map lo_addr Ls) (converter b (world_of t g) order2 (negb (skip_optimization fl))) (os_rom o2) in
       (res, store g rom q'))) ->
    exists m' r', map songs m = map songs m' /\ f' rom = Some r' /\
    Rom.rom_write b (verbose_flag fl) m' r true (map lo_addr Ls) conv (Rom.Wrote n) = (Ok tt, r') /\
    forall g q o2, (forall x, x <> rom -> g x = f x) -> g rom = Some q ->
    run b t order2 o2 fl c g =
      (let '(res, q') := Rom.rom_write b (verbose_flag fl) m' q (os_open o2 rom) (map lo_addr Ls) conv (os_rom o2) in (res, store g rom q'))).
  { intros op m' Hop Hm' Hrun Hg. unfold on_rom in Hrun. rewrite Hr, Hop, Hos in Hrun.
    destruct (Rom.rom_write b (verbose_flag fl) m' r (os_open o rom) (map lo_addr Ls) conv (Rom.Wrote n)) as [res r'] eqn:E. injection Hrun as -> <-.
    pose proof (asked_unique _ _ _ _ _ Hm Hm') as Em.
    exists m', r'. split; [exact Em|]. split; [apply store_same|]. split.
    - destruct (os_open o rom); [exact E|unfold Rom.rom_write in E; discriminate].
    - intros g q o2 Hgf Hgr. rewrite (Hg g q o2 Hgf Hgr), (Hsame m' g Em Hgf). reflexivity. }
  destruct c; cbn [builds_rom] in Hc; try contradiction; subst; cbn [run address_option] in H, Hra.
  - assert (Hmr : manifest <> rom) by (eapply Hman; reflexivity).
    unfold run_build_rom in H. rewrite Hra in H. destruct (json_file (world_of t f) manifest) as [v|] eqn:Ev.
    2:{ exfalso. assert (Hnn : forall d, on_rom f o rom (fun content openable => build_rom b (verbose_flag fl) (negb (skip_optimization fl)) (world_of t f) order manifest d content openable (map lo_addr Ls) (os_rom o)) = (Ok tt, f') -> False).
        { intros d. unfold on_rom, build_rom. rewrite Hr, Ev. discriminate. }
        destruct (parent manifest); eapply Hnn; exact H. }
    destruct (parent manifest) as [d|] eqn:Ed; [|discriminate]. destruct (manifest_new v d) as [m'| | |] eqn:Em;
      [|exfalso; revert H; unfold on_rom, build_rom; rewrite Hr, Ev, Em; discriminate..].
    refine (K (fun os content openable => build_rom b (verbose_flag fl) (negb (skip_optimization fl)) (world_of t f) order manifest d content openable (map lo_addr Ls) os) m' _ _ H _); [intros; unfold build_rom; rewrite Ev, Em; reflexivity| |].
    + destruct (manifest_slots _ _ _ Em) as [S1 S2]. split; [exact S1|]. intros bank name sd Hs.
      assert (Hd : directory manifest d).
      { destruct Hm as [Hm1 Hm2]. assert (Hex : exists sd0, slot_is m "overworld" "Title" sd0).
        { unfold all_slots in Hm1. cbn [slots map snd length] in Hm1. destruct m as [|bk m]; [discriminate|]. cbn [map] in Hm1. injection Hm1 as Hm1 _.
          destruct (songs bk) as [|sd0 l] eqn:Eb; [discriminate|]. exists sd0, 0%nat, 0%nat. eexists. exists bk. split; [reflexivity|]. split; [reflexivity|]. split; [reflexivity|]. rewrite Eb. reflexivity. }
        destruct Hex as [sd0 H0]. apply Hm2 in H0. cbn [wanted] in H0. destruct H0 as (_ & _ & d' & _ & _ & Hd & _). pose proof (parent_directory _ _ Hd) as E. rewrite Ed in E. injection E as <-. exact Hd. }
      cbn [wanted]. cbn [world_of json_file] in Ev. destruct (f manifest) as [content|]; [|discriminate]. exists content, v, d. auto.
    + intros g q o2 Hgf Hgr. cbn [run]. unfold run_build_rom. rewrite Hra. cbn [world_of json_file] in Ev |- *. rewrite (Hgf manifest Hmr), Ev, Ed. unfold on_rom. rewrite Hgr.
      unfold build_rom. cbn [world_of json_file]. rewrite (Hgf manifest Hmr), Ev, Em. reflexivity.
  - unfold run_one_song in H. rewrite Hra in H.
    refine (K (fun os content openable => write_all_overworld b (verbose_flag fl) (negb (skip_optimization fl)) (world_of t f) order input content openable (map lo_addr Ls) os) (manifest_single_song input) _ _ H _); [reflexivity| |].
    + destruct (single_slots input) as [S1 S2]. split; [exact S1|]. intros bank name sd Hs. apply S2 in Hs. destruct sd as [i tf lp]. cbn in Hs. cbn [wanted]. destruct Hs as (-> & -> & ->). reflexivity.
    + intros g q o2 Hgf Hgr. cbn [run]. unfold run_one_song. rewrite Hra. unfold on_rom. rewrite Hgr. reflexivity.
  - unfold run_one_song in H. rewrite Hra in H.
    refine (K (fun os content openable => write_file_select b (verbose_flag fl) (negb (skip_optimization fl)) (world_of t f) order input content openable (map lo_addr Ls) os) (manifest_file_select input) _ _ H _); [reflexivity| |].
    + destruct (select_slots input) as [S1 S2]. split; [exact S1|]. intros bank name sd Hs. apply S2 in Hs. exact Hs.
    + intros g q o2 Hgf Hgr. cbn [run]. unfold run_one_song. rewrite Hra. unfold on_rom. rewrite Hgr. reflexivity.
Qed.

Lemma rerun b t order order2 o fl c rom f f' r m Ls : built b t order o fl c rom f f' r m Ls -> (forall i, permutes (order2 i)) -> reads_elsewhere c rom m ->
  exists m' sss n r', map songs m = map songs m' /\ f' rom = Some r' /\
    banks_fit b (converter b (world_of t f) order (negb (skip_optimization fl))) 0 0 m' Ls sss /\ (length r <= n)%nat /\
    Rom.rom_write b (verbose_flag fl) m' r true (map lo_addr Ls) (converter b (world_of t f) order (negb (skip_optimization fl))) (Rom.Wrote n) = (Ok tt, r') /\
    forall g q o2, (forall x, x <> rom -> g x = f x) -> g rom = Some q ->
    run b t order2 o2 fl c g =
      (let '(res, q') := Rom.rom_write b (verbose_flag fl) m' q (os_open o2 rom) (map lo_addr Ls) (converter b (world_of t f) order (negb (skip_optimization fl))) (os_rom o2) in
       (res, store g rom q')).
Proof.
  intros HB Ho2 Hel. pose proof HB as [Ho Hc Hr Hi Hm Hal HL HI HT HR HS (n & Hos & Hn) H].
  destruct (success_fits _ _ _ _ _ _ _ _ _ _ _ _ Ho Hc Hr Hm Hal HT HR HS H) as (sss & Hfit).
  destruct (rerun_raw _ _ _ order2 _ _ _ _ _ _ _ _ _ _ Ho Hc Hr Hm Hal Hos H Ho2 Hel) as (m' & r' & Em & Hr' & Hw & Hrun).
  exists m', sss, n, r'. split; [exact Em|]. split; [exact Hr'|]. split; [exact (fit_songs _ _ _ _ _ _ _ Hfit m' Em)|]. auto.
Qed.

Lemma run_others b t order o fl c rom f f' : builds_rom c rom -> run b t order o fl c f = (Ok tt, f') -> forall x, x <> rom -> f' x = f x.
Proof. intros Hc H x Hx. apply (run_frame _ _ _ _ _ _ _ _ _ H). destruct c; cbn [builds_rom target] in *; try contradiction; congruence. Qed.
Lemma built_safe b t order o fl c rom f f' r m Ls : built b t order o fl c rom f f' r m Ls ->
  (forall x, x <> rom -> f' x = f x) /\ exists r', f' rom = Some r' /\ is_image r' /\ Forall (layout_ok r') Ls /\ same_outside (fun x => exists L, In L Ls /\ lo_data L x) r r'.
Proof.
  intros HB. split; [exact (run_others _ _ _ _ _ _ _ _ _ (bu_command _ _ _ _ _ _ _ _ _ _ _ _ HB) (bu_run _ _ _ _ _ _ _ _ _ _ _ _ HB))|].
  destruct (built_slot _ _ _ _ _ _ _ _ _ _ _ _ HB) as (r' & X1 & X2 & X3 & X4 & _). exists r'. auto.
Qed.
Lemma built_again b t order order2 o o2 fl c rom f f' r m Ls k f2 res : built b t order o fl c rom f f' r m Ls -> (forall i, permutes (order2 i)) -> reads_elsewhere c rom m ->
  os_open o2 rom = true -> os_rom o2 = Rom.Wrote k -> run b t order2 o2 fl c f' = (res, f2) -> res = Ok tt /\ same_files f' f2.
Proof.
  intros HB Ho2 Hel Hop Hwr H. destruct (rerun _ _ _ order2 _ _ _ _ _ _ _ _ _ HB Ho2 Hel) as (m' & sss & n & r' & _ & Hr' & Hfit & Hn & Hw & Hrun).
  rewrite (Hrun f' r' o2 (run_others _ _ _ _ _ _ _ _ _ (bu_command _ _ _ _ _ _ _ _ _ _ _ _ HB) (bu_run _ _ _ _ _ _ _ _ _ _ _ _ HB)) Hr'), Hop, Hwr in H.
  rewrite (write_again _ _ _ _ _ _ _ _ _ k Hfit (bu_image _ _ _ _ _ _ _ _ _ _ _ _ HB) (bu_layouts _ _ _ _ _ _ _ _ _ _ _ _ HB) (bu_independent _ _ _ _ _ _ _ _ _ _ _ _ HB) Hw Hn) in H.
  injection H as <- <-. split; [reflexivity|]. intros q. unfold store. destruct (String.eqb_spec q rom) as [->|_]; congruence.
Qed.
Lemma built_resume b t order order1 order2 o o1 o2 fl c rom f f' f1 f2 res r m Ls n1 n2 : built b t order o fl c rom f f' r m Ls ->
  (forall i, permutes (order1 i)) -> (forall i, permutes (order2 i)) -> reads_elsewhere c rom m ->
  os_rom o1 = Rom.Wrote n1 -> run b t order1 o1 fl c f = (Ok tt, f1) ->
  os_open o2 rom = true -> os_rom o2 = Rom.Wrote n2 -> (length r <= n2)%nat -> run b t order2 o2 fl c f1 = (res, f2) ->
  res = Ok tt /\ same_files f' f2.
Proof.
  intros HB Ho1 Ho2 Hel Hw1 H1 Hop Hw2 Hn2 H2. pose proof (bu_rom _ _ _ _ _ _ _ _ _ _ _ _ HB) as Hr.
  assert (HI := bu_image _ _ _ _ _ _ _ _ _ _ _ _ HB). assert (HL := bu_layouts _ _ _ _ _ _ _ _ _ _ _ _ HB). assert (HD := bu_independent _ _ _ _ _ _ _ _ _ _ _ _ HB).
  assert (Hoth := run_others _ _ _ _ _ _ _ _ _ (bu_command _ _ _ _ _ _ _ _ _ _ _ _ HB) (bu_run _ _ _ _ _ _ _ _ _ _ _ _ HB)).
  destruct (rerun _ _ _ order1 _ _ _ _ _ _ _ _ _ HB Ho1 Hel) as (m1 & sss1 & k1 & ra & _ & Hra & Hfit1 & Hk1 & Hwa & Hrun1).
  destruct (rerun _ _ _ order2 _ _ _ _ _ _ _ _ _ HB Ho2 Hel) as (m2 & sss2 & k2 & rb & _ & Hrb & Hfit2 & Hk2 & Hwb & Hrun2).
  assert (rb = ra) by congruence. subst rb.
  rewrite (Hrun1 f r o1 (fun _ _ => eq_refl) Hr), Hw1 in H1.
  destruct (os_open o1 rom); [|unfold Rom.rom_write in H1; discriminate].
  destruct (cut_short _ _ _ _ _ _ _ n1 _ Hwa Hk1) as (q & Hq & Hhalf). rewrite Hq in H1. injection H1 as <-.
  rewrite (Hrun2 (store f rom q) q o2) in H2; [|intros x Hx; apply store_other; exact Hx|apply store_same]. rewrite Hop, Hw2 in H2.
  rewrite (write_resume _ _ _ _ _ _ _ _ _ _ _ Hfit2 HI HL HD Hwb Hk2 Hhalf Hn2) in H2.
  injection H2 as <- <-. split; [reflexivity|]. intros x. unfold store. destruct (String.eqb_spec x rom) as [->|Hx]; [congruence|]. symmetry. apply Hoth. exact Hx.
Qed.

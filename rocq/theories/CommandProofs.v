(** CommandProofs.v: proofs for C70. *)
From Coq Require Import ZArith List String Lia.
From Verif Require Import Base F32 Messages Command Track SeqTree Song Paths Manifest Midi Json Cli SpecSong SpecMidi SpecNotes SpecFile SpecVoices SpecVoice SpecLoop SpecRom SpecBank SpecAram SpecPlayback
  SpecConsole SpecJson SpecScore.
From Verif Require Rom.
From Verif Require Import ProofLib Run SpecRun SpecCommand SongProofs SongMore SongBytes OptExpand ReadProofs2 RunProofs RomBanks RomFinal ConsoleProofs ScoreProofs JsonProofs CommandPaths.
Import ListNotations.
Open Scope Z_scope.
Open Scope list_scope.

(** ** A converted track makes no calls. *)
Definition flat (pc : pcmd) : Prop := forall t k, cmd pc <> CallLoop t k.
Lemma flat_app l pc : Forall flat l -> flat pc -> Forall flat (l ++ [pc]).
Proof. intros H1 H2. apply Forall_app. split; [exact H1|]. constructor; [exact H2|constructor]. Qed.
Lemma flat_rests l b e at_ tpb r : insert_rest b l e at_ tpb = Ok r -> Forall flat l -> Forall flat (fst r).
Proof.
  unfold insert_rest. destruct (e <? at_); [|intros [= <-]; auto]. intros H HF. inv_bind H. inv_bind H. injection H as <-. cbn [fst].
  assert (H1 : Forall flat (l ++ repeat (rest_cmd 0x7f) (Z.to_nat (overflow_count a)))).
  { apply Forall_app. split; [exact HF|]. apply Forall_forall. intros x Hx. apply repeat_spec in Hx. subst x. intros t k E. discriminate. }
  destruct (0 <? d_length a); [apply flat_app; [exact H1|intros t k E; discriminate]|exact H1].
Qed.
Lemma flat_step b tpb tf s ev s' : track_step b tpb tf s ev = Ok s' -> Forall flat (commands s) -> Forall flat (commands s').
Proof.
  destruct ev as [m at_]. cbn [track_step]. intros H HF. destruct m as [|? event|? event|]; try (injection H as <-; exact HF).
  - unfold on_meta in H. destruct event; [|injection H as <-; exact HF]. inv_bind H. injection H as <-. cbn [set_commands commands].
    apply flat_app; [exact HF|intros t k E; discriminate].
  - destruct event; try (injection H as <-; exact HF).
    + unfold on_note_off in H. destruct (note_start s); [|injection H as <-; exact HF]. inv_bind H. inv_bind H. cbv zeta in H. inv_bind H. inv_bind H. injection H as <-. cbn [commands].
      assert (Hc : forall t k, a1 <> CallLoop t k).
      { destruct (match last_opt (commands s) with Some c => is_slide c | None => false end); [injection Ha1 as <-; discriminate|]. inv_bind Ha1. injection Ha1 as <-. discriminate. }
      apply Forall_app. split; [exact HF|]. constructor; [exact Hc|]. unfold overflow_ties. destruct (0 <? overflow_count a0); [|constructor].
      apply flat_app; [|intros t k E; discriminate]. apply Forall_forall. intros x Hx. apply repeat_spec in Hx. subst x. intros t k E. discriminate.
    + unfold on_note_on in H. inv_bind H. destruct a as [c1 e]. inv_bind H. destruct (note_start s); [discriminate|]. injection H as <-. cbn [commands].
      apply flat_rests in Ha; [|exact HF]. cbn [fst] in Ha. unfold push_slide in Ha0. destruct (portamento s); [|injection Ha0 as <-; exact Ha].
      destruct (last_opt c1) as [last|]; [|injection Ha0 as <-; exact Ha]. inv_bind Ha0. inv_bind Ha0. unfold create_pitch_slide in Ha0.
      destruct (cmd last); try (injection Ha0 as <-; exact Ha); destruct (duration last); injection Ha0 as <-; try exact Ha; (apply flat_app; [exact Ha|intros t k E; discriminate]).
    + unfold on_control_change in H. destruct (control =? 5); [injection H as <-; exact HF|]. destruct (control =? 7).
      { inv_bind H. injection H as <-. apply flat_app; [exact HF|intros t k E; discriminate]. }
      destruct (control =? 37); [injection H as <-; exact HF|]. destruct (control =? 65); injection H as <-; exact HF.
    + unfold on_program_change in H. inv_bind H. destruct a as [c1 e]. inv_bind H. injection H as <-. cbn [commands]. apply flat_rests in Ha; [|exact HF].
      apply flat_app; [exact Ha|intros t k E; discriminate].
Qed.
Lemma flat_steps b tpb tf evs : forall s s', ofold (track_step b tpb tf) evs s = Ok s' -> Forall flat (commands s) -> Forall flat (commands s').
Proof.
  induction evs as [|ev evs IH]; intros s s' H HF; cbn [ofold] in H; [injection H as <-; exact HF|]. inv_bind H. eapply IH; [exact H|]. eapply flat_step; eassumption.
Qed.
Lemma flat_sustain n : forall l l', (length l <= n)%nat -> sustain_pass l = Ok l' -> Forall flat l -> Forall flat l'.
Proof.
  induction n as [|n IH]; intros l l' Hn H HF.
  - destruct l; [|cbn in Hn; lia]. injection H as <-. constructor.
  - destruct l as [|c l]; [injection H as <-; constructor|]. cbn [sustain_pass] in H. destruct l as [|x l]; [injection H as <-; exact HF|].
    inv_bind H. destruct a as [skip c']. inv_bind H. injection H as <-. inversion HF as [|? ? H1 H2]; subst. constructor.
    + unfold set_sustain in Ha. destruct (cmd c) eqn:Ec; try (injection Ha as <- <-; exact H1).
      destruct (cmd x); try (injection Ha as <- <-; exact H1). inv_bind Ha. inv_bind Ha. cbv zeta in Ha. destruct (_ =? 0); [discriminate|].
      destruct (_ || _); injection Ha as <- <-; [|exact H1]. intros t k E. cbn [cmd] in E. congruence.
    + destruct skip; [apply (IH l)|apply (IH (x :: l))]; try exact Ha0; try assumption; cbn [length] in Hn |- *; try lia. now inversion H2.
Qed.
Lemma track_flat b evs tpb mt tf tr : track_new b evs tpb mt tf = Ok tr -> loop_free tr.
Proof.
  unfold track_new. intros H. inv_bind H. apply flat_steps in Ha; [|constructor].
  assert (HG : Forall flat tr).
  { destruct (commands a) as [|c l] eqn:E; [injection H as <-; constructor|]. rewrite <- E in *. inv_bind H. eapply (flat_sustain _ _ _ (le_n _) H).
    destruct (last_note_end a <? mt); [eapply flat_rests; eassumption|injection Ha0 as <-; exact Ha]. }
  exact HG.
Qed.
Lemma voices_flat b voices tpb mt tf trs : voice_tracks b voices tpb mt tf trs -> Forall loop_free trs.
Proof.
  intros (ts & HF & ->). apply Forall_forall. intros tr Htr. apply filter_In in Htr. destruct Htr as [Htr _].
  clear - HF Htr. induction HF as [|ev x l l' H _ IH]; [destruct Htr|]. destruct Htr as [->|Htr]; [eapply track_flat; exact H|auto].
Qed.

(** ** The export. *)
Lemma exported b t order o fl p out f f' : (forall k, permutes (order k)) -> readable_midi t f p ->
  (forall s, song_from_midi_file b (world_of t f) order (negb (skip_optimization fl)) p DEFAULT_TEMPO_ADJUST = Ok s -> text_kept t s) ->
  run b t order o fl (CMidi2Json p out) f = (Ok tt, f') ->
  exists s, song_from_midi_file b (world_of t f) order (negb (skip_optimization fl)) p DEFAULT_TEMPO_ADJUST = Ok s /\ holds_song t f' out s.
Proof.
  intros Ho (content & cbs & complete & Hf & Hp & Hty & Hfo & Hmv) Hk H. apply run_json_ok in H. destruct H as (v & Hv & ->).
  unfold midi2json in Hv. inv_bind Hv. injection Hv as <-. rename a into s. exists s. split; [exact Ha|]. destruct (Hk s Ha) as [Hsmall Htext].
  exists (print_json t (song_to_json s)), (song_to_json s). split; [unfold store; now rewrite String.eqb_refl|]. split; [exact Htext|].
  apply song_iff. assert (Hs : song_ok s).
  { unfold song_from_midi_file in Ha. cbn [world_of midi_file] in Ha. rewrite Hf, Hp in Ha. inv_bind Ha.
    destruct (read_valid b cbs complete order a Hty Ho Hfo Hmv Ha0) as [H8 HV]. apply (converted_song_ok _ _ _ _ _ _ _ (eq_ind_r (fun n => (n <= 8)%nat) (le_n 8) H8) HV Ha Hsmall). }
  apply song_round_trip in Hs. unfold from_json in Hs. cbn [or_panic bind] in Hs. destruct (de_song (song_to_json s)) as [s'|]; [|discriminate]. cbn [or_panic] in Hs. congruence.
Qed.
Lemma flat_and_compressed b w order p tf s0 s : (forall k, permutes (order k)) -> Forall callback_typed (fst (midi_file w p)) ->
  song_from_midi_file b w order false p tf = Ok s0 -> song_from_midi_file b w order true p tf = Ok s -> flat_song s0 /\ compressed s0 s.
Proof.
  intros Ho Hty. unfold song_from_midi_file. destruct (midi_file w p) as [cbs complete]. cbn [fst] in Hty. intros H0 H. inv_bind H0. inv_bind H. rewrite Ha in Ha0. injection Ha0 as <-.
  assert (H8 : length (h_voices a) = 8%nat) by apply (read_voices b cbs complete order a Hty Ho Ha).
  pose proof (song_shape _ _ _ _ _ _ _ H0) as (trs & Hvt & Hlen & Hp & _ & Ht). specialize (Ht eq_refl). pose proof (voices_flat _ _ _ _ _ _ Hvt) as HF.
  split.
  - split; [rewrite Ht; lia|]. rewrite Ht. split; [exact Hp|exact HF].
  - unfold song_from_midi in H0, H. inv_bind H0. inv_bind H. rewrite Ha0 in Ha1. injection Ha1 as <-. cbv zeta in H0, H. injection H0 as <-. cbn [tracks] in *. subst a0.
    inv_bind H. injection H as <-. split; [reflexivity|]. cbn [tracks]. split; [exact (optimize_wfl _ _ _ HF Ha1)|]. intros Hn. exact (optimize_same _ _ _ HF Hn Ha1).
Qed.
Lemma export b t order order' o o' verbose verbose' p out out' f f0 f1 :
  (forall k, permutes (order k)) -> (forall k, permutes (order' k)) -> readable_midi t f p ->
  (forall opt s, song_from_midi_file b (world_of t f) order opt p DEFAULT_TEMPO_ADJUST = Ok s -> text_kept t s) ->
  run b t order o (mk_flags true verbose) (CMidi2Json p out) f = (Ok tt, f0) ->
  run b t order' o' (mk_flags false verbose') (CMidi2Json p out') f = (Ok tt, f1) ->
  exists s0 s, holds_song t f0 out s0 /\ holds_song t f1 out' s /\ flat_song s0 /\ compressed s0 s.
Proof.
  intros Ho Ho' Hr Hk H0 H1.
  destruct (exported _ _ _ _ _ _ _ _ _ Ho Hr (fun s => Hk _ s) H0) as (s0 & E0 & HH0).
  destruct (exported b t order' o' (mk_flags false verbose') p out' f f1 Ho' Hr) as (s & E1 & HH1); [|exact H1|].
  { intros s E. apply (Hk true). rewrite <- E. apply midi_same; assumption. }
  exists s0, s. split; [exact HH0|]. split; [exact HH1|]. cbn [skip_optimization negb] in E0, E1. rewrite (midi_same _ _ order' order) in E1 by assumption.
  eapply flat_and_compressed; [exact Ho| |exact E0|exact E1]. destruct Hr as (content & cbs & complete & Hf & Hp & Hty & _). cbn [world_of midi_file]. rewrite Hf, Hp. exact Hty.
Qed.

(** ** The slots of a ROM command. *)
Lemma slot_unique v dir bank name sd sd' : slot_spec v dir bank name sd -> slot_spec v dir bank name sd' -> sd = sd'.
Proof.
  intros [(s & Es & H1) H2 H3] [(s' & Es' & H1') H2' H3']. rewrite Es in Es'. injection Es' as <-. destruct sd, sd'. cbn [Manifest.input Manifest.loops Manifest.tempo_factor] in *. congruence.
Qed.
Lemma wanted_unique t f c bank name sd sd' : wanted t f c bank name sd -> wanted t f c bank name sd' -> sd = sd'.
Proof.
  destruct c; cbn [wanted]; try tauto; try congruence. intros (c & v & d & Hc & Hv & Hd & Hs) (c' & v' & d' & Hc' & Hv' & Hd' & Hs').
  rewrite Hc in Hc'. injection Hc' as <-. rewrite Hv in Hv'. injection Hv' as <-. apply parent_directory in Hd, Hd'. rewrite Hd in Hd'. injection Hd' as <-.
  eapply slot_unique; eassumption.
Qed.
Lemma map_nth_len {A B C} (f : A -> list C) (g : B -> list string) (l : list A) (l' : list B) i a b :
  map (fun x => length (f x)) l = map (fun x => length (g x)) l' -> nth_error l i = Some a -> nth_error l' i = Some b -> length (f a) = length (g b).
Proof.
  intros E Ha Hb. apply (map_nth_error (fun x => length (f x))) in Ha. apply (map_nth_error (fun x => length (g x))) in Hb. rewrite E, Hb in Ha. congruence.
Qed.
Lemma nth_ext_eq {A} (l l' : list A) : (forall i, nth_error l i = nth_error l' i) -> l = l'.
Proof.
  revert l'. induction l as [|x l IH]; intros [|y l'] H; [reflexivity|specialize (H 0%nat); discriminate|specialize (H 0%nat); discriminate|].
  f_equal; [specialize (H 0%nat); cbn in H; congruence|]. apply IH. intros i. exact (H (S i)).
Qed.
Lemma asked_unique t f c m m' : asked t f c m -> asked t f c m' -> map songs m = map songs m'.
Proof.
  intros [A1 A2] [B1 B2]. assert (L : length m = length m') by (unfold all_slots in *; apply (f_equal (@length nat)) in A1, B1; rewrite !map_length in A1, B1; congruence).
  apply nth_ext_eq. intros i. destruct (nth_error m i) as [bk|] eqn:E.
  - destruct (nth_error m' i) as [bk'|] eqn:E'; [|apply nth_error_None in E'; assert (i < length m)%nat by (apply nth_error_Some; congruence); lia].
    rewrite (map_nth_error songs _ _ E), (map_nth_error songs _ _ E'). f_equal.
    assert (Hi : (i < length slots)%nat).
    { unfold all_slots in A1. apply (f_equal (@length nat)) in A1. rewrite !map_length in A1. rewrite <- A1. apply nth_error_Some. congruence. }
    apply nth_error_Some in Hi. destruct (nth_error slots i) as [[bank names]|] eqn:Es; [|congruence]. clear Hi.
    assert (L1 : length (songs bk) = length names) by exact (map_nth_len songs (@snd string (list string)) m slots i bk (bank, names) A1 E Es).
    assert (L2 : length (songs bk') = length names) by exact (map_nth_len songs (@snd string (list string)) m' slots i bk' (bank, names) B1 E' Es).
    apply nth_ext_eq. intros j. destruct (nth_error names j) as [name|] eqn:En.
    + assert (Hj : (j < length names)%nat) by (apply nth_error_Some; congruence).
      destruct (nth_error (songs bk) j) as [sd|] eqn:Ej; [|apply nth_error_None in Ej; lia].
      destruct (nth_error (songs bk') j) as [sd'|] eqn:Ej'; [|apply nth_error_None in Ej'; lia]. f_equal.
      apply (wanted_unique t f c bank name); [apply A2; exists i, j, names, bk; auto|apply B2; exists i, j, names, bk'; auto].
    + apply nth_error_None in En. rewrite (proj2 (nth_error_None (songs bk) j)) by lia. rewrite (proj2 (nth_error_None (songs bk') j)) by lia. reflexivity.
  - apply nth_error_None in E. rewrite (proj2 (nth_error_None (map songs m) i)) by (rewrite map_length; lia).
    rewrite (proj2 (nth_error_None (map songs m') i)) by (rewrite map_length; lia). reflexivity.
Qed.
Lemma fit_songs b conv i first m Ls sss : banks_fit b conv i first m Ls sss -> forall m', map songs m = map songs m' -> banks_fit b conv i first m' Ls sss.
Proof.
  induction 1 as [i first|i first fa bk L ss ls bks Ls sss Hfa Hb _ IH]; intros m' E; destruct m' as [|bk' m']; try discriminate; [constructor|].
  cbn [map] in E. injection E as E1 E2. econstructor; [exact Hfa|rewrite <- E1; exact Hb|]. rewrite <- E1. apply IH. exact E2.
Qed.
Lemma count_songs_map m m' k : map songs m = map songs m' -> count_songs (firstn k m) = count_songs (firstn k m').
Proof.
  intros E. unfold count_songs. f_equal. rewrite <- (map_map songs (@length song_def)), <- (map_map songs (@length song_def) (firstn k m')). rewrite <- !firstn_map, E. reflexivity.
Qed.

(** ** What a ROM command does. *)
Lemma addresses_read c al : addresses c al -> read_bank_addrs (address_option c) = Ok al.
Proof.
  unfold addresses. destruct (address_option c) as [l|]; [|intros ->; exact default_addresses].
  intros [L H]. destruct l as [|x [|y [|z [|]]]]; try discriminate. inversion H as [|? nx ? l1 Hx H1]; subst. inversion H1 as [|? ny ? l2 Hy H2]; subst. inversion H2 as [|? nz ? l3 Hz H3]; subst.
  inversion H3; subst. apply bank_addrs; assumption.
Qed.
Lemma command_rom b t order o fl c rom f f' r al m : builds_rom c rom -> f rom = Some r -> addresses c al -> asked t f c m ->
  run b t order o fl c f = (Ok tt, f') ->
  exists m' r', map songs m = map songs m' /\ f' rom = Some r' /\
    Rom.rom_write b (verbose_flag fl) m' r (os_open o rom) al (converter b (world_of t f) order (negb (skip_optimization fl))) (os_rom o) = (Ok tt, r').
Proof.
  intros Hc Hr Hal Hm H. apply addresses_read in Hal.
  assert (K : forall op m', (forall content openable, op content openable =
      Rom.rom_write b (verbose_flag fl) m' content openable al (converter b (world_of t f) order (negb (skip_optimization fl))) (os_rom o)) -> asked t f c m' ->
    on_rom f o rom op = (Ok tt, f') -> exists m' r', map songs m = map songs m' /\ f' rom = Some r' /\
    Rom.rom_write b (verbose_flag fl) m' r (os_open o rom) al (converter b (world_of t f) order (negb (skip_optimization fl))) (os_rom o) = (Ok tt, r')).
  { intros op m' Hop Hm' Hrun. unfold on_rom in Hrun. rewrite Hr, Hop in Hrun. exists m'.
    destruct (Rom.rom_write b (verbose_flag fl) m' r (os_open o rom) al _ (os_rom o)) as [res r'] eqn:E. injection Hrun as -> <-. exists r'.
    split; [exact (asked_unique _ _ _ _ _ Hm Hm')|]. split; [unfold store; now rewrite String.eqb_refl|reflexivity]. }
  destruct c; cbn [builds_rom] in Hc; try contradiction; subst; cbn [run address_option] in H, Hal.
  - unfold run_build_rom in H. rewrite Hal in H. destruct (json_file (world_of t f) manifest) as [v|] eqn:Ev.
    2:{ exfalso. assert (Hn : forall d, on_rom f o rom (fun content openable => build_rom b (verbose_flag fl) (negb (skip_optimization fl)) (world_of t f) order manifest d content openable al (os_rom o)) = (Ok tt, f') -> False).
        { intros d. unfold on_rom, build_rom. rewrite Hr, Ev. discriminate. }
        destruct (parent manifest); eapply Hn; exact H. }
    destruct (parent manifest) as [d|] eqn:Ed; [|discriminate]. destruct (manifest_new v d) as [m'| | |] eqn:Em;
      [|exfalso; revert H; unfold on_rom, build_rom; rewrite Hr, Ev, Em; discriminate..].
    refine (K _ m' _ _ H); [intros; unfold build_rom; rewrite Ev, Em; reflexivity|].
    destruct (manifest_slots _ _ _ Em) as [S1 S2]. split; [exact S1|]. intros bank name sd Hs.
    assert (Hd : directory manifest d).
    { destruct Hm as [Hm1 Hm2]. assert (Hex : exists sd0, slot_is m "overworld" "Title" sd0).
      { unfold all_slots in Hm1. cbn [slots map snd length] in Hm1. destruct m as [|bk m]; [discriminate|]. cbn [map] in Hm1. injection Hm1 as Hm1 _.
        destruct (songs bk) as [|sd0 l] eqn:Eb; [discriminate|]. exists sd0, 0%nat, 0%nat. eexists. exists bk. split; [reflexivity|]. split; [reflexivity|]. split; [reflexivity|]. rewrite Eb. reflexivity. }
      destruct Hex as [sd0 H0]. apply Hm2 in H0. cbn [wanted] in H0. destruct H0 as (_ & _ & d' & _ & _ & Hd & _). pose proof (parent_directory _ _ Hd) as E. rewrite Ed in E. injection E as <-. exact Hd. }
    cbn [wanted]. cbn [world_of json_file] in Ev. destruct (f manifest) as [content|]; [|discriminate]. exists content, v, d. auto.
  - unfold run_one_song in H. rewrite Hal in H. refine (K _ (manifest_single_song input) _ _ H); [reflexivity|].
    destruct (single_slots input) as [S1 S2]. split; [exact S1|]. intros bank name sd Hs. apply S2 in Hs. destruct sd as [i tf lp]. cbn in Hs. cbn [wanted]. destruct Hs as (-> & -> & ->). reflexivity.
  - unfold run_one_song in H. rewrite Hal in H. refine (K _ (manifest_file_select input) _ _ H); [reflexivity|].
    destruct (select_slots input) as [S1 S2]. split; [exact S1|]. intros bank name sd Hs. apply S2 in Hs. exact Hs.
Qed.

(** ** What the console plays after a ROM command. *)
Lemma command_heard b t order o fl c rom f f' r m Ls sss n : (forall i, permutes (order i)) ->
  builds_rom c rom -> f rom = Some r -> is_image r -> asked t f c m ->
  addresses c (map lo_addr Ls) -> Forall (layout_ok r) Ls -> ForallOrdPairs independent Ls ->
  banks_fit b (converter b (world_of t f) order (negb (skip_optimization fl))) 0 0 m Ls sss ->
  os_rom o = Rom.Wrote n -> (length r <= n)%nat -> run b t order o fl c f = (Ok tt, f') ->
  exists r', f' rom = Some r' /\ length r' = length r /\
  forall k bk L j sd, nth_error m k = Some bk -> nth_error Ls k = Some L -> zero_free L -> nth_error (songs bk) j = Some sd ->
  lo_in r' L /\ exists a, holds (aram r' (lo_blocks L)) (0xd000 + 2 * Z.of_nat (count_songs (firstn k m) + j)) a /\
    (if loops sd then starts_again (aram r' (lo_blocks L)) a else stops (aram r' (lo_blocks L)) a) /\
    (forall p cbs, Manifest.input sd = Some p -> mid_file p -> good_midi b (world_of t f) order (negb (skip_optimization fl)) p (Manifest.tempo_factor sd) cbs ->
       sounds_like (aram r' (lo_blocks L)) a cbs) /\
    (Manifest.input sd = None -> song_plays (aram r' (lo_blocks L)) a (repeat [] 8)) /\
    (forall p s part, Manifest.input sd = Some p -> ~ mid_file p -> holds_song t f p s -> song_parts s part ->
       Forall (fun i => forall tr, nth_error (tracks s) i = Some tr -> loop_free tr /\ SpecNspc.well_formed tr) part ->
       exists ess, song_plays (aram r' (lo_blocks L)) a ess /\ plays_part (plays_exactly s) part ess).
Proof.
  intros Ho Hc Hr Hi Hm Hal HL HI Hfit Hos Hn H. destruct (command_rom _ _ _ _ _ _ _ _ _ _ _ _ Hc Hr Hal Hm H) as (m' & r' & Em & Hr' & Hw). rewrite Hos in Hw.
  exists r'. split; [exact Hr'|]. split.
  { destruct (run_rom _ _ _ _ _ _ _ _ _ _ Hc H) as (_ & _ & HH). destruct (HH _ Hr) as (c' & Ec' & L'). rewrite Hr' in Ec'. injection Ec' as <-. exact L'. }
  intros k bk L j sd Hk HLk Hz Hj. pose proof (fit_songs _ _ _ _ _ _ _ Hfit m' Em) as Hfit'.
  assert (Hk' : exists bk', nth_error m' k = Some bk' /\ songs bk' = songs bk).
  { apply (map_nth_error songs) in Hk. rewrite Em in Hk. destruct (nth_error m' k) as [bk'|] eqn:E.
    - apply (map_nth_error songs) in E. exists bk'. split; [reflexivity|congruence].
    - apply nth_error_None in E. rewrite (proj2 (nth_error_None (map songs m') k)) in Hk by (rewrite map_length; lia). discriminate. }
  destruct Hk' as (bk' & Hk' & Ebk). rewrite <- Ebk in Hj. rewrite (count_songs_map _ _ k Em).
  destruct (console _ _ _ _ _ _ _ _ _ _ _ _ _ _ _ _ _ Ho Hfit' Hi HL HI Hw Hn Hk' HLk Hz Hj) as (C1 & a & C2 & C3 & C4 & C5).
  split; [exact C1|]. exists a. split; [exact C2|]. split; [exact C3|]. split; [intros p cbs Hp Hmid; apply (C4 p cbs Hp); apply extension_mid; exact Hmid|]. split; [exact C5|].
  intros p s part Hp Hmid (content & v & Hf & Hv & Hs) Hpart HF.
  destruct (json_exact _ _ _ _ _ _ _ _ _ _ _ _ _ _ _ _ _ p s part Hfit' Hi HL HI Hw Hn Hk' HLk Hz Hj Hp) as (a' & ess & A1 & _ & A3 & A4); try assumption.
  - intros E. apply Hmid. apply extension_mid. exact E.
  - cbn [world_of json_file]. rewrite Hf. apply reads_iff. exists v. auto.
  - assert (a' = a) as ->; [|eauto]. destruct A1 as (X1 & X2 & X3), C2 as (Y1 & Y2 & Y3). rewrite X1 in Y1. rewrite X2 in Y2. injection Y1 as Y1. injection Y2 as Y2.
    rewrite (Z.div_mod a' 256), (Z.div_mod a 256) by lia. congruence.
Qed.

(** ** The dummy ROM. *)
Lemma command_dummy b t order o fl input output f f' r n : f input = Some r -> is_image r -> (forall old, f output = Some old -> (length old <= length r)%nat) ->
  os_rom o = Rom.Wrote n -> (length r <= n)%nat -> run b t order o fl (CGenFakeRom input output) f = (Ok tt, f') ->
  exists d, f' output = Some d /\ length d = length r /\
    (forall a, In a [0x914; 0x926; 0x932] -> bank_chain d a = bank_chain r a /\ exists bs t, chain r (bank_chain r a) bs t /\ chain d (bank_chain d a) bs t) /\
    (forall x, 0 <= x -> ~ (exists a, In a [0x914; 0x926; 0x932] /\ bank_kept r a x) -> byte d x = 0) /\
    (forall x, 0 <= x -> (exists a, In a [0x914; 0x926; 0x932] /\ bank_kept r a x) -> byte d x = byte r x).
Proof.
  intros Hf Hr Hold Hos Hn H. cbn [run] in H. unfold run_gen_fake_rom in H. rewrite Hf in H.
  destruct (Rom.fake_image b r Rom.DEFAULT_BANK_BASE_ADDRS) as [d| | |] eqn:E; try discriminate. destruct (os_create o output); [|discriminate].
  destruct (Rom.gen_fake_rom b r Rom.DEFAULT_BANK_BASE_ADDRS (match f output with Some c => c | None => [] end) (os_rom o)) as [res d'] eqn:E'. injection H as -> <-.
  rewrite Hos in E'. assert (HA : Forall addr_ok Rom.DEFAULT_BANK_BASE_ADDRS) by (unfold addr_ok; repeat (apply Forall_cons; [lia|]); apply Forall_nil).
  apply dummy_file in E'; try assumption; [|destruct (f output) as [old|]; [auto|cbn; lia]]. rewrite E in E'. injection E' as <-.
  exists d. split; [unfold store; now rewrite String.eqb_refl|]. destruct (dummy b r _ d Hr HA E) as (D1 & D2 & D3 & D4 & _). auto.
Qed.

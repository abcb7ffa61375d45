(** SafeProofs.v: the commands that build a ROM never crash in a release build (C76). *)
From Coq Require Import ZArith List Bool Lia ZifyBool ZifyNat String.
From Verif Require Import SpecPath PathProofs.
From Verif Require Import Base F32 Messages Command Track SeqTree Song Paths Manifest Rom Midi Json Cli SpecSong SpecMidi SpecVoice SpecVoices SpecLoop SpecNspc SpecRom SpecBank SpecJson
  Run SpecRun SpecCommand SpecSuccess SpecSafe ProofLib CodecProofs SongProofs JsonProofs SongBytes OptExpand AramMore RomBanks RomFinal RunProofs CommandPaths CommandProofs RomSuccess NoCrash ReadProofs2 RomSafe.
Import ListNotations.
Open Scope Z_scope.
Open Scope list_scope.

(** ** Converted songs can be written. *)
Lemma refs_from l : forall dur vs pos x, In x (list_refs l dur vs pos) -> exists pc k, In pc l /\ cmd pc = CallLoop (target_track x) k.
Proof.
  induction l as [|pc l IH]; intros dur vs pos x Hx; cbn [list_refs] in Hx; [destruct Hx|]. apply in_app_or in Hx. destruct Hx as [Hx|Hx].
  - exists pc. destruct (cmd pc) eqn:E; cbn [cmd_ref] in Hx; try destruct Hx as [<-|[]]; try destruct Hx. cbn [target_track]. eexists. split; [left; reflexivity|first [exact E|reflexivity]].
  - destruct (IH _ _ _ _ Hx) as (pc' & k & H1 & H2). exists pc', k. split; [right; exact H1|exact H2].
Qed.
Lemma written_refs s i d x : write_track s [] i [] = Ok d -> In x (snd d) -> exists tr pc k, nth_error (tracks s) i = Some tr /\ In pc tr /\ cmd pc = CallLoop (target_track x) k.
Proof.
  intros H Hx. unfold write_track in H. inv_bind H. apply or_panic_ok in Ha. destruct a as [|c tr]; [injection H as <-; destruct Hx|].
  inv_bind H. cbn zeta in H. unfold track_write in H. rewrite track_write_from_eq in H.
  match type of H with context [list_refs ?l ?a ?b ?c] => remember (list_refs l a b c) as rl eqn:EL end. injection H as <-. cbn [snd app] in Hx. subst rl.
  destruct (refs_from _ _ _ _ _ Hx) as (pc & k & H1 & H2). exists (c :: tr), pc, k. auto.
Qed.
Lemma opens_single n i : (0 < n)%nat -> exists x, opens_a_part [seq 0 n] i = Ok x.
Proof. intros H. destruct n as [|n]; [lia|]. cbn [seq opens_a_part]. destruct (Nat.eqb 0 i); eauto. Qed.
Lemma single_written n trs i : (0 < n)%nat -> (i < length trs)%nat -> exists d, write_track (mk_song [seq 0 n] trs) [] i [] = Ok d.
Proof.
  intros Hn Hi. unfold write_track. cbn [tracks parts]. destruct (nth_error trs i) as [tr|] eqn:E; [|apply nth_error_None in E; lia]. cbn [or_panic bind].
  destruct tr; [eauto|]. destruct (opens_single n i Hn) as [x ->]. cbn [bind]. destruct (track_write _ _ _). eauto.
Qed.
Lemma shape_ready n trs : (n <= 8)%nat -> (n <= length trs)%nat -> (n = 0%nat -> trs = []) -> Forall (Forall pc_bytes) trs ->
  (forall i tr pc t k, nth_error trs i = Some tr -> In pc tr -> cmd pc = CallLoop t k -> (t < length trs)%nat) ->
  exists l, song_ready (mk_song [seq 0 n] trs) l /\ song_closed (mk_song [seq 0 n] trs) l.
Proof.
  intros H8 Hn H0 Hb Ht. set (s := mk_song [seq 0 n] trs).
  destruct (encodes_seq s) with (n := length trs) (k := 0%nat) as (l & Hl & Hi); [|reflexivity|].
  { intros i Hi. change (tracks s) with trs in Hi. apply single_written; [|exact Hi]. destruct n; [|lia]. rewrite (H0 eq_refl) in Hi. cbn in Hi. lia. }
  exists l. split; [split; [split; [exact Hl|exact Hi]|split]|split].
  - intros part E. injection E as <-. rewrite seq_length. exact H8.
  - apply Forall_forall. intros d Hd. apply In_nth_error in Hd. destruct Hd as (i & E). eapply (written_u8 s); [exact Hb|apply (Hi i); exact E].
  - exists (seq 0 n). split; [reflexivity|]. apply Forall_forall. intros i Hx. apply in_seq in Hx. eapply Nat.lt_le_trans; [apply Hx|exact Hn].
  - apply Forall_forall. intros d Hd. apply Forall_forall. intros x Hx. apply In_nth_error in Hd. destruct Hd as (i & E).
    destruct (written_refs _ _ _ _ (Hi i d E) Hx) as (tr & pc & k & K1 & K2 & K3). eapply Ht; eassumption.
Qed.
Lemma no_tracks b r : optimize_call_loops b [] 0 = Ok r -> r = [].
Proof. destruct b; vm_compute; congruence. Qed.
Lemma song_safe b voices tpb mt tf opt s : length voices = 8%nat -> Forall (Forall (fun x => midi_valid (fst x))) voices ->
  song_from_midi b voices tpb mt tf opt = Ok s -> exists l, song_ready s l /\ song_closed s l.
Proof.
  intros H8 HV H. unfold song_from_midi in H. inv_bind H. cbv zeta in H. destruct (converted_in _ _ _ _ _ _ HV Ha) as [HI Hlen]. rewrite H8 in Hlen.
  assert (Hin : forall pc, inb pc -> pc_bytes pc).
  { intros pc [(I1 & I2 & I3 & I4) Hn]. repeat split; try assumption. unfold cmd_bytes. destruct (cmd pc); try exact I4. destruct I4 as [_ I4]. exact I4. }
  assert (Hfree : Forall loop_free a) by (eapply Forall_impl; [|exact HI]; intros; apply loop_free_in; assumption).
  destruct opt.
  - inv_bind H. injection H as <-. apply shape_ready; [exact Hlen|eapply optimize_length; [|exact Ha0]; lia| | |].
    + intros E. destruct a; [|discriminate]. exact (no_tracks _ _ Ha0).
    + eapply Forall_impl; [|exact (optimize_from _ _ _ Ha0)]. intros tr Htr. eapply Forall_impl; [|exact Htr]. intros pc [(tr0 & T1 & T2)|(t & k & Hk & ->)].
      * rewrite Forall_forall in HI. specialize (HI tr0 T1). rewrite Forall_forall in HI. apply Hin, HI, T2.
      * unfold pc_bytes. cbn. unfold u8. repeat split; lia.
    + destruct (optimize_wfl _ _ _ Hfree Ha0) as [W1 W2]. intros i tr pc t k Hi Hpc Hc. destruct (Nat.lt_ge_cases i (length a)) as [Hia|Hia].
      * apply (W1 i tr pc t k Hia Hi Hpc Hc).
      * destruct (W2 i tr Hia Hi) as (_ & W & _). rewrite Forall_forall in W. specialize (W pc Hpc). unfold may_loop in W. rewrite Hc in W. destruct W.
  - injection H as <-. apply shape_ready; [exact Hlen|apply Nat.le_refl| | |].
    + intros E. destruct a; [reflexivity|discriminate].
    + eapply Forall_impl; [|exact HI]. intros tr Htr. eapply Forall_impl; [exact Hin|exact Htr].
    + intros i tr pc t k Hi Hpc Hc. rewrite Forall_forall in Hfree. specialize (Hfree tr (nth_error_In _ _ Hi)). unfold loop_free in Hfree. rewrite Forall_forall in Hfree.
      destruct (Hfree pc Hpc _ _ Hc).
Qed.
Lemma midi_safe b t f order opt p tf s : (forall k, permutes (order k)) -> midi_input t f p -> song_from_midi_file b (world_of t f) order opt p tf = Ok s ->
  exists l, song_ready s l /\ song_closed s l.
Proof.
  intros Ho HM H. unfold song_from_midi_file in H. cbn [world_of midi_file] in H. destruct (f p) as [content|] eqn:Ef.
  - destruct (parse_midi t content) as [cbs complete] eqn:Ep. destruct (HM content cbs complete Ef Ep) as (H1 & H2 & H3 & H4). inv_bind H.
    eapply song_safe; [|eapply voices_valid; eassumption|exact H]. apply (read_voices b cbs complete order a H1 Ho Ha).
  - inv_bind H. discriminate Ha.
Qed.

(** ** Slots *)
Lemma release_slot t f order opt sd room : (forall k, permutes (order k)) -> good_input t f sd ->
  (forall p s l, Manifest.input sd = Some p -> converter Release (world_of t f) order opt p (Manifest.tempo_factor sd) = Ok s -> encodes s l -> Forall (fun d => data_len d <= room) l) ->
  slot_safe (converter Release (world_of t f) order opt) room sd /\
  forall p e, Manifest.input sd = Some p -> converter Release (world_of t f) order opt p (Manifest.tempo_factor sd) = Err e -> e = ECouldntFit \/ e = EMidiRead.
Proof.
  intros Ho Hg Hs.
  assert (K : forall p, Manifest.input sd = Some p -> has_name p /\
    ((exists s l, converter Release (world_of t f) order opt p (Manifest.tempo_factor sd) = Ok s /\ song_ready s l /\ song_closed s l) \/
     converter Release (world_of t f) order opt p (Manifest.tempo_factor sd) = Err ECouldntFit \/ converter Release (world_of t f) order opt p (Manifest.tempo_factor sd) = Err EMidiRead)).
  { intros p Hp. destruct (Hg p Hp) as [HM HJ]. destruct (converter_choice Release (world_of t f) order opt p (Manifest.tempo_factor sd)) as [C1 C2]. destruct (mid_dec p) as [Hm|Hm].
    - specialize (HM Hm). rewrite (C1 Hm). split; [destruct Hm as (stem & _ & Hm'); eexists; exact Hm'|].
      destruct (midi_file (world_of t f) p) as [cbs complete] eqn:Ew.
      assert (HI : Forall callback_typed cbs /\ Forall (Forall channel_ok) (tracks_of cbs) /\ Forall (Forall midi_valid) (tracks_of cbs) /\ format1 false cbs = true).
      { cbn [world_of midi_file] in Ew. destruct (f p) as [content|] eqn:Ef; [exact (HM content cbs complete Ef Ew)|]. injection Ew as <- <-. repeat split; constructor. }
      destruct HI as (H1 & H2 & H3 & H4).
      destruct (file_release _ order opt p (Manifest.tempo_factor sd) _ _ Ew H1 Ho H2 H3) as [((s & Es) & _)|[(E & _)|[(E & _)|(_ & E)]]].
      + left. destruct (midi_safe _ _ _ _ _ _ _ _ Ho HM Es) as (l & L1 & L2). exists s, l. auto.
      + right; left. exact E.
      + right; right. exact E.
      + congruence.
    - destruct (HJ Hm) as (Hfn & s & l & (content & v & Ef & Ev & Hv) & L1 & L2). split; [exact Hfn|]. left. exists s, l. split; [|auto]. rewrite (C2 Hm). apply reads_iff.
      exists v. split; [|exact Hv]. cbn [world_of json_file]. rewrite Ef. exact Ev. }
  split.
  - intros p Hp. destruct (K p Hp) as (Hfn & [(s & l & E & L1 & L2)|[E|E]]); (split; [exact Hfn|]); rewrite E.
    + split; [left; eauto|]. intros s' Es'. injection Es' as <-. exists l. split; [exact L1|]. split; [exact L2|]. apply (Hs p s l Hp E). apply L1.
    + split; [right; eauto|]. intros s' Es'. discriminate.
    + split; [right; eauto|]. intros s' Es'. discriminate.
  - intros p e Hp Ee. destruct (K p Hp) as (_ & [(s & l & E & _)|[E|E]]); rewrite E in Ee; [discriminate|injection Ee as <-; auto|injection Ee as <-; auto].
Qed.

(** ** Commands *)
Lemma asked_slot t f c m bank names name : asked t f c m -> In (bank, names) slots -> In name names -> exists sd, slot_is m bank name sd.
Proof.
  intros [Ha _] Hb Hn. apply In_nth_error in Hb. destruct Hb as (i & Hi). apply In_nth_error in Hn. destruct Hn as (j & Hj). unfold all_slots in Ha.
  assert (Him : (i < List.length m)%nat).
  { apply (f_equal (@List.length nat)) in Ha. rewrite !map_length in Ha. rewrite Ha. apply nth_error_Some. congruence. }
  destruct (nth_error m i) as [bk|] eqn:Em; [|apply nth_error_None in Em; lia].
  assert (HL : List.length (songs bk) = List.length names) by exact (map_nth_len songs (@snd string (list string)) m slots i bk (bank, names) Ha Em Hi).
  destruct (nth_error (songs bk) j) as [sd|] eqn:Ej; [|apply nth_error_None in Ej; apply nth_error_lt in Hj; lia].
  exists sd, i, j, names, bk. auto.
Qed.
Lemma command_runs b t order o fl c rom f r al m : builds_rom c rom -> f rom = Some r -> addresses c al -> asked t f c m ->
  exists m', map songs m = map songs m' /\
    fst (run b t order o fl c f) = fst (Rom.rom_write b (verbose_flag fl) m' r (os_open o rom) al (converter b (world_of t f) order (negb (skip_optimization fl))) (os_rom o)).
Proof.
  intros Hc Hr Hal Hm. apply addresses_read in Hal.
  assert (K : forall op m', (forall content openable, op content openable =
      Rom.rom_write b (verbose_flag fl) m' content openable al (converter b (world_of t f) order (negb (skip_optimization fl))) (os_rom o)) -> asked t f c m' ->
    exists m', map songs m = map songs m' /\ fst (on_rom f o rom op) = fst (Rom.rom_write b (verbose_flag fl) m' r (os_open o rom) al (converter b (world_of t f) order (negb (skip_optimization fl))) (os_rom o))).
  { intros op m' Hop Hm'. exists m'. split; [exact (asked_unique _ _ _ _ _ Hm Hm')|]. unfold on_rom. rewrite Hr, Hop.
    destruct (Rom.rom_write b (verbose_flag fl) m' r (os_open o rom) al _ (os_rom o)) as [res r']. reflexivity. }
  destruct c; cbn [builds_rom] in Hc; try contradiction; subst; cbn [run address_option] in *.
  - assert (Hsl : forall bank names name, In (bank, names) slots -> In name names -> exists content v d sd, f manifest = Some content /\ parse_json t content = Some v /\ directory manifest d /\ slot_spec v d bank name sd).
    { intros bank names name H1 H2. destruct (asked_slot _ _ _ _ _ _ _ Hm H1 H2) as [sd Hsd]. destruct Hm as [_ Hm]. specialize (Hm _ _ _ Hsd). cbn [wanted] in Hm.
      destruct Hm as (content & v & d & E1 & E2 & E3 & E4). exists content, v, d, sd. auto. }
    destruct (Hsl "overworld"%string OVERWORLD_SONGS "Title"%string) as (content & v & d & sd & E1 & E2 & Hd & _); [left; reflexivity|left; reflexivity|].
    pose proof (parent_directory _ _ Hd) as Ed.
    unfold run_build_rom. rewrite Hal. assert (Ev : json_file (world_of t f) manifest = Some v) by (cbn [world_of json_file]; rewrite E1; exact E2). rewrite Ev, Ed.
    destruct (manifest_fails v d) as [(m' & Em)|(_ & bank & names & name & B1 & B2 & B3)].
    + apply (K _ m'); [intros; unfold build_rom; rewrite Ev, Em; reflexivity|]. destruct (manifest_slots _ _ _ Em) as [S1 S2]. split; [exact S1|]. intros bank name sd' Hs.
      cbn [wanted]. exists content, v, d. auto.
    + exfalso. apply B3. destruct (Hsl bank names name B1 B2) as (content' & v' & d' & sd' & F1 & F2 & _ & [(s & Hs & _) _ _]). rewrite E1 in F1. injection F1 as <-. rewrite E2 in F2. injection F2 as <-.
      exists s. exact Hs.
  - unfold run_one_song. rewrite Hal. apply (K _ (manifest_single_song input)); [reflexivity|].
    destruct (single_slots input) as [S1 S2]. split; [exact S1|]. intros bank name sd Hs. apply S2 in Hs. destruct sd as [i tf lp]. cbn in Hs. cbn [wanted]. destruct Hs as (-> & -> & ->). reflexivity.
  - unfold run_one_song. rewrite Hal. apply (K _ (manifest_file_select input)); [reflexivity|].
    destruct (select_slots input) as [S1 S2]. split; [exact S1|]. intros bank name sd Hs. apply S2 in Hs. exact Hs.
Qed.

Lemma command_reports t order o fl c rom f r m Ls : (forall i, permutes (order i)) -> builds_rom c rom -> f rom = Some r -> is_image r -> asked t f c m ->
  addresses c (map lo_addr Ls) -> Forall (layout_ok r) Ls -> ForallOrdPairs clear_of Ls -> Forall table_in_base Ls ->
  Forall (fun bk => Forall (good_input t f) (songs bk)) m ->
  short_songs (converter Release (world_of t f) order (negb (skip_optimization fl))) m Ls ->
  fst (run Release t order o fl c f) = Ok tt \/
  exists e, fst (run Release t order o fl c f) = Err e /\ In e [EDoesNotFit; ECouldntFit; EMidiRead; EIo].
Proof.
  intros Ho Hc Hr Hi Hm Hal HL HC HT HG HS.
  destruct (asked_room _ _ _ _ Hm) as [H3 Hroom].
  assert (Hlen : List.length Ls = List.length m) by (rewrite H3, <- (map_length lo_addr); apply (addresses_three _ _ Hal)).
  destruct (command_runs Release t order o fl c rom f r _ m Hc Hr Hal Hm) as (m' & Em & ->).
  assert (L3 : List.length m' = List.length m) by (apply (f_equal (@List.length _)) in Em; rewrite !map_length in Em; congruence).
  assert (Hback : forall k bk, nth_error m' k = Some bk -> exists bk0, nth_error m k = Some bk0 /\ songs bk0 = songs bk).
  { intros k bk Hk. apply (map_nth_error songs) in Hk. rewrite <- Em in Hk. destruct (nth_error m k) as [bk0|] eqn:E.
    - apply (map_nth_error songs) in E. exists bk0. split; [reflexivity|congruence].
    - apply nth_error_None in E. rewrite (proj2 (nth_error_None (map songs m) k)) in Hk by (rewrite map_length; lia). discriminate. }
  set (conv := converter Release (world_of t f) order (negb (skip_optimization fl))) in *.
  assert (Hslot : forall k bk L sd, nth_error m' k = Some bk -> nth_error Ls k = Some L -> In sd (songs bk) ->
     slot_safe conv (tb_len (lo_ovf L)) sd /\ forall p e, Manifest.input sd = Some p -> conv p (Manifest.tempo_factor sd) = Err e -> e = ECouldntFit \/ e = EMidiRead).
  { intros k bk L sd Hk HkL Hsd. destruct (Hback k bk Hk) as (bk0 & H0 & E0). apply release_slot; [exact Ho| |].
    - rewrite Forall_forall in HG. specialize (HG bk0 (nth_error_In _ _ H0)). rewrite Forall_forall in HG. apply HG. rewrite E0. exact Hsd.
    - intros p s l Hp Es He. eapply HS; try eassumption. rewrite E0. exact Hsd. }
  unfold rom_write. destruct (os_open o rom); [|right; exists EIo; split; [reflexivity|cbn; auto]].
  destruct (banks_ends Release (verbose_flag fl) conv (map lo_addr Ls) m' 0 0 Ls r []) as [(r' & E & _)|(e & He & E)].
  - reflexivity.
  - reflexivity.
  - congruence.
  - lia.
  - exact Hi.
  - exact HL.
  - exact HC.
  - intros k bk L fa Hk HkL Hf. destruct (Hback k bk Hk) as (bk0 & H0 & E0). split; [|split].
    + rewrite Forall_forall in HT. specialize (HT L (nth_error_In _ _ HkL)). unfold table_in_base in HT. cbn [Nat.add] in Hf. destruct k as [|[|[|k]]]; [| | |destruct k; discriminate]; injection Hf as <-; lia.
    + specialize (Hroom k bk0 fa H0 Hf). rewrite E0 in Hroom. rewrite (count_songs_map _ _ k Em) in Hroom. exact Hroom.
    + apply Forall_forall. intros sd Hsd. apply (Hslot k bk L sd Hk HkL Hsd).
  - rewrite E. destruct (os_rom o); [left; reflexivity|right; exists EIo; split; [reflexivity|cbn; auto]].
  - rewrite E. right. exists e. split; [reflexivity|]. destruct He as [->|(sd & p & H1 & H2 & H4)]; [cbn; auto|].
    apply in_concat in H1. destruct H1 as (ss & H1 & Hsd). apply in_map_iff in H1. destruct H1 as (bk & <- & Hbk). apply In_nth_error in Hbk. destruct Hbk as (k & Hk).
    assert (Hlt : (k < List.length Ls)%nat) by (rewrite Hlen, <- L3; apply nth_error_Some; congruence).
    destruct (nth_error Ls k) as [L|] eqn:EL; [|apply nth_error_None in EL; lia].
    destruct (Hslot k bk L sd Hk EL Hsd) as [_ HE]. destruct (HE p e H2 H4) as [->| ->]; cbn; auto.
Qed.

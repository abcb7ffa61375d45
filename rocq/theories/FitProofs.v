(** FitProofs.v: a build succeeds exactly when the songs fit (C78). *)
From Coq Require Import ZArith List Lia ZifyBool ZifyNat String.
From Verif Require Import SpecPath PathProofs.
From Verif Require Import Base F32 Messages Command Track Song Paths Manifest Midi Rom Cli SpecSong SpecMidi SpecVoices SpecVoice SpecJson SpecRom SpecBank SpecSafe SpecEach SpecSuccess SpecFit
  ProofLib CodecProofs RomLib RomProofs RomBank RomChain RomBanks RomMore RomTotal RomSafe RomSuccess Json SongProofs JsonProofs Run SpecRun SpecCommand RunProofs CommandProofs SafeProofs SuccessExamples.
Import ListNotations.
Open Scope Z_scope.
Open Scope list_scope.

Lemma songs_exact b verbose base ovf n conv : good_blocks base ovf n -> tb_len base < 2 ^ 64 -> 0 <= tb_aram ovf -> 24 <= tb_len ovf ->
  forall sds ss ls, loaded b conv sds ss ls -> closed_all sds ss ls -> Forall (fun x => Forall (fun d => data_len d <= tb_len ovf) (snd x)) ls ->
  forall st p, wcursor base ovf p st -> size (ws_rom st) = n -> is_image (ws_rom st) ->
  payload base <= song_table_addr st -> song_table_addr st + 2 * Z.of_nat (length sds) <= p ->
  if songs_end base ovf p ls <=? payload_end ovf then
    exists st', ofold (write_song_def b verbose (blocks_of base ovf) conv) sds st = Ok st' /\
      song_table_addr st' = song_table_addr st + 2 * Z.of_nat (length sds) /\ same_outside (span (payload base) ovf) (ws_rom st) (ws_rom st') /\ is_image (ws_rom st')
  else ofold (write_song_def b verbose (blocks_of base ovf) conv) sds st = Err EDoesNotFit.
Proof.
  intros HG Hl Hov H24. pose proof HG as (G1 & G2 & G3 & G4 & _). induction 1 as [|sd s l sds ss ls Hs Hr HL IH]; intros HC HS st p Hw Hn Hi Hta0 Hta; cbn [ofold songs_end].
  - assert (Hpe : p <= payload_end ovf) by (unfold wcursor in Hw; inversion Hw; unfold payload, payload_end in *; lia).
    destruct (Z.leb_spec p (payload_end ovf)); [|lia]. exists st. cbn [length]. split; [reflexivity|]. split; [lia|]. split; [apply same_outside_refl|exact Hi].
  - inversion HC as [|? ? ? ? ? ? ? Hfn Hcl HC']; subst. inversion HS as [|? ? S1 S2]; subst. cbn [snd] in S1. cbn [length] in Hta.
    destruct Hr as (Henc & Hpart & Hu).
    assert (E : write_song_def b verbose (blocks_of base ovf) conv st sd = write_song b verbose (blocks_of base ovf) st (loops sd) s).
    { unfold write_song_def, check_file_name, load_song. destruct (Manifest.input sd) as [f|].
      - specialize (Hfn f eq_refl). apply has_name_iff in Hfn. destruct (file_name f) as [nm|]; [|congruence]. cbn [or_panic bind]. rewrite Hs. reflexivity.
      - cbn [bind]. rewrite Hs. reflexivity. }
    rewrite E.
    pose proof (song_ends b verbose base ovf _ st (loops sd) s p l HG Hl Hov Hw eq_refl H24 Henc Hpart Hcl S1 ltac:(unfold payload in *; lia) ltac:(lia)) as K.
    pose proof (songs_end_ge base ovf ls G3 (song_end base ovf p (loops sd) l)) as Hge.
    destruct (Z.leb_spec (song_end base ovf p (loops sd) l) (payload_end ovf)) as [Hfit|Hno].
    2:{ destruct (Z.leb_spec (songs_end base ovf (song_end base ovf p (loops sd) l) ls) (payload_end ovf)); [lia|]. rewrite K. reflexivity. }
    destruct K as (st1 & E1 & K1 & K2 & K3 & _). rewrite E1. cbn [bind].
    assert (Hpe : p <= payload_end ovf) by (unfold wcursor in Hw; inversion Hw; unfold payload, payload_end in *; lia).
    assert (K4 : same_outside (span (payload base) ovf) (ws_rom st) (ws_rom st1)).
    { eapply same_outside_weaken; [|exact K3]. cbv beta. unfold span. intros x _ [Hx|Hx]; lia. }
    pose proof (song_end_ge base ovf p (loops sd) l G3). pose proof (place_ge base ovf p (header_size (loops sd) + 16) G3).
    specialize (IH HC' S2 st1 (song_end base ovf p (loops sd) l) K1 (same_size _ _ _ K4) ltac:(eapply image_song; eassumption) ltac:(lia) ltac:(lia)).
    destruct (_ <=? _); [|exact IH]. destruct IH as (st' & E' & I1 & I2 & I3). exists st'. split; [exact E'|]. cbn [length]. split; [lia|]. split; [eapply same_outside_trans; eassumption|exact I3].
Qed.
Lemma bank_exact b verbose bk r L fa first conv ss ls : is_image r -> layout_ok r L -> 0xd000 <= fa -> bank_short b conv L fa first (songs bk) ss ls ->
  if songs_end (lo_base L) (lo_ovf L) (payload (lo_base L) + (fa - 0xd000)) ls <=? payload_end (lo_ovf L) then
    exists r', write_bank b verbose bk r (lo_addr L) fa first conv = Ok r' /\ same_outside (lo_span L) r r' /\ is_image r'
  else write_bank b verbose bk r (lo_addr L) fa first conv = Err EDoesNotFit.
Proof.
  intros Hr HL Hfa [F1 F0 F2 F3 HS]. destruct (layout_fits r L Hr HL) as [HG HA]. pose proof (layout_pointers r L HL) as Hp.
  pose proof HL as [A1 A2 A3 A4 A5 A6]. pose proof (find_blocks_found b _ _ _ _ _ _ Hr Hp A3) as Hf.
  pose proof HG as (G1 & G2 & G3 & G4 & G5 & G6 & G7).
  unfold write_bank. rewrite Hf. cbn [bind]. unfold lo_span. set (base := lo_base L) in *. set (ovf := lo_ovf L) in *. set (p := payload base + (fa - 0xd000)) in *.
  set (st0 := wstate_init r (blocks_of base ovf) fa first) in *.
  assert (Hpp : p = payload base + (fa - 53248)) by reflexivity.
  assert (Hw : wcursor base ovf p st0).
  { unfold wcursor, st0, wstate_init. cbn [rom_addr chunk_length aram_base_addr song_offset blocks_of base_chunk_addr base_chunk_len]. unfold ARAM_BASE.
    replace (fa - 53248) with (p - payload base) by lia. clearbody p. rewrite <- G6. apply cursor_base. unfold payload, payload_end in *. lia. }
  assert (Hta : song_table_addr st0 = payload base + 2 * Z.of_nat first).
  { unfold st0, wstate_init. cbn [song_table_addr blocks_of base_chunk_addr]. lia. }
  pose proof (songs_exact b verbose base ovf (size r) conv HG ltac:(lia) (proj1 HA) A6 _ _ _ F1 F0 HS st0 p Hw eq_refl Hr ltac:(rewrite Hta; lia) ltac:(rewrite Hta; lia)) as K.
  destruct (_ <=? _); [|rewrite K; reflexivity]. destruct K as (st' & E & K3 & K4 & K5).
  rewrite E. cbn [bind]. unfold clear_table. cbn [blocks_of base_chunk_addr]. unfold ARAM_BASE. change (ws_rom st0) with r in K4.
  destruct (zero_total (ws_rom st') (song_table_addr st') (Z.to_nat (payload base + fa - 53248 - song_table_addr st'))) as [r' Er].
  + rewrite K3, Hta. unfold payload. lia.
  + rewrite (same_size _ _ _ K4), K3, Hta. unfold payload, payload_end in *. lia.
  + exists r'. split; [exact Er|]. split; [|eapply image_zero; [exact K5|exact Er]]. eapply same_outside_trans; [exact K4|].
    eapply zero_span; [| | |exact Er]; rewrite ?K3, ?Hta; unfold payload, payload_end in *; lia.
Qed.

(** All banks of the image end in time. *)
Definition ends_in_time (i : nat) (Ls : list layout) (lss : list (list (bool * list (list Z * list call_loop_ref)))) : Prop :=
  forall k L fa ls, nth_error Ls k = Some L -> nth_error first_songs (i + k) = Some fa -> nth_error lss k = Some ls ->
    songs_end (lo_base L) (lo_ovf L) (payload (lo_base L) + (fa - 0xd000)) ls <= payload_end (lo_ovf L).
Lemma banks_exact b verbose conv addrs : forall bks i first Ls sss lss r pa, banks_short b conv i first bks Ls sss lss -> addrs = pa ++ map lo_addr Ls -> length pa = i ->
  is_image r -> Forall (layout_ok r) Ls -> ForallOrdPairs clear_of Ls ->
  (exists r', write_banks b verbose bks i first r addrs conv = Ok r' /\ length r' = length r /\ ends_in_time i Ls lss) \/
  (write_banks b verbose bks i first r addrs conv = Err EDoesNotFit /\ ~ ends_in_time i Ls lss).
Proof.
  induction bks as [|bk bks IH]; intros i first Ls sss lss r pa HB Had Hpa Hr HL HC; cbn [write_banks].
  { left. exists r. split; [reflexivity|]. split; [reflexivity|]. inversion HB; subst. intros k L fa ls Hk. destruct k; discriminate. }
  inversion HB as [|? ? fa ? L ss ls ? Ls' sss' lss' E2 HB1 HB2]; subst. cbn [map] in *.
  assert (E1 : nth_error (pa ++ lo_addr L :: map lo_addr Ls') (length pa) = Some (lo_addr L)) by (rewrite nth_error_app2, Nat.sub_diag by lia; reflexivity).
  assert (Hfa : 0xd000 <= fa) by (apply nth_error_In in E2; cbn in E2; lia).
  rewrite E1. change BANK_FIRST_SONG_ADDRS with first_songs. rewrite E2. cbn [or_panic bind].
  inversion HL as [|? ? L1 L2]; subst. inversion HC as [|? ? C1 C2]; subst.
  pose proof (bank_exact b verbose bk r L fa first conv ss ls Hr L1 Hfa HB1) as K.
  destruct (Z.leb_spec (songs_end (lo_base L) (lo_ovf L) (payload (lo_base L) + (fa - 0xd000)) ls) (payload_end (lo_ovf L))) as [Hfit|Hno].
  - destruct K as (r1 & E & K1 & K2). rewrite E. cbn [bind].
    destruct (IH (S (length pa)) (first + length (songs bk))%nat Ls' sss' lss' r1 (pa ++ [lo_addr L])) as [(r' & E' & J1 & J2)|(E' & J)].
    + exact HB2.
    + rewrite <- app_assoc. reflexivity.
    + rewrite app_length. cbn. lia.
    + exact K2.
    + apply Forall_forall. intros L' HL'. rewrite Forall_forall in L2, C1. eapply layout_same; [exact Hr|exact K1|apply (C1 L' HL')|apply L2; exact HL'].
    + exact C2.
    + left. exists r'. split; [exact E'|]. split; [rewrite J1; apply K1|]. intros [|k] L' fa' ls' Hk Hf Hl.
      * cbn in Hk, Hl. injection Hk as <-. injection Hl as <-. rewrite Nat.add_0_r, E2 in Hf. injection Hf as <-. exact Hfit.
      * cbn in Hk, Hl. apply (J2 k L' fa' ls' Hk); [|exact Hl]. rewrite <- Hf. f_equal. lia.
    + right. split; [exact E'|]. intros H. apply J. intros k L' fa' ls' Hk Hf Hl. apply (H (S k) L' fa' ls' Hk); [|exact Hl]. rewrite <- Hf. f_equal. lia.
  - right. rewrite K. split; [reflexivity|]. intros H. specialize (H O L fa ls eq_refl). rewrite Nat.add_0_r in H. specialize (H E2 eq_refl). lia.
Qed.

(** ** Commands *)
Lemma good_song b t f order opt sd p s : (forall k, permutes (order k)) -> good_input t f sd -> Manifest.input sd = Some p ->
  converter b (world_of t f) order opt p (Manifest.tempo_factor sd) = Ok s -> has_name p /\ exists l, song_ready s l /\ song_closed s l.
Proof.
  intros Ho Hg Hp H. destruct (Hg p Hp) as [HM HJ]. destruct (converter_choice b (world_of t f) order opt p (Manifest.tempo_factor sd)) as [C1 C2]. destruct (mid_dec p) as [Hm|Hm].
  - rewrite (C1 Hm) in H. split; [destruct Hm as (stem & _ & Hm'); eexists; exact Hm'|]. exact (midi_safe _ _ _ _ _ _ _ _ Ho (HM Hm) H).
  - destruct (HJ Hm) as (Hfn & s' & l & (content & v & Ef & Ev & Hv) & L1 & L2). split; [exact Hfn|]. exists l. rewrite (C2 Hm) in H.
    assert (E : from_json (json_file (world_of t f) p) = Ok s'). { apply reads_iff. exists v. split; [|exact Hv]. cbn [world_of json_file]. rewrite Ef. exact Ev. }
    rewrite E in H. injection H as <-. auto.
Qed.
Lemma slots_loaded b conv room sds :
  (forall sd p, In sd sds -> Manifest.input sd = Some p -> exists s l, conv p (Manifest.tempo_factor sd) = Ok s /\ has_name p /\ song_ready s l /\ song_closed s l /\ Forall (fun d => data_len d <= room) l) ->
  0 <= room -> exists ss ls, loaded b conv sds ss ls /\ closed_all sds ss ls /\ Forall (fun x => Forall (fun d => data_len d <= room) (snd x)) ls.
Proof.
  intros H H0. induction sds as [|sd sds IH].
  - exists [], []. repeat constructor.
  - destruct IH as (ss & ls & I1 & I2 & I3); [intros; eapply H; [right|]; eassumption|].
    assert (K : exists s l, match Manifest.input sd with Some f => conv f (Manifest.tempo_factor sd) = Ok s | None => song_empty b = Ok s end /\
      (forall f, Manifest.input sd = Some f -> has_name f) /\ song_ready s l /\ song_closed s l /\ Forall (fun d => data_len d <= room) l).
    { destruct (Manifest.input sd) as [p|] eqn:E.
      - destruct (H sd p (or_introl eq_refl) E) as (s & l & A & B & C). exists s, l. split; [exact A|]. split; [intros f [= <-]; exact B|exact C].
      - destruct (empty_ok b) as (s & Es & L1 & L2). exists s, quiet. split; [exact Es|]. split; [discriminate|]. split; [exact L1|]. split; [exact L2|]. constructor; [|constructor]. unfold data_len. cbn. lia. }
    destruct K as (s & l & K1 & K2 & K3 & K4 & K5). exists (s :: ss), ((loops sd, l) :: ls). split; [constructor; assumption|]. split; [constructor; assumption|]. constructor; assumption.
Qed.
Lemma banks_loaded_short b conv : forall m i first Ls, length Ls = length m -> (i + length m <= 3)%nat -> room_from i first m -> Forall table_in_base Ls -> Forall (fun L => 0 <= tb_len (lo_ovf L)) Ls ->
  (forall k bk L sd p, nth_error m k = Some bk -> nth_error Ls k = Some L -> In sd (songs bk) -> Manifest.input sd = Some p ->
     exists s l, conv p (Manifest.tempo_factor sd) = Ok s /\ has_name p /\ song_ready s l /\ song_closed s l /\ Forall (fun d => data_len d <= tb_len (lo_ovf L)) l) ->
  exists sss lss, banks_short b conv i first m Ls sss lss.
Proof.
  induction m as [|bk m IH]; intros i first Ls Hl H3 HR HT HN HS; (destruct Ls as [|L Ls]; [try discriminate|try discriminate]).
  - exists [], []. constructor.
  - cbn [length] in *. inversion HT as [|? ? T1 T2]; subst. inversion HN as [|? ? N1 N2]; subst.
    assert (E2 : exists fa, nth_error first_songs i = Some fa /\ fa - 0xd000 <= 0x46).
    { destruct i as [|[|[|i]]]; [| | |lia]; eexists; (split; [reflexivity|lia]). }
    destruct E2 as (fa & E2 & Hfa).
    destruct (slots_loaded b conv (tb_len (lo_ovf L)) (songs bk)) as (ss & ls & A1 & A2 & A3); [intros; eapply (HS O); eauto; reflexivity|exact N1|].
    destruct (IH (S i) (first + length (songs bk))%nat Ls) as (sss & lss & HB); auto; [lia| | |].
    + intros k bk' fa' Hk Hf. specialize (HR (S k) bk' fa' Hk). replace (i + S k)%nat with (S i + k)%nat in HR by lia. specialize (HR Hf). cbn [firstn] in HR. unfold count_songs, list_sum in *. cbn [map fold_right] in HR. lia.
    + intros k bk' L' sd p Hk HL. exact (HS (S k) bk' L' sd p Hk HL).
    + exists (ss :: sss), (ls :: lss). econstructor; [exact E2| |exact HB]. constructor; try assumption.
      * specialize (HR O bk fa eq_refl). rewrite Nat.add_0_r in HR. specialize (HR E2). unfold count_songs, list_sum in HR. cbn [firstn map fold_right] in HR. lia.
      * unfold table_in_base in T1. lia.
Qed.
Lemma short_at b conv i first m Ls sss lss : banks_short b conv i first m Ls sss lss -> forall k bk L, nth_error m k = Some bk -> nth_error Ls k = Some L ->
  exists ss ls fa, nth_error lss k = Some ls /\ nth_error first_songs (i + k) = Some fa /\ loaded b conv (songs bk) ss ls.
Proof.
  induction 1 as [|i first fa bk L ss ls bks Ls sss lss E HB _ IH]; intros k bk' L' Hk HL; [destruct k; discriminate|]. destruct k as [|k].
  - cbn in Hk, HL. injection Hk as <-. injection HL as <-. exists ss, ls, fa. rewrite Nat.add_0_r. split; [reflexivity|]. split; [exact E|]. apply (bs_songs _ _ _ _ _ _ _ _ HB).
  - destruct (IH k bk' L' Hk HL) as (ss' & ls' & fa' & A & B & C). exists ss', ls', fa'. split; [exact A|]. split; [rewrite <- B; f_equal; lia|exact C].
Qed.
Lemma short_back b conv i first m Ls sss lss : banks_short b conv i first m Ls sss lss -> forall k L ls, nth_error Ls k = Some L -> nth_error lss k = Some ls ->
  exists ss bk, nth_error m k = Some bk /\ loaded b conv (songs bk) ss ls.
Proof.
  induction 1 as [|i first fa bk L ss ls bks Ls sss lss E HB _ IH]; intros k L' ls' HL Hk; [destruct k; discriminate|]. destruct k as [|k].
  - cbn in Hk, HL. injection Hk as <-. injection HL as <-. exists ss, bk. split; [reflexivity|]. apply (bs_songs _ _ _ _ _ _ _ _ HB).
  - exact (IH k L' ls' HL Hk).
Qed.

Lemma command_fits b t order o fl c rom f r m Ls : (forall i, permutes (order i)) -> builds_rom c rom -> f rom = Some r -> is_image r -> asked t f c m ->
  addresses c (map lo_addr Ls) -> Forall (layout_ok r) Ls -> ForallOrdPairs clear_of Ls -> Forall table_in_base Ls ->
  Forall (fun bk => Forall (good_input t f) (songs bk)) m ->
  all_convert (converter b (world_of t f) order (negb (skip_optimization fl))) m ->
  short_songs (converter b (world_of t f) order (negb (skip_optimization fl))) m Ls ->
  os_open o rom = true -> (exists n, os_rom o = Rom.Wrote n) ->
  (fst (run b t order o fl c f) = Ok tt /\ songs_fit b (converter b (world_of t f) order (negb (skip_optimization fl))) m Ls) \/
  (fst (run b t order o fl c f) = Err EDoesNotFit /\ ~ songs_fit b (converter b (world_of t f) order (negb (skip_optimization fl))) m Ls).
Proof.
  intros Ho Hc Hr Hi Hm Hal HL HC HT HG HA HS Hop (n & Hn).
  destruct (asked_room _ _ _ _ Hm) as [H3 Hroom].
  assert (Hlen : List.length Ls = List.length m) by (rewrite H3, <- (map_length lo_addr); apply (addresses_three _ _ Hal)).
  destruct (command_runs b t order o fl c rom f r _ m Hc Hr Hal Hm) as (m' & Em & ->). rewrite Hop, Hn.
  set (conv := converter b (world_of t f) order (negb (skip_optimization fl))) in *.
  assert (L3 : List.length m' = List.length m) by (apply (f_equal (@List.length _)) in Em; rewrite !map_length in Em; congruence).
  assert (Hback : forall k bk, nth_error m' k = Some bk -> exists bk0, nth_error m k = Some bk0 /\ songs bk0 = songs bk).
  { intros k bk Hk. apply (map_nth_error songs) in Hk. rewrite <- Em in Hk. destruct (nth_error m k) as [bk0|] eqn:E.
    - apply (map_nth_error songs) in E. exists bk0. split; [reflexivity|congruence].
    - apply nth_error_None in E. rewrite (proj2 (nth_error_None (map songs m) k)) in Hk by (rewrite map_length; lia). discriminate. }
  destruct (banks_loaded_short b conv m' 0 0 Ls) as (sss & lss & HB).
  - congruence.
  - lia.
  - intros k bk fa Hk Hf. destruct (Hback k bk Hk) as (bk0 & H0 & E0). specialize (Hroom k bk0 fa H0 Hf). rewrite E0, (count_songs_map _ _ k Em) in Hroom. exact Hroom.
  - exact HT.
  - eapply Forall_impl; [|exact HL]. intros L [_ _ _ _ _ X]. lia.
  - intros k bk L sd p Hk HkL Hsd Hp. destruct (Hback k bk Hk) as (bk0 & H0 & E0). rewrite <- E0 in Hsd. destruct (HA bk0 sd p (nth_error_In _ _ H0) Hsd Hp) as (s & Es).
    rewrite Forall_forall in HG. pose proof (HG bk0 (nth_error_In _ _ H0)) as HGb. rewrite Forall_forall in HGb.
    destruct (good_song b t f order _ sd p s Ho (HGb sd Hsd) Hp Es) as (Hfn & l & L1 & L2). exists s, l. split; [exact Es|]. split; [exact Hfn|]. split; [exact L1|]. split; [exact L2|].
    apply (HS k bk0 L sd p s l H0 HkL Hsd Hp Es). apply L1.
  - assert (Heq : ends_in_time 0 Ls lss <-> songs_fit b conv m Ls).
    { split.
      - intros H k bk L fa ss ls Hk HkL Hf Hld. assert (Hk' : exists bk', nth_error m' k = Some bk').
        { destruct (nth_error m' k) eqn:E; [eauto|]. apply nth_error_None in E. assert (k < length m)%nat by (apply nth_error_Some; congruence). lia. }
        destruct Hk' as (bk' & Hk'). destruct (Hback k bk' Hk') as (bk0 & H0 & E0). rewrite Hk in H0. injection H0 as <-.
        destruct (short_at _ _ _ _ _ _ _ _ HB k bk' L Hk' HkL) as (ss' & ls' & fa' & A & B & C). cbn [Nat.add] in B. rewrite <- E0 in C. rewrite (loaded_fun _ _ _ _ _ Hld _ _ C).
        exact (H k L fa ls' HkL Hf A).
      - intros H k L fa ls HkL Hf Hk. destruct (short_back _ _ _ _ _ _ _ _ HB k L ls HkL Hk) as (ss & bk & A & B). destruct (Hback k bk A) as (bk0 & H0 & E0).
        rewrite <- E0 in B. exact (H k bk0 L fa ss ls H0 HkL Hf B). }
    unfold rom_write. destruct (banks_exact b (verbose_flag fl) conv (map lo_addr Ls) m' 0 0 Ls sss lss r [] HB eq_refl eq_refl Hi HL HC) as [(r' & E & _ & J)|(E & J)]; rewrite E.
    + left. split; [reflexivity|apply Heq; exact J].
    + right. split; [reflexivity|intros X; apply J, Heq, X].
Qed.

(** ** Sizes *)
Lemma total_app l l' : total (l ++ l') = total l + total l'.
Proof. unfold total. induction l as [|x l IH]; cbn; lia. Qed.
Definition pieces_end (base ovf : tblock) (p : Z) (l : list Z) : Z := fold_left (fun p n => place base ovf p n + n) l p.
Lemma tracks_pieces base ovf l : forall p, tracks_end base ovf p l = pieces_end base ovf p (map data_len l).
Proof. induction l as [|d l IH]; intros p; [reflexivity|]. cbn [tracks_end map]. rewrite IH. reflexivity. Qed.
Lemma songs_pieces base ovf ls : forall p, songs_end base ovf p ls = pieces_end base ovf p (pieces ls).
Proof.
  induction ls as [|[lp l] ls IH]; intros p; [reflexivity|]. cbn [songs_end]. rewrite IH. unfold pieces, pieces_end. cbn [flat_map]. rewrite fold_left_app. f_equal.
  unfold song_end. rewrite tracks_pieces. reflexivity.
Qed.
Lemma pieces_nonneg ls : Forall (fun n => 0 <= n) (pieces ls).
Proof.
  unfold pieces. apply Forall_forall. intros n Hn. apply in_flat_map in Hn. destruct Hn as ([lp l] & _ & Hn). unfold song_pieces in Hn. cbn [fst snd] in Hn. destruct Hn as [<-|Hn].
  - unfold header_size. destruct lp; lia.
  - apply in_map_iff in Hn. destruct Hn as (d & <- & _). unfold data_len. lia.
Qed.
(** Once in the overflow block, pieces follow each other. *)
Lemma pieces_over base ovf l : Forall (fun n => 0 <= n) l -> forall p, payload_end base < p -> pieces_end base ovf p l = p + total l.
Proof.
  induction 1 as [|n l Hn HF IH]; intros p Hp; [unfold total; cbn; lia|]. change (pieces_end base ovf p (n :: l)) with (pieces_end base ovf (place base ovf p n + n) l).
  rewrite place_ovf by lia. rewrite IH by lia. unfold total. cbn. lia.
Qed.
Lemma pieces_sizes base ovf l w : tb_start ovf = payload_end base -> 0 <= tb_len ovf -> Forall (fun n => 0 <= n <= w) l -> forall p, payload base <= p <= payload_end base ->
  (p + total l <= payload_end base -> pieces_end base ovf p l = p + total l) /\
  (payload_end base < p + total l -> payload ovf + (p + total l - payload_end base) <= pieces_end base ovf p l /\ pieces_end base ovf p l < payload ovf + (p + total l - payload_end base) + w).
Proof.
  intros G G0. induction 1 as [|n l Hn HF IH]; intros p Hp.
  - unfold total, pieces_end. cbn. lia.
  - change (pieces_end base ovf p (n :: l)) with (pieces_end base ovf (place base ovf p n + n) l). change (total (n :: l)) with (n + total l).
    assert (H0 : 0 <= total l) by (clear - HF; unfold total; induction HF; cbn; lia).
    destruct (Z.le_gt_cases (p + n) (payload_end base)) as [H|H].
    + rewrite place_base by lia. specialize (IH (p + n) ltac:(lia)). destruct IH as [A B]. split; intros; [rewrite A by lia; lia|]. specialize (B ltac:(lia)). lia.
    + rewrite place_switch by lia. split; [lia|]. intros _. rewrite pieces_over; [lia| |unfold payload in *; lia]. eapply Forall_impl; [|exact HF]. cbv beta. lia.
Qed.
Lemma layouts_blocks r Ls : is_image r -> Forall (layout_ok r) Ls -> Forall table_in_base Ls -> forall k L fa, nth_error Ls k = Some L -> nth_error first_songs k = Some fa ->
  tb_start (lo_ovf L) = payload_end (lo_base L) /\ 0 <= tb_len (lo_ovf L) /\ payload (lo_base L) <= payload (lo_base L) + (fa - 0xd000) <= payload_end (lo_base L).
Proof.
  intros Hi HL HT k L fa HkL Hf. rewrite Forall_forall in HL, HT. specialize (HL L (nth_error_In _ _ HkL)). specialize (HT L (nth_error_In _ _ HkL)).
  destruct (layout_fits r L Hi HL) as [(G1 & G2 & G3 & G4 & _) _]. pose proof (lk_room _ _ HL). unfold table_in_base in HT.
  apply nth_error_In in Hf. cbn in Hf. unfold payload, payload_end in *. lia.
Qed.
Lemma small_fit b conv m Ls r : is_image r -> Forall (layout_ok r) Ls -> Forall table_in_base Ls -> small_songs b conv m Ls -> songs_fit b conv m Ls.
Proof.
  intros Hi HL HT H k bk L fa ss ls Hk HkL Hf Hld. destruct (layouts_blocks r Ls Hi HL HT k L fa HkL Hf) as (G1 & G2 & G3). rewrite songs_pieces.
  pose proof (pieces_nonneg ls) as HN. specialize (H k bk L fa ss ls Hk HkL Hf Hld). unfold base_room in H. destruct H as [H|(w & Hw & H)].
  - assert (HW : exists w, Forall (fun n => 0 <= n <= w) (pieces ls)).
    { exists (total (pieces ls)). clear - HN. revert HN. generalize (pieces ls). intros l HN. assert (H0 : 0 <= total l) by (unfold total; induction HN; cbn; lia).
      induction HN as [|n l Hn HF IH]; constructor; change (total (n :: l)) with (n + total l) in *.
      - assert (0 <= total l) by (clear - HF; unfold total; induction HF; cbn; lia). lia.
      - assert (0 <= total l) by (clear - HF; unfold total; induction HF; cbn; lia). eapply Forall_impl; [|apply IH; assumption]. cbv beta. lia. }
    destruct HW as (w & HW). destruct (pieces_sizes (lo_base L) (lo_ovf L) (pieces ls) w G1 G2 HW _ G3) as [A _]. rewrite A; unfold payload, payload_end in *; lia.
  - assert (HW : Forall (fun n => 0 <= n <= w) (pieces ls)).
    { rewrite Forall_forall in *. intros n Hn. specialize (HN n Hn). specialize (Hw n Hn). cbv beta in *. lia. }
    destruct (pieces_sizes (lo_base L) (lo_ovf L) (pieces ls) w G1 G2 HW _ G3) as [A B].
    destruct (Z.le_gt_cases (payload (lo_base L) + (fa - 53248) + total (pieces ls)) (payload_end (lo_base L))) as [X|X].
    + rewrite (A X). unfold payload, payload_end in *. lia.
    + destruct (B ltac:(lia)). unfold payload, payload_end in *. lia.
Qed.
Lemma large_unfit b conv m Ls r : is_image r -> Forall (layout_ok r) Ls -> Forall table_in_base Ls -> large_songs b conv m Ls -> ~ songs_fit b conv m Ls.
Proof.
  intros Hi HL HT (k & bk & L & fa & ss & ls & Hk & HkL & Hf & Hld & H) HF. destruct (layouts_blocks r Ls Hi HL HT k L fa HkL Hf) as (G1 & G2 & G3).
  specialize (HF k bk L fa ss ls Hk HkL Hf Hld). rewrite songs_pieces in HF. unfold base_room in H.
  assert (HW : forall l, Forall (fun n => 0 <= n) l -> exists w, Forall (fun n => 0 <= n <= w) l).
  { induction 1 as [|n l Hn HF' [w IH]]; [exists 0; constructor|]. exists (Z.max n w). constructor; [lia|]. eapply Forall_impl; [|exact IH]. cbv beta. lia. }
  destruct (HW _ (pieces_nonneg ls)) as (w & Hw).
  destruct (pieces_sizes (lo_base L) (lo_ovf L) (pieces ls) w G1 G2 Hw _ G3) as [_ B]. destruct B as [B _]; unfold payload, payload_end in *; lia.
Qed.
Lemma command_small b t order o fl c rom f r m Ls : (forall i, permutes (order i)) -> builds_rom c rom -> f rom = Some r -> is_image r -> asked t f c m ->
  addresses c (map lo_addr Ls) -> Forall (layout_ok r) Ls -> ForallOrdPairs clear_of Ls -> Forall table_in_base Ls ->
  Forall (fun bk => Forall (good_input t f) (songs bk)) m ->
  all_convert (converter b (world_of t f) order (negb (skip_optimization fl))) m ->
  short_songs (converter b (world_of t f) order (negb (skip_optimization fl))) m Ls ->
  os_open o rom = true -> (exists n, os_rom o = Rom.Wrote n) ->
  (small_songs b (converter b (world_of t f) order (negb (skip_optimization fl))) m Ls -> fst (run b t order o fl c f) = Ok tt) /\
  (large_songs b (converter b (world_of t f) order (negb (skip_optimization fl))) m Ls -> fst (run b t order o fl c f) = Err EDoesNotFit).
Proof.
  intros Ho Hc Hr Hi Hm Hal HL HC HT HG HA HS Hop Hn.
  destruct (command_fits b t order o fl c rom f r m Ls Ho Hc Hr Hi Hm Hal HL HC HT HG HA HS Hop Hn) as [[E F]|[E F]].
  - split; [intros _; exact E|]. intros H. destruct (large_unfit _ _ _ _ r Hi HL HT H F).
  - split; [|intros _; exact E]. intros H. destruct (F (small_fit _ _ _ _ r Hi HL HT H)).
Qed.

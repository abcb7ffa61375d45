(** FinishedProofs.v: builds that reported success, whatever happened to the moved tracks (C73, C74, C59). *)
From Coq Require Import ZArith List Bool Lia ZifyBool ZifyNat String.
From Verif Require Import SpecPath PathProofs.
From Verif Require Import Base ProofLib F32 Messages Command Track SeqTree Song Paths Manifest Midi Json Cli SpecSong SpecMidi SpecNotes SpecVoices SpecVoice SpecNspc SpecLoop SpecRom SpecBank SpecAram
  SpecPlayback SpecScore SpecConsole SpecJson Run SpecRun SpecCommand SpecSuccess SpecSafe SpecEach SpecRendered SpecFinished
  SongProofs JsonProofs RomLib RomBanks RomFinal RomTwice RunProofs CommandProofs ConsoleProofs RomSuccess NoCrash ReadProofs2 SafeProofs RomEach RenderProofs DummyProofs.
From Verif Require Rom.
Import ListNotations.
Open Scope Z_scope.
Open Scope list_scope.

(** ** A song that was written has valid indices. *)
Lemma written_empty s i d : write_track s [] i [] = Ok d -> fst d = [] -> snd d = [].
Proof.
  intros H E. unfold write_track in H. inv_bind H. destruct a as [|c tr]; [injection H as <-; reflexivity|]. inv_bind H.
  destruct (track_write _ _ _) as [o2 l2]. injection H as <-. cbn [fst] in E. destruct o2; discriminate.
Qed.
Lemma one_track_keeps b verbose bl o s st i st' : Rom.write_one_track b verbose bl o s st i = Ok st' ->
  length (Rom.track_addrs st') = S (length (Rom.track_addrs st)) /\ (forall x, In x (Rom.call_loops st) -> In x (Rom.call_loops st')) /\
  exists d, write_track s [] i [] = Ok d /\ forall x, In x (snd d) -> exists y, In y (Rom.call_loops st') /\ Rom.rr_target y = target_track x.
Proof.
  intros H. unfold Rom.write_one_track in H. cbv zeta in H. inv_bind H. destruct a as [data refs]. inv_bind H. destruct a as [[st1 pre] cur].
  assert (K : Rom.track_addrs st1 = Rom.track_addrs st /\ Rom.call_loops st1 = Rom.call_loops st /\ (forall x, In x refs -> In x pre \/ In x cur)).
  { destruct (Rom.ks_chunk_length st <? _).
    - destruct (Rom.ks_aram_base st =? _); [discriminate|]. inv_bind Ha0. injection Ha0 as <- <- <-. auto.
    - injection Ha0 as <- <- <-. auto. }
  destruct K as (K1 & K2 & K3). rewrite <- K1, <- K2. destruct (0 <? Z.of_nat (length data)) eqn:El.
  - inv_bind H. injection H as <-. cbn [Rom.track_addrs Rom.call_loops]. split; [rewrite app_length; cbn; lia|]. split; [intros x Hx; apply in_or_app; now left|].
    exists (data, refs). split; [exact Ha|]. cbn [snd]. intros x Hx. destruct (K3 x Hx) as [Hp|Hp].
    + eexists. split; [apply in_or_app; right; apply in_or_app; left; apply in_map_iff; exists x; split; [reflexivity|exact Hp]|reflexivity].
    + eexists. split; [apply in_or_app; right; apply in_or_app; right; apply in_map_iff; exists x; split; [reflexivity|exact Hp]|reflexivity].
  - injection H as <-. cbn [Rom.track_addrs Rom.call_loops]. split; [rewrite app_length; cbn; lia|]. split; [auto|].
    exists (data, refs). split; [exact Ha|]. destruct data; [|cbn in El; lia]. pose proof (written_empty _ _ _ Ha eq_refl) as E. cbn [snd] in *. rewrite E. intros x [].
Qed.
Lemma tracks_keep b verbose bl o s : forall is st st', ofold (Rom.write_one_track b verbose bl o s) is st = Ok st' ->
  length (Rom.track_addrs st') = (length (Rom.track_addrs st) + length is)%nat /\ (forall x, In x (Rom.call_loops st) -> In x (Rom.call_loops st')) /\
  forall i, In i is -> exists d, write_track s [] i [] = Ok d /\ forall x, In x (snd d) -> exists y, In y (Rom.call_loops st') /\ Rom.rr_target y = target_track x.
Proof.
  induction is as [|i is IH]; intros st st' H; cbn [ofold] in H; [injection H as <-; split; [cbn; lia|]; split; [auto|intros i []]|].
  inv_bind H. destruct (one_track_keeps _ _ _ _ _ _ _ _ Ha) as (A1 & A2 & d & A3 & A4). destruct (IH _ _ H) as (B1 & B2 & B3).
  split; [rewrite B1, A1; cbn; lia|]. split; [auto|]. intros j [->|Hj]; [|apply B3; exact Hj]. exists d. split; [exact A3|].
  intros x Hx. destruct (A4 x Hx) as (y & Y1 & Y2). exists y. auto.
Qed.
Lemma part_keeps addrs : forall part r a r', Rom.write_part r a addrs part = Ok r' -> Forall (fun ti => (ti < length addrs)%nat) part.
Proof.
  induction part as [|ti part IH]; intros r a r' H; cbn [Rom.write_part] in H; [constructor|]. inv_bind H. apply or_panic_ok in Ha. destruct (Rom.addr_to_bytes a0) as [h l]. inv_bind H.
  constructor; [apply nth_error_Some; congruence|eapply IH; exact H].
Qed.
Lemma write_song_closed b verbose bl st lp s st' l : Rom.write_song b verbose bl st lp s = Ok st' -> encodes s l -> song_closed s l.
Proof.
  intros H [E1 E2]. unfold Rom.write_song in H. do 3 (inv_bind H). cbv zeta in *. do 4 (inv_bind H).
  match goal with X : ofold _ (seq 0 (get_num_tracks s)) _ = Ok _ |- _ => destruct (tracks_keep _ _ _ _ _ _ _ _ X) as (K1 & _ & K3) end.
  cbn [Rom.track_addrs length Nat.add] in K1. rewrite seq_length in K1. unfold get_num_tracks in *. split.
  - match goal with X : get_part_tracks s 0 = Ok ?p |- _ => unfold get_part_tracks in X; apply or_panic_ok in X; exists p; split; [exact X|] end.
    match goal with X : Rom.write_part _ _ _ _ = Ok _ |- _ => apply part_keeps in X; rewrite K1 in X; exact X end.
  - apply Forall_forall. intros d Hd. apply Forall_forall. intros x Hx. apply In_nth_error in Hd. destruct Hd as (i & Ei).
    assert (Hi : (i < length (tracks s))%nat) by (rewrite <- E1; apply nth_error_Some; congruence).
    destruct (K3 i) as (d' & D1 & D2); [apply in_seq; lia|]. rewrite (E2 i d Ei) in D1. injection D1 as <-. destruct (D2 x Hx) as (y & Y1 & Y2).
    match goal with X : ofold (Rom.patch_loop _) _ _ = Ok _ |- _ => destruct (ofold_each _ _ _ _ X y Y1) as (s1 & s2 & Es) end.
    unfold Rom.patch_loop in Es. inv_bind Es. apply or_panic_ok in Ha6. rewrite <- K1, <- Y2. apply nth_error_Some. congruence.
Qed.

(** ** Banks *)
Lemma songs_closed b verbose bl conv : forall sds st st' ss ls, ofold (Rom.write_song_def b verbose bl conv) sds st = Ok st' -> loaded b conv sds ss ls -> closed_all sds ss ls.
Proof.
  intros sds st st' ss ls H HL. revert st H. induction HL as [|sd s l sds ss ls Hc Hr HL IH]; intros st H; [constructor|]. cbn [ofold] in H. inv_bind H.
  unfold Rom.write_song_def in Ha. inv_bind Ha. inv_bind Ha.
  assert (a1 = s) by (unfold Rom.load_song in *; destruct (Manifest.input sd); congruence). subst a1. constructor; [| |eapply IH; exact H].
  - intros p Hp. unfold Rom.check_file_name in Ha0. rewrite Hp in Ha0. inv_bind Ha0. apply or_panic_ok in Ha2. apply has_name_iff. congruence.
  - eapply write_song_closed; [exact Ha|apply Hr].
Qed.
Lemma banks_short_loaded b verbose conv : forall m i first r al r' Ls, Rom.write_banks b verbose m i first r al conv = Ok r' ->
  Forall (fun bk => Forall (slot_bytes b conv) (songs bk)) m -> length Ls = length m -> Forall table_in_base Ls -> room_from i first m ->
  short_tracks b conv m Ls -> exists sss lss, banks_short b conv i first m Ls sss lss.
Proof.
  induction m as [|bk m IH]; intros i first r al r' Ls H HF HL HT HR HS; destruct Ls as [|L Ls]; try discriminate; [exists [], []; constructor|].
  cbn [Rom.write_banks] in H. inv_bind H. inv_bind H. inv_bind H. inversion HF as [|? ? F1 F2]; subst. inversion HT as [|? ? T1 T2]; subst.
  unfold Rom.write_bank in Ha1. inv_bind Ha1. inv_bind Ha1. destruct (songs_loaded _ _ _ _ _ _ _ Ha3 F1) as (ss & ls & Hls).
  assert (Hfa : nth_error first_songs i = Some a0).
  { unfold or_panic in Ha0. destruct (nth_error Rom.BANK_FIRST_SONG_ADDRS i) eqn:E; [|discriminate]. injection Ha0 as <-. exact E. }
  destruct (IH (S i) (first + length (songs bk))%nat a1 al r' Ls H F2) as (sss & lss & Hsss); [cbn in HL; lia|exact T2| | |].
  - intros k bk' fa' Hk Hf. specialize (HR (S k) bk' fa' Hk). replace (i + S k)%nat with (S i + k)%nat in HR by lia. specialize (HR Hf).
    cbn [firstn] in HR. unfold count_songs in *. cbn [map list_sum fold_right] in HR. unfold list_sum in *. lia.
  - intros k bk' L' ss' ls' Hk Hl. apply (HS (S k) bk' L' ss' ls'); [exact Hk|exact Hl].
  - exists (ss :: sss), (ls :: lss). eapply banks_short_cons; [exact Hfa| |exact Hsss]. constructor; [exact Hls|eapply songs_closed; eassumption| | |].
    + specialize (HR 0%nat bk a0 eq_refl). rewrite Nat.add_0_r in HR. specialize (HR Hfa). cbn in HR. rewrite Nat.add_0_r in HR. exact HR.
    + unfold table_in_base in T1. destruct i as [|[|[|i]]]; cbn in Hfa; [| | |destruct i; discriminate]; injection Hfa as <-; lia.
    + apply (HS 0%nat bk L ss ls eq_refl eq_refl Hls).
Qed.
Lemma typed_gives b t f order opt sd : (forall i, permutes (order i)) -> typed_slot t f sd -> slot_bytes b (converter b (world_of t f) order opt) sd.
Proof.
  intros Ho Hs p s Hp Hc. destruct (Hs p Hp) as [HM HJ]. destruct (converter_choice b (world_of t f) order opt p (Manifest.tempo_factor sd)) as [C1 C2].
  destruct (mid_dec p) as [Hm|Hm].
  - rewrite (C1 Hm) in Hc. unfold song_from_midi_file in Hc. cbn [world_of midi_file] in Hc. destruct (f p) as [content|] eqn:Ef; [|inv_bind Hc; discriminate Ha].
    destruct (parse_midi t content) as [cbs complete] eqn:Ep. destruct (HM Hm content cbs complete eq_refl Ep) as (H1 & H3). inv_bind Hc.
    eapply song_bytes; [|eapply voices_valid; eassumption|exact Hc]. apply (read_voices b cbs complete order a H1 Ho Ha).
  - rewrite (C2 Hm) in Hc. apply reads_iff in Hc. destruct Hc as (v & Ev & Hv). split; [apply (is_song_bytes _ _ Hv)|]. intros part. apply (HJ Hm s part).
    cbn [world_of json_file] in Ev. destruct (f p) as [content|] eqn:Ef; [|discriminate]. exists content, v. auto.
Qed.

(** ** A successful command *)
Lemma short_back b conv m m' Ls : map songs m = map songs m' -> short_tracks b conv m Ls -> short_tracks b conv m' Ls.
Proof.
  intros Em HS k bk L ss ls Hk HL Hld. apply (map_nth_error songs) in Hk. rewrite <- Em in Hk. destruct (nth_error m k) as [bk0|] eqn:E.
  - pose proof (map_nth_error songs _ _ E) as E2. rewrite Hk in E2. injection E2 as E2. rewrite E2 in Hld. apply (HS k bk0 L ss ls E HL Hld).
  - apply nth_error_None in E. rewrite (proj2 (nth_error_None (map songs m) k)) in Hk by (rewrite map_length; lia). discriminate.
Qed.
Lemma write_short b verbose t f c order opt m m' Ls r r' : (forall i, permutes (order i)) -> asked t f c m -> addresses c (map lo_addr Ls) -> Forall table_in_base Ls ->
  Forall (fun bk => Forall (typed_slot t f) (songs bk)) m -> short_tracks b (converter b (world_of t f) order opt) m Ls -> map songs m = map songs m' ->
  Rom.write_banks b verbose m' 0 0 r (map lo_addr Ls) (converter b (world_of t f) order opt) = Ok r' ->
  exists sss lss, banks_short b (converter b (world_of t f) order opt) 0 0 m' Ls sss lss.
Proof.
  intros Ho Hm Hal HT HF HS Em Ew. assert (Hlen : length Ls = length m) by (rewrite (proj1 (asked_room _ _ _ _ Hm)), <- (map_length lo_addr); apply (addresses_three _ _ Hal)).
  assert (L3 : length m' = length m) by (apply (f_equal (@length _)) in Em; rewrite !map_length in Em; congruence).
  eapply banks_short_loaded; [exact Ew| |congruence|exact HT| |exact (short_back _ _ _ _ _ Em HS)].
  - assert (HF' := slots_same (typed_slot t f) m m' Em). apply Forall_forall. intros bk Hbk. apply Forall_forall. intros sd Hsd. apply typed_gives; [exact Ho|].
    apply (HF') with (bk := bk); [|exact Hbk|exact Hsd]. intros bk0 sd0 H0 H1. rewrite Forall_forall in HF. specialize (HF bk0 H0). rewrite Forall_forall in HF. apply HF. exact H1.
  - destruct (asked_room _ _ _ _ Hm) as [_ Hroom]. intros k bk fa Hk Hf. pose proof Hk as Hk0. apply (map_nth_error songs) in Hk. rewrite <- Em in Hk. destruct (nth_error m k) as [bk0|] eqn:E.
    + pose proof (map_nth_error songs _ _ E) as E2. rewrite Hk in E2. injection E2 as E2. specialize (Hroom k bk0 fa E Hf). rewrite <- E2, (count_songs_map _ _ k Em) in Hroom. exact Hroom.
    + apply nth_error_None in E. rewrite (proj2 (nth_error_None (map songs m) k)) in Hk by (rewrite map_length; lia). discriminate.
Qed.
Lemma finished_write b t order o fl c rom f f' r m Ls : finished b t order o fl c rom f f' r m Ls ->
  exists m' r' sss lss, map songs m = map songs m' /\ f' rom = Some r' /\
    banks_short b (converter b (world_of t f) order (negb (skip_optimization fl))) 0 0 m' Ls sss lss /\
    Rom.write_banks b (verbose_flag fl) m' 0 0 r (map lo_addr Ls) (converter b (world_of t f) order (negb (skip_optimization fl))) = Ok r'.
Proof.
  intros [Ho Hc Hr Hi Hm Hal HL HI HT HR HS (n & Hos & Hn) H].
  destruct (command_rom _ _ _ _ _ _ _ _ _ _ _ _ Hc Hr Hal Hm H) as (m' & r' & Em & Hr' & Hw). rewrite Hos in Hw.
  assert (Hop : os_open o rom = true) by (unfold Rom.rom_write in Hw; destruct (os_open o rom); [reflexivity|discriminate]). rewrite Hop in Hw.
  apply good_write in Hw; [|exact Hn]. destruct Hw as [Hw _].
  destruct (write_short _ _ _ _ _ _ _ _ _ _ _ _ Ho Hm Hal HT HR HS Em Hw) as (sss & lss & HB). exists m', r', sss, lss. auto.
Qed.
Lemma short_nth b conv i first m Ls sss lss : banks_short b conv i first m Ls sss lss -> forall k bk L, nth_error m k = Some bk -> nth_error Ls k = Some L ->
  exists ss ls, nth_error sss k = Some ss /\ nth_error lss k = Some ls /\ loaded b conv (songs bk) ss ls.
Proof.
  induction 1 as [|i first fa bk0 L0 ss ls bks Ls sss lss Hfa HB _ IH]; intros [|k] bk L Hk HL; try discriminate; cbn [nth_error] in *.
  - injection Hk as <-. injection HL as <-. exists ss, ls. split; [reflexivity|]. split; [reflexivity|apply HB].
  - eapply IH; eassumption.
Qed.
Lemma loaded_length b conv sds ss ls : loaded b conv sds ss ls -> length ss = length sds.
Proof. induction 1; cbn; congruence. Qed.

Lemma finished_slots b t order o fl c rom f f' r m Ls : finished b t order o fl c rom f f' r m Ls ->
  (forall x, x <> rom -> f' x = f x) /\
  exists r', f' rom = Some r' /\ is_image r' /\ same_outside (fun x => exists L, In L Ls /\ lo_span L x) r r' /\
  forall k L, nth_error Ls k = Some L -> lo_in r' L -> exists bad, forall j sd, in_slot m Ls k j L sd ->
    (exists a, holds (aram r' (lo_blocks L)) (slot_address m k j) a) /\
    (j <> bad -> exists s a at_,
      match Manifest.input sd with
      | Some p => converter b (world_of t f) order (negb (skip_optimization fl)) p (Manifest.tempo_factor sd) = Ok s
      | None => song_empty b = Ok s
      end /\
      holds (aram r' (lo_blocks L)) (slot_address m k j) a /\ song_in (aram r' (lo_blocks L)) a (loops sd) s at_).
Proof.
  intros HB. split; [exact (run_others _ _ _ _ _ _ _ _ _ (fi_command _ _ _ _ _ _ _ _ _ _ _ _ HB) (fi_run _ _ _ _ _ _ _ _ _ _ _ _ HB))|].
  destruct (finished_write _ _ _ _ _ _ _ _ _ _ _ _ HB) as (m' & r' & sss & lss & Em & Hr' & Hsh & Hw).
  pose proof HB as [Ho Hc Hr Hi Hm Hal HL HI HT HR HS (n & Hos & Hn) H]. exists r'. split; [exact Hr'|].
  destruct (each_banks b _ _ _ 0%nat 0%nat m' Ls sss lss Hsh r r' [] eq_refl eq_refl Hi HL HI Hw) as (X1 & _).
  destruct (banks_each _ _ _ _ _ _ _ _ _ Hsh Hi HL HI Hw) as (X2 & X3). split; [exact X1|]. split; [exact X2|].
  intros k L HkL Hin.
  assert (Hlen : length Ls = length m) by (rewrite (proj1 (asked_room _ _ _ _ Hm)), <- (map_length lo_addr); apply (addresses_three _ _ Hal)).
  assert (L3 : length m' = length m) by (apply (f_equal (@length _)) in Em; rewrite !map_length in Em; congruence).
  destruct (nth_error m' k) as [bk'|] eqn:Hk'; [|apply nth_error_None in Hk'; apply nth_error_lt in HkL; lia].
  destruct (short_nth _ _ _ _ _ _ _ _ Hsh k bk' L Hk' HkL) as (ss & ls & Hss & Hls & Hld).
  destruct (X3 k bk' L ss ls Hk' HkL Hss Hls Hin) as (fa & _ & _ & bad & [B1 B2 B3 _]). exists bad. intros j sd (bk & Hk & _ & Hj).
  assert (Ebk : songs bk' = songs bk).
  { apply (map_nth_error songs) in Hk, Hk'. rewrite Em, Hk' in Hk. congruence. }
  rewrite <- Ebk in Hj. unfold slot_address. rewrite (count_songs_map _ _ k Em). split.
  - destruct (B2 j) as (a & Ha & _); [apply nth_error_Some; congruence|]. exists a. exact Ha.
  - intros Hbad. destruct (loaded_nth _ _ _ _ _ Hld j sd Hj) as (s & Hs & Hconv). destruct (B3 j sd s Hj Hs Hbad) as (a & at_ & Ha & Hsong).
    exists s, a, at_. auto.
Qed.
Lemma finished_renders b t order o fl c rom f f' r m Ls : finished b t order o fl c rom f f' r m Ls ->
  exists r', f' rom = Some r' /\ forall k L, nth_error Ls k = Some L -> lo_in r' L -> zero_free L -> exists bad, forall j sd, in_slot m Ls k j L sd -> j <> bad ->
  exists a, holds (aram r' (lo_blocks L)) (slot_address m k j) a /\
    (if loops sd then starts_again (aram r' (lo_blocks L)) a else stops (aram r' (lo_blocks L)) a) /\
    (forall p cbs, Manifest.input sd = Some p -> mid_file p ->
       good_midi b (world_of t f) order (negb (skip_optimization fl)) p (Manifest.tempo_factor sd) cbs ->
       renders (aram r' (lo_blocks L)) a (Manifest.tempo_factor sd) cbs
         (loud_file b (world_of t f) order (negb (skip_optimization fl)) p (Manifest.tempo_factor sd) cbs)) /\
    (Manifest.input sd = None -> song_plays (aram r' (lo_blocks L)) a (repeat [] 8)) /\
    (forall p s part loud, Manifest.input sd = Some p -> ~ mid_file p -> holds_song t f p s -> song_parts s part ->
       song_calls s -> Forall (fun tr : track => Forall playable tr) (tracks s) ->
       (loud = true -> Forall (fun tr : track => Forall full tr) (tracks s) /\
          Forall (fun i => forall tr, nth_error (tracks s) i = Some tr -> velocity_safe (tracks s) tr) part) ->
       exists ess, song_plays (aram r' (lo_blocks L)) a ess /\ plays_part (plays_track loud s) part ess).
Proof.
  intros HB. destruct (finished_slots _ _ _ _ _ _ _ _ _ _ _ _ HB) as (_ & r' & Hr' & _ & _ & Hslot). exists r'. split; [exact Hr'|].
  intros k L HkL Hin Hz. destruct (Hslot k L HkL Hin) as (bad & Hb). exists bad. intros j sd Hsl Hj.
  destruct (proj2 (Hb j sd Hsl) Hj) as (s & a & at_ & Hconv & Ha & Hsong). exists a. split; [exact Ha|].
  exact (song_renders _ _ _ _ _ _ _ _ _ _ (fi_order _ _ _ _ _ _ _ _ _ _ _ _ HB) Hconv Hsong (aram_zero _ _ Hz)).
Qed.

(** ** The command on another image with the same blocks *)
Lemma short_moves b verbose conv addrs : forall i first bks Ls sss lss, banks_short b conv i first bks Ls sss lss ->
  forall r q r' pa, addrs = pa ++ map lo_addr Ls -> length pa = i -> length q = length r -> is_image r -> is_image q ->
  Forall (layout_ok r) Ls -> Forall (layout_ok q) Ls -> ForallOrdPairs separate Ls ->
  Rom.write_banks b verbose bks i first r addrs conv = Ok r' ->
  exists q', Rom.write_banks b verbose bks i first q addrs conv = Ok q' /\ same_changes r r' q q'.
Proof.
  intros i first bks Ls sss lss HB. induction HB as [i first|i first fa bk L ss ls bks Ls sss lss Hfa HF HB IH]; intros r q r' pa Ea Epa HL Hr Hq HLr HLq HI H.
  - cbn [Rom.write_banks] in *. injection H as <-. exists q. split; [reflexivity|apply moves_refl].
  - cbn [Rom.write_banks] in *. inv_bind H. rewrite Ha. cbn [bind]. inv_bind H. rewrite Ha0. cbn [bind]. inv_bind H. apply or_panic_ok in Ha, Ha0. rename a1 into r1.
    assert (Ead : a = lo_addr L).
    { subst addrs. rewrite nth_error_app2 in Ha by lia. replace (i - length pa)%nat with 0%nat in Ha by lia. cbn in Ha. congruence. }
    subst a. assert (a0 = fa) by (change Rom.BANK_FIRST_SONG_ADDRS with first_songs in Ha0; congruence). subst a0.
    assert (Hfa0 : 0xd000 <= fa).
    { clear -Hfa. destruct i as [|[|[|i]]]; cbn in Hfa; try (injection Hfa as <-; lia). destruct i; discriminate. }
    apply Forall_cons_iff in HLr, HLq. destruct HLr as [HL1 HLr], HLq as [HL2 HLq]. inversion HI as [|? ? HI1 HI2]; subst.
    destruct (bank_anywhere _ _ _ _ q _ _ _ _ _ Hr Hq HL HL1 HL2 Ha1) as (q1 & Hq1 & M1). rewrite Hq1. cbn [bind].
    destruct (each_bank b verbose bk r L fa first conv r1 ss ls Hr HL1 Hfa0 HF Ha1) as (W1 & W3 & _).
    destruct (each_bank b verbose bk q L fa first conv q1 ss ls Hq HL2 Hfa0 HF Hq1) as (V1 & V3 & _).
    destruct (IH r1 q1 r' (pa ++ [lo_addr L])) as (q' & Hq' & M2).
    + cbn [map]. rewrite <- app_assoc. reflexivity.
    + rewrite app_length. cbn. lia.
    + exact (moves_length _ _ _ _ HL M1).
    + exact W1.
    + exact V1.
    + rewrite Forall_forall in *. intros L' HL'. eapply layout_same; [exact Hr|exact W3| |apply HLr; exact HL'].
      cbv beta. intros x Hx. apply (proj1 (HI1 L' HL' x) Hx).
    + rewrite Forall_forall in *. intros L' HL'. eapply layout_same; [exact Hq|exact V3| |apply HLq; exact HL'].
      cbv beta. intros x Hx. apply (proj1 (HI1 L' HL' x) Hx).
    + exact HI2.
    + exact H.
    + exists q'. split; [exact Hq'|exact (moves_trans _ _ _ _ _ _ M1 M2)].
Qed.

Lemma finished_on b t order order2 o o2 fl c rom f f' r m Ls g q n : finished b t order o fl c rom f f' r m Ls ->
  (forall i, permutes (order2 i)) -> reads_elsewhere c rom m -> (forall x, x <> rom -> g x = f x) -> g rom = Some q ->
  is_image q -> length q = length r -> Forall (layout_ok q) Ls -> os_open o2 rom = true -> os_rom o2 = Rom.Wrote n ->
  exists r' q', f' rom = Some r' /\ is_image r' /\ same_changes r r' q q' /\ run b t order2 o2 fl c g = (Ok tt, store g rom (Rom.file_overwrite q q' n)).
Proof.
  intros HB Ho2 Hel Hg Hgr Hq HLq HLsq Hop Hwr. pose proof HB as [Ho Hc Hr Hi Hm Hal HL HI HT HR HS (n0 & Hos & Hn) H].
  destruct (rerun_raw _ _ _ order2 _ _ _ _ _ _ _ _ _ _ Ho Hc Hr Hm Hal Hos H Ho2 Hel) as (m' & r' & Em & Hr' & Hw & Hrun).
  rewrite (Hrun g q o2 Hg Hgr), Hop, Hwr. apply good_write in Hw; [|exact Hn]. destruct Hw as [Hw _].
  destruct (write_short _ _ _ _ _ _ _ _ _ _ _ _ Ho Hm Hal HT HR HS Em Hw) as (sss & lss & Hsh).
  destruct (short_moves b _ _ _ 0%nat 0%nat m' Ls sss lss Hsh r q r' [] eq_refl eq_refl HLq Hi Hq HL HLsq HI Hw) as (q' & Hq' & M).
  destruct (each_banks b _ _ _ 0%nat 0%nat m' Ls sss lss Hsh r r' [] eq_refl eq_refl Hi HL HI Hw) as (X1 & _).
  exists r', q'. split; [exact Hr'|]. split; [exact X1|]. split; [exact M|]. cbn [app] in Hq'. unfold Rom.rom_write. rewrite Hq'. reflexivity.
Qed.
Lemma kept_layouts r r' Ls : length r' = length r -> Forall (layout_ok r) Ls -> Forall (lo_in r') Ls -> Forall (layout_ok r') Ls.
Proof. intros HL H1 H2. rewrite Forall_forall in *. intros L HLs. eapply layout_kept; [exact HL|apply H1; exact HLs|apply H2; exact HLs]. Qed.
Lemma finished_again b t order order2 o o2 fl c rom f f' r r' m Ls k f2 res : finished b t order o fl c rom f f' r m Ls ->
  f' rom = Some r' -> Forall (lo_in r') Ls -> (forall i, permutes (order2 i)) -> reads_elsewhere c rom m ->
  os_open o2 rom = true -> os_rom o2 = Rom.Wrote k -> run b t order2 o2 fl c f' = (res, f2) -> res = Ok tt /\ same_files f' f2.
Proof.
  intros HB Hr' Hin Ho2 Hel Hop Hwr H. destruct (finished_slots _ _ _ _ _ _ _ _ _ _ _ _ HB) as (Hoth & r1 & Hr1 & Hi' & [HL _] & _).
  rewrite Hr' in Hr1. injection Hr1 as <-.
  destruct (finished_on _ _ _ order2 _ o2 _ _ _ _ _ _ _ _ f' r' k HB Ho2 Hel Hoth Hr' Hi' HL (kept_layouts _ _ _ HL (fi_layouts _ _ _ _ _ _ _ _ _ _ _ _ HB) Hin) Hop Hwr) as (r1 & q' & E1 & _ & M & E2).
  rewrite Hr' in E1. injection E1 as <-. rewrite (moves_back _ _ _ M), overwrite_same in E2. rewrite E2 in H. injection H as <- <-. split; [reflexivity|].
  intros x. unfold store. destruct (String.eqb_spec x rom) as [->|_]; congruence.
Qed.
Lemma finished_resume b t order order1 order2 o o1 o2 fl c rom f f' f1 f2 r1 res r m Ls n1 n2 : finished b t order o fl c rom f f' r m Ls ->
  (forall i, permutes (order1 i)) -> (forall i, permutes (order2 i)) -> reads_elsewhere c rom m ->
  os_rom o1 = Rom.Wrote n1 -> run b t order1 o1 fl c f = (Ok tt, f1) -> f1 rom = Some r1 -> Forall (lo_in r1) Ls ->
  os_open o2 rom = true -> os_rom o2 = Rom.Wrote n2 -> (length r <= n2)%nat -> run b t order2 o2 fl c f1 = (res, f2) ->
  res = Ok tt /\ same_files f' f2.
Proof.
  intros HB Ho1 Ho2 Hel Hw1 H1 Hf1 Hin Hop Hw2 Hn2 H2. pose proof HB as [Ho Hc Hr Hi Hm Hal HL HI HT HR HS (n0 & Hos & Hn) H].
  destruct (rerun_raw _ _ _ order1 _ _ _ _ _ _ _ _ _ _ Ho Hc Hr Hm Hal Hos H Ho1 Hel) as (m' & r' & Em & Hr' & Hw & Hrun).
  rewrite (Hrun f r o1 (fun _ _ => eq_refl) Hr), Hw1 in H1.
  destruct (os_open o1 rom); [|unfold Rom.rom_write in H1; discriminate].
  destruct (cut_short _ _ _ _ _ _ _ n1 _ Hw Hn) as (q & Hq & Hhalf). rewrite Hq in H1. injection H1 as <-. rewrite store_same in Hf1. injection Hf1 as ->.
  destruct (finished_slots _ _ _ _ _ _ _ _ _ _ _ _ HB) as (Hoth & r2 & Hr2 & Hi' & [HL' _] & _). rewrite Hr' in Hr2. injection Hr2 as <-.
  assert (Hiq : is_image r1) by exact (mixture_image r r' r1 Hi Hi' Hhalf).
  assert (Hlq : length r1 = length r) by exact (proj1 Hhalf).
  destruct (finished_on _ _ _ order2 _ o2 _ _ _ _ _ _ _ _ (store f rom r1) r1 n2 HB Ho2 Hel (fun x Hx => store_other f rom r1 x Hx) (store_same f rom r1) Hiq Hlq
    (kept_layouts _ _ _ Hlq HL Hin) Hop Hw2) as (r2 & q' & E1 & _ & (M1 & M2 & M3) & E2).
  rewrite Hr' in E1. injection E1 as <-. rewrite E2 in H2. injection H2 as <- <-. split; [reflexivity|].
  assert (q' = r').
  { apply nth_error_ext. intros k. destruct (M3 k) as [E|[E3 E4]]; [exact (eq_sym E)|]. destruct (proj2 Hhalf k) as [E|E]; congruence. }
  subst q'. intros x. unfold store. destruct (String.eqb_spec x rom) as [->|Hx].
  - rewrite Hr'. f_equal. unfold Rom.file_overwrite. rewrite firstn_all2 by lia. rewrite M1, <- Hlq, skipn_all, app_nil_r. reflexivity.
  - symmetry. apply Hoth. exact Hx.
Qed.
Lemma finished_any b t order o fl c rom f f' r m Ls q : finished b t order o fl c rom f f' r m Ls -> reads_elsewhere c rom m -> is_image q -> length q = length r -> Forall (layout_ok q) Ls ->
  exists g' r' q', finished b t order o fl c rom (store f rom q) g' q m Ls /\ f' rom = Some r' /\ g' rom = Some q' /\ same_changes r r' q q'.
Proof.
  intros HB Hel Hq HL HLq. pose proof HB as [Ho Hc Hr Hi Hm Hal HLr HI HT HR HS (n & Hos & Hn) H]. pose proof Hel as [Hman Hin].
  assert (Hop : os_open o rom = true).
  { destruct (command_rom _ _ _ _ _ _ _ _ _ _ _ _ Hc Hr Hal Hm H) as (m' & r' & _ & _ & Hw). unfold Rom.rom_write in Hw. destruct (os_open o rom); [reflexivity|discriminate]. }
  destruct (finished_on _ _ _ order _ o _ _ _ _ _ _ _ _ (store f rom q) q n HB Ho Hel (fun x Hx => store_other f rom q x Hx) (store_same f rom q) Hq HL HLq Hop Hos) as (r' & q' & X1 & _ & X3 & E).
  exists (store (store f rom q) rom (Rom.file_overwrite q q' n)), r', q'. split; [|split; [exact X1|split; [|exact X3]]].
  2:{ rewrite store_same. f_equal. destruct X3 as (_ & M2 & _). unfold Rom.file_overwrite. rewrite firstn_all2 by lia. rewrite M2, skipn_all, app_nil_r. reflexivity. }
  constructor; try eassumption.
  - apply store_same.
  - destruct Hm as [M1 M2]. split; [exact M1|]. intros bank name sd Hs. specialize (M2 bank name sd Hs). destruct c; try exact M2; cbn [wanted builds_rom] in *.
    destruct M2 as (content & v & dir & A & B). exists content, v, dir. split; [|exact B]. subst. rewrite store_other; [exact A|]. eapply Hman. reflexivity.
  - rewrite Forall_forall in *. intros bk Hbk. specialize (HR bk Hbk). rewrite Forall_forall in *. intros sd Hsd p Hp. specialize (HR sd Hsd p Hp).
    assert (Hpr : p <> rom) by (eapply Hin; eassumption). destruct HR as [R1 R2]. split.
    + intros Hmid content cbs complete Hf Hpm. rewrite store_other in Hf by exact Hpr. eapply R1; eassumption.
    + intros Hmid s part (content & v & A & B). rewrite store_other in A by exact Hpr. apply R2; [exact Hmid|]. exists content, v. auto.
  - intros k bk L ss ls Hk HLk Hld. apply (HS k bk L ss ls Hk HLk). eapply loaded_ext; [|exact Hld].
    intros sd p Hsd Hp. apply conv_same with (rom := rom); try exact Ho; [intros x Hx; apply store_other; exact Hx|]. apply nth_error_In in Hk. eapply Hin; eassumption.
  - exists n. split; [exact Hos|lia].
Qed.
Lemma finished_on_dummy b t order o fl c rom f f' r m Ls d : finished b t order o fl c rom f f' r m Ls -> reads_elsewhere c rom m -> Rom.fake_image b r (map lo_addr Ls) = Ok d ->
  exists g' r' d', finished b t order o fl c rom (store f rom d) g' d m Ls /\ f' rom = Some r' /\ g' rom = Some d' /\ same_changes r r' d d'.
Proof.
  intros HB Hel HD.
  destruct (dummy_layouts b r d Ls (fi_image _ _ _ _ _ _ _ _ _ _ _ _ HB) (fi_layouts _ _ _ _ _ _ _ _ _ _ _ _ HB) HD) as (D1 & D2 & D3).
  eapply finished_any; eassumption.
Qed.
Lemma finished_from_dummy b t order o fl c rom f f' r m Ls d : finished b t order o fl c rom f f' d m Ls -> reads_elsewhere c rom m ->
  is_image r -> Forall (layout_ok r) Ls -> Rom.fake_image b r (map lo_addr Ls) = Ok d ->
  exists g' d' r', finished b t order o fl c rom (store f rom r) g' r m Ls /\ f' rom = Some d' /\ g' rom = Some r' /\ same_changes d d' r r'.
Proof.
  intros HB Hel Hr HLr HD. destruct (dummy_layouts b r d Ls Hr HLr HD) as (D1 & D2 & D3). eapply finished_any; try eassumption. now symmetry.
Qed.

(** GameBuild.v: commands run on the game's ROM with the default addresses (C77). *)
From Coq Require Import ZArith List String Bool Lia ZifyBool ZifyNat.
From Verif Require Import Base F32 Messages Command Track Song Paths Manifest Midi Json Cli SpecSong SpecMidi SpecVoices SpecVoice SpecRom SpecBank SpecJson Run SpecRun SpecCommand SpecSuccess SpecSafe SpecEach
  SpecConsole SpecRendered SpecFinished SpecGame ProofLib RomLib RomBanks RenderProofs FinishedProofs SafeProofs GameProofs SpecFit FitProofs.
From Verif Require Rom.
Import ListNotations.
Open Scope Z_scope.
Open Scope list_scope.

Lemma game_data x : (exists L, In L game_layouts /\ lo_data L x) <-> game_song_data x.
Proof.
  unfold game_song_data. split.
  - intros (L & HL & Hx). unfold lo_data, in_payload, payload, payload_end in Hx. cbn in HL. destruct HL as [<-|[<-|[<-|[]]]]; cbn [game_bank lo_base lo_ovf tb_start tb_len] in Hx; lia.
  - intros H. assert (D : 0xd1ef9 <= x < 0xd4ca7 \/ 0xd4cab <= x < 0xd5333 \/ (0xd8004 <= x < 0xdacc3 \/ 0xdacc7 <= x < 0xdb1d3) \/ (0xd5384 <= x < 0xd63e4 \/ 0xd63e8 <= x < 0xd7420)) by lia.
    assert (E : (0xd1ef9 <= x < 0xd4ca7 \/ 0xd4cab <= x < 0xd5333) \/ (0xd8004 <= x < 0xdacc3 \/ 0xdacc7 <= x < 0xdb1d3) \/ (0xd5384 <= x < 0xd63e4 \/ 0xd63e8 <= x < 0xd7420)) by lia.
    clear D. destruct E as [E|[E|E]].
    + exists (nth 0 game_layouts (game_bank 0 0 0 0 0)). split; [left; reflexivity|]. unfold lo_data, in_payload, payload, payload_end. cbn [nth game_layouts game_bank lo_base lo_ovf tb_start tb_len]. lia.
    + exists (nth 1 game_layouts (game_bank 0 0 0 0 0)). split; [right; left; reflexivity|]. unfold lo_data, in_payload, payload, payload_end. cbn [nth game_layouts game_bank lo_base lo_ovf tb_start tb_len]. lia.
    + exists (nth 2 game_layouts (game_bank 0 0 0 0 0)). split; [right; right; left; reflexivity|]. unfold lo_data, in_payload, payload, payload_end. cbn [nth game_layouts game_bank lo_base lo_ovf tb_start tb_len]. lia.
Qed.
Lemma data_off_frame x : In x frame -> ~ game_song_data x.
Proof.
  intros Hx Hd. assert (HC : forallb (fun x => negb ((0xd1ef9 <=? x) && (x <? 0xd4ca7)) && negb ((0xd4cab <=? x) && (x <? 0xd5333)) && negb ((0xd8004 <=? x) && (x <? 0xdacc3)) &&
    negb ((0xdacc7 <=? x) && (x <? 0xdb1d3)) && negb ((0xd5384 <=? x) && (x <? 0xd63e4)) && negb ((0xd63e8 <=? x) && (x <? 0xd7420))) frame = true) by (vm_compute; reflexivity).
  rewrite forallb_forall in HC. specialize (HC x Hx). unfold game_song_data in Hd. lia.
Qed.
Lemma span_data L x : lo_data L x -> 0 <= tb_len (lo_base L) -> 0 <= tb_len (lo_ovf L) -> payload_end (lo_base L) <= payload (lo_ovf L) -> lo_span L x.
Proof. unfold lo_data, in_payload, lo_span, payload, payload_end. lia. Qed.
Lemma game_independent : ForallOrdPairs independent game_layouts.
Proof.
  assert (HX : forall L L', In L game_layouts -> In L' game_layouts -> separate L L' -> independent L L').
  { assert (HS : forall L x, In L game_layouts -> lo_data L x -> lo_span L x).
    { intros L x HL Hx. destruct (in_game L HL) as (addr & start & bl & ol & oa & -> & Ha & H1 & H2 & H3 & H4 & H5 & H6 & H7).
      apply span_data; [exact Hx| | |]; unfold payload, payload_end; cbn [game_bank lo_base lo_ovf tb_start tb_len]; lia. }
    intros L L' HL HL' H x. destruct (H x) as [A B]. split; intros Hx; apply HS in Hx; try assumption.
    - destruct (A Hx) as [A1 A2]. split; [|exact A2]. intros Hy. apply A1. exact (HS L' x HL' Hy).
    - split; [|exact (B Hx)]. intros Hy. exact (proj1 (A (HS L x HL Hy)) Hx). }
  pose proof game_separate as H. assert (HI : forall L, In L game_layouts -> In L game_layouts) by auto. revert H HI. generalize game_layouts at 1 2 4. intros l.
  induction 1 as [|L l HF HO IH]; intros HI; [constructor|]. constructor.
  - rewrite Forall_forall in *. intros L' HL'. apply HX; [apply HI; left; reflexivity|apply HI; right; exact HL'|exact (HF L' HL')].
  - apply IH. intros L' HL'. apply HI. right. exact HL'.
Qed.
Lemma game_clear : ForallOrdPairs clear_of game_layouts.
Proof.
  pose proof game_separate as H. revert H. generalize game_layouts. induction 1 as [|L l HF HO IH]; constructor; [|exact IH].
  rewrite Forall_forall in *. intros L' HL' x Hx. destruct (HF L' HL' x) as [A _]. exact (proj2 (A Hx)).
Qed.
Lemma game_addresses c : address_option c = None -> addresses c (map lo_addr game_layouts).
Proof. intros H. unfold addresses. rewrite H. reflexivity. Qed.

Lemma game_built b t order o fl c rom f f' r m : (forall i, permutes (order i)) -> builds_rom c rom -> address_option c = None -> f rom = Some r -> game_rom r -> asked t f c m ->
  Forall (fun bk => Forall (readable_slot t f) (songs bk)) m -> moved_tracks_ok b (converter b (world_of t f) order (negb (skip_optimization fl))) m game_layouts ->
  (exists n, os_rom o = Rom.Wrote n /\ (length r <= n)%nat) -> run b t order o fl c f = (Ok tt, f') -> built b t order o fl c rom f f' r m game_layouts.
Proof.
  intros Ho Hc Ha Hr HG Hm HR HM HW H.
  exact (mk_built _ _ _ _ _ _ _ _ _ _ _ _ Ho Hc Hr (gr_image r HG) Hm (game_addresses c Ha) (game_all r HG) game_independent (proj1 game_table) HR HM HW H).
Qed.
Lemma game_finished b t order o fl c rom f f' r m : (forall i, permutes (order i)) -> builds_rom c rom -> address_option c = None -> f rom = Some r -> game_rom r -> asked t f c m ->
  Forall (fun bk => Forall (typed_slot t f) (songs bk)) m -> short_tracks b (converter b (world_of t f) order (negb (skip_optimization fl))) m game_layouts ->
  (exists n, os_rom o = Rom.Wrote n /\ (length r <= n)%nat) -> run b t order o fl c f = (Ok tt, f') -> finished b t order o fl c rom f f' r m game_layouts.
Proof.
  intros Ho Hc Ha Hr HG Hm HR HM HW H.
  exact (mk_finished _ _ _ _ _ _ _ _ _ _ _ _ Ho Hc Hr (gr_image r HG) Hm (game_addresses c Ha) (game_all r HG) game_separate (proj1 game_table) HR HM HW H).
Qed.
Lemma game_built_slot b t order o fl c rom f f' r m : (forall i, permutes (order i)) -> builds_rom c rom -> address_option c = None -> f rom = Some r -> game_rom r -> asked t f c m ->
  Forall (fun bk => Forall (readable_slot t f) (songs bk)) m -> moved_tracks_ok b (converter b (world_of t f) order (negb (skip_optimization fl))) m game_layouts ->
  (exists n, os_rom o = Rom.Wrote n /\ (length r <= n)%nat) -> run b t order o fl c f = (Ok tt, f') ->
  exists r', f' rom = Some r' /\ game_rom r' /\ same_outside game_song_data r r' /\
  forall k j L sd, in_slot m game_layouts k j L sd -> exists s a at_,
    match Manifest.input sd with
    | Some p => converter b (world_of t f) order (negb (skip_optimization fl)) p (Manifest.tempo_factor sd) = Ok s
    | None => song_empty b = Ok s
    end /\
    holds (aram r' (lo_blocks L)) (slot_address m k j) a /\ song_in (aram r' (lo_blocks L)) a (loops sd) s at_.
Proof.
  intros Ho Hc Ha Hr HG Hm HR HM HW H. pose proof (game_built _ _ _ _ _ _ _ _ _ _ _ Ho Hc Ha Hr HG Hm HR HM HW H) as HB.
  destruct (built_slot _ _ _ _ _ _ _ _ _ _ _ _ HB) as (r' & Hr' & HI & _ & HO & HS). exists r'. split; [exact Hr'|].
  assert (HO' : same_outside game_song_data r r') by (eapply same_outside_weaken; [|exact HO]; intros x _; apply game_data).
  split; [exact (game_kept r r' _ HG HI HO' data_off_frame)|]. split; [exact HO'|exact HS].
Qed.
Lemma game_reports t order o fl c rom f r m : (forall i, permutes (order i)) -> builds_rom c rom -> address_option c = None -> f rom = Some r -> game_rom r -> asked t f c m ->
  Forall (fun bk => Forall (good_input t f) (songs bk)) m -> short_songs (converter Release (world_of t f) order (negb (skip_optimization fl))) m game_layouts ->
  fst (run Release t order o fl c f) = Ok tt \/ exists e, fst (run Release t order o fl c f) = Err e /\ In e [EDoesNotFit; ECouldntFit; EMidiRead; EIo].
Proof.
  intros Ho Hc Ha Hr HG Hm HR HM.
  exact (command_reports _ _ _ _ _ _ _ _ _ _ Ho Hc Hr (gr_image r HG) Hm (game_addresses c Ha) (game_all r HG) game_clear (proj1 game_table) HR HM).
Qed.
Lemma game_stands_in b t order o fl c rom f f' r m : (forall i, permutes (order i)) -> builds_rom c rom -> address_option c = None -> f rom = Some r -> game_rom r -> asked t f c m ->
  Forall (fun bk => Forall (typed_slot t f) (songs bk)) m -> short_tracks b (converter b (world_of t f) order (negb (skip_optimization fl))) m game_layouts -> reads_elsewhere c rom m ->
  (exists n, os_rom o = Rom.Wrote n /\ (length r <= n)%nat) -> run b t order o fl c f = (Ok tt, f') ->
  forall q, game_rom q -> exists g' r' q', run b t order o fl c (store f rom q) = (Ok tt, g') /\ f' rom = Some r' /\ g' rom = Some q' /\ same_changes r r' q q'.
Proof.
  intros Ho Hc Ha Hr HG Hm HR HM He HW H q Hq. pose proof (game_finished _ _ _ _ _ _ _ _ _ _ _ Ho Hc Ha Hr HG Hm HR HM HW H) as HB.
  assert (HL : length q = length r) by (pose proof (gr_size r HG); pose proof (gr_size q Hq); unfold size in *; lia).
  destruct (finished_any _ _ _ _ _ _ _ _ _ _ _ _ q HB He (gr_image q Hq) HL (game_all q Hq)) as (g' & r' & q' & F & A & B & C).
  exists g', r', q'. split; [exact (fi_run _ _ _ _ _ _ _ _ _ _ _ _ F)|auto].
Qed.
Lemma game_fits b t order o fl c rom f r m : (forall i, permutes (order i)) -> builds_rom c rom -> address_option c = None -> f rom = Some r -> game_rom r -> asked t f c m ->
  Forall (fun bk => Forall (good_input t f) (songs bk)) m -> all_convert (converter b (world_of t f) order (negb (skip_optimization fl))) m ->
  short_songs (converter b (world_of t f) order (negb (skip_optimization fl))) m game_layouts -> os_open o rom = true -> (exists n, os_rom o = Rom.Wrote n) ->
  (fst (run b t order o fl c f) = Ok tt /\ songs_fit b (converter b (world_of t f) order (negb (skip_optimization fl))) m game_layouts) \/
  (fst (run b t order o fl c f) = Err EDoesNotFit /\ ~ songs_fit b (converter b (world_of t f) order (negb (skip_optimization fl))) m game_layouts).
Proof.
  intros Ho Hc Ha Hr HG Hm HR HA HM.
  exact (command_fits _ _ _ _ _ _ _ _ _ _ _ Ho Hc Hr (gr_image r HG) Hm (game_addresses c Ha) (game_all r HG) game_clear (proj1 game_table) HR HA HM).
Qed.
Lemma game_gen b t order o fl input output f r n : f input = Some r -> game_rom r -> (forall old, f output = Some old -> (length old <= length r)%nat) ->
  os_create o output = true -> os_rom o = Rom.Wrote n -> (length r <= n)%nat -> run b t order o fl (CGenFakeRom input output) f = (Ok tt, store f output sample_dummy).
Proof.
  intros Hf HG Hold Hc Hos Hn. cbn [run]. unfold run_gen_fake_rom, Rom.gen_fake_rom. rewrite Hf, (game_dummy b r HG), Hc, Hos.
  assert (HL : length sample_dummy = length r) by (pose proof (gr_size r HG); pose proof (gr_size _ sample_game); unfold size in *; lia).
  unfold Rom.file_overwrite. rewrite firstn_all2 by lia. rewrite skipn_all2, app_nil_r; [reflexivity|]. destruct (f output) as [old|]; [specialize (Hold old eq_refl); lia|cbn; lia].
Qed.

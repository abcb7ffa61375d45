(** TableProofs.v: the song table of a bank, whatever the songs (C36). *)
From Coq Require Import ZArith List Lia ZifyBool ZifyNat.
From Verif Require Import Base F32 Command Track Song Paths Manifest Rom SpecRom SpecBank SpecTable ProofLib CodecProofs RomLib RomProofs RomBank RomChain RomBanks RomTotal RomSafe.
Import ListNotations.
Open Scope Z_scope.

Definition from (lo x : Z) : Prop := lo <= x.
Lemma wr_all_from lo l r r' : 0 <= lo -> Forall (fun av => lo <= fst av) l -> wr_all r l = Ok r' -> same_outside (from lo) r r'.
Proof.
  intros H0 HF H. destruct (wr_all_ok l r r') as (_ & HL & Hb); [eapply Forall_impl; [|exact HF]; cbv beta; intros; lia|exact H|]. split; [exact HL|].
  intros x Hx Hout. rewrite Hb by exact Hx. apply last_write_none. eapply Forall_impl; [|exact HF]. cbv beta. intros av Hav E. apply Hout. unfold from. lia.
Qed.
Lemma zero_from lo a n r r' : 0 <= lo -> lo <= a -> wr_all r (zero_range a n) = Ok r' -> same_outside (from lo) r r'.
Proof.
  intros H0 H1 H. eapply wr_all_from; [exact H0| |exact H]. apply Forall_forall. intros x Hx. unfold zero_range in Hx. apply in_map_iff in Hx. destruct Hx as (i & <- & Hi).
  apply in_seq in Hi. cbn. lia.
Qed.
Lemma part_from lo addrs part : 0 <= lo -> forall r a r', lo <= a -> write_part r a addrs part = Ok r' -> same_outside (from lo) r r'.
Proof.
  intros H0. induction part as [|ti part IH]; intros r a r' H1 H; cbn [write_part] in H; [injection H as <-; apply same_outside_refl|].
  inv_bind H. destruct (addr_to_bytes a0) as [h l]. inv_bind H. eapply same_outside_trans; [|eapply (IH a1 (a + 2)); [lia|exact H]].
  eapply wr_all_from; [exact H0| |exact Ha0]. repeat (constructor; [cbn; lia|]). constructor.
Qed.
Lemma patch_from lo addrs l : 0 <= lo -> Forall (fun x => lo <= ref_addr x) l -> forall r r', ofold (patch_loop addrs) l r = Ok r' -> same_outside (from lo) r r'.
Proof.
  intros H0 HF. induction HF as [|x l Hx _ IH]; intros r r' H; cbn [ofold] in H; [injection H as <-; apply same_outside_refl|]. inv_bind H.
  eapply same_outside_trans; [|exact (IH _ _ H)]. unfold patch_loop in Ha. cbv zeta in Ha. inv_bind Ha. destruct (addr_to_bytes a0) as [hb lb].
  change (rr_chunk_base x + Z.of_nat (rr_ref_pos x)) with (ref_addr x) in Ha.
  eapply wr_all_from; [exact H0| |exact Ha]. repeat (constructor; [cbn; lia|]). constructor.
Qed.
Lemma splice_from lo r a data r' : 0 <= lo -> lo <= a -> splice r a data = Ok r' -> same_outside (from lo) r r'.
Proof.
  intros H0 H1 H. destruct (splice_ok r a data r' ltac:(lia) H) as (_ & HL & Hb & _). split; [exact HL|]. intros x Hx Hout. apply Hb; [exact Hx|].
  unfold from in Hout. lia.
Qed.

(** The writer is in the base block, or in the overflow block and maybe behind its end. *)
Definition in_base (base ovf : tblock) (ra cl ab off : Z) : Prop := ra = payload base /\ cl = tb_len base /\ ab = 0xd000 /\ 0 <= off <= tb_len base.
Definition in_ovf (base ovf : tblock) (ra cl ab off : Z) : Prop := ra = payload ovf /\ cl = tb_len ovf /\ ab = tb_aram ovf /\ 0 <= off.
Definition somewhere (base ovf : tblock) (ra cl ab off : Z) : Prop := in_base base ovf ra cl ab off \/ in_ovf base ovf ra cl ab off.

Lemma track_from b verbose base ovf s o st i st' lo : good_blocks base ovf (size (ks_rom st)) -> 0 <= lo ->
  somewhere base ovf (ks_rom_addr st) (ks_chunk_length st) (ks_aram_base st) (track_data_offset st) -> lo <= ks_rom_addr st + track_data_offset st ->
  Forall (fun x => lo <= ref_addr x) (call_loops st) -> write_one_track b verbose (blocks_of base ovf) o s st i = Ok st' ->
  somewhere base ovf (ks_rom_addr st') (ks_chunk_length st') (ks_aram_base st') (track_data_offset st') /\
  ks_rom_addr st + track_data_offset st <= ks_rom_addr st' + track_data_offset st' /\
  Forall (fun x => lo <= ref_addr x) (call_loops st') /\ same_outside (from lo) (ks_rom st) (ks_rom st').
Proof.
  intros (G1 & G2 & G3 & G4 & G5 & G6 & G7) Hlo HP Hq HF H. unfold write_one_track in H. cbv zeta in H. inv_bind H. destruct a as [data refs]. set (len := Z.of_nat (length data)) in *.
  assert (Hl0 : 0 <= len) by (unfold len; lia). inv_bind H.
  assert (K : exists st1 pre cur, a = (st1, pre, cur) /\ somewhere base ovf (ks_rom_addr st1) (ks_chunk_length st1) (ks_aram_base st1) (track_data_offset st1 + len) /\
     ks_rom_addr st + track_data_offset st <= ks_rom_addr st1 + track_data_offset st1 /\ call_loops st1 = call_loops st /\ ks_rom st1 = ks_rom st /\
     (pre = [] \/ lo <= payload base + track_data_offset st) /\ 0 <= track_data_offset st1 /\ somewhere base ovf (ks_rom_addr st1) (ks_chunk_length st1) (ks_aram_base st1) (track_data_offset st1)).
  { cbn [aram_overflow_base overflow_chunk_addr overflow_chunk_len blocks_of] in Ha0. destruct HP as [(P1 & P2 & P3 & P4)|(P1 & P2 & P3 & P4)].
    - destruct (Z.ltb_spec (ks_chunk_length st) (track_data_offset st + len)) as [Hlt|Hle].
      + destruct (Z.eqb_spec (ks_aram_base st) (tb_aram ovf)) as [|Hne]; [discriminate|]. inv_bind Ha0. injection Ha0 as <-. eexists. eexists. eexists. split; [reflexivity|].
        cbn [ks_rom ks_rom_addr track_data_offset ks_chunk_length ks_aram_base track_addrs call_loops]. split; [right; unfold in_ovf; lia|]. split; [unfold payload, payload_end in *; lia|].
        split; [reflexivity|]. split; [reflexivity|]. split; [right; lia|]. split; [lia|]. right; unfold in_ovf; lia.
      + injection Ha0 as <-. exists st, [], refs. split; [reflexivity|]. split; [left; unfold in_base; lia|]. split; [lia|]. split; [reflexivity|]. split; [reflexivity|]. split; [left; reflexivity|]. split; [lia|].
        left; unfold in_base; lia.
    - destruct (Z.ltb_spec (ks_chunk_length st) (track_data_offset st + len)) as [Hlt|Hle].
      + rewrite P3, Z.eqb_refl in Ha0. discriminate.
      + injection Ha0 as <-. exists st, [], refs. split; [reflexivity|]. split; [right; unfold in_ovf; lia|]. split; [lia|]. split; [reflexivity|]. split; [reflexivity|]. split; [left; reflexivity|]. split; [lia|].
        right; unfold in_ovf; lia. }
  destruct K as (st1 & pre & cur & -> & K1 & K2 & K3 & K4 & K5 & K6 & K7). cbn [base_chunk_addr blocks_of] in H.
  destruct (Z.ltb_spec 0 len) as [Hpos|Hz].
  - inv_bind H. injection H as <-. cbn [ks_rom ks_rom_addr track_data_offset ks_chunk_length ks_aram_base track_addrs call_loops]. split; [exact K1|]. split; [lia|]. split.
    + rewrite K3. apply Forall_app. split; [exact HF|]. apply Forall_app. split.
      * destruct K5 as [->|K5]; [constructor|]. apply Forall_forall. intros x Hx. apply in_map_iff in Hx. destruct Hx as (y & <- & _). unfold ref_addr. cbn. lia.
      * apply Forall_forall. intros x Hx. apply in_map_iff in Hx. destruct Hx as (y & <- & _). unfold ref_addr. cbn. lia.
    + rewrite K4 in Ha1. eapply splice_from; [exact Hlo| |exact Ha1]. lia.
  - injection H as <-. cbn [ks_rom ks_rom_addr track_data_offset ks_chunk_length ks_aram_base track_addrs call_loops]. split; [exact K7|]. split; [lia|]. rewrite K3, K4. split; [exact HF|apply same_outside_refl].
Qed.
Lemma tracks_from b verbose base ovf s o lo l : 0 <= lo -> forall st st', good_blocks base ovf (size (ks_rom st)) ->
  somewhere base ovf (ks_rom_addr st) (ks_chunk_length st) (ks_aram_base st) (track_data_offset st) -> lo <= ks_rom_addr st + track_data_offset st ->
  Forall (fun x => lo <= ref_addr x) (call_loops st) -> ofold (write_one_track b verbose (blocks_of base ovf) o s) l st = Ok st' ->
  somewhere base ovf (ks_rom_addr st') (ks_chunk_length st') (ks_aram_base st') (track_data_offset st') /\
  ks_rom_addr st + track_data_offset st <= ks_rom_addr st' + track_data_offset st' /\
  Forall (fun x => lo <= ref_addr x) (call_loops st') /\ same_outside (from lo) (ks_rom st) (ks_rom st').
Proof.
  intros Hlo. induction l as [|i l IH]; intros st st' HG HP Hq HF H; cbn [ofold] in H.
  - injection H as <-. split; [exact HP|]. split; [lia|]. split; [exact HF|apply same_outside_refl].
  - inv_bind H. destruct (track_from _ _ _ _ _ _ _ _ _ lo HG Hlo HP Hq HF Ha) as (A1 & A2 & A3 & A4). rewrite <- (same_size _ _ _ A4) in HG.
    destruct (IH a st' HG A1 ltac:(lia) A3 H) as (B1 & B2 & B3 & B4). split; [exact B1|]. split; [lia|]. split; [exact B3|eapply same_outside_trans; eassumption].
Qed.

Lemma song_from b verbose base ovf st lp s st' fa : good_blocks base ovf (size (ws_rom st)) -> 0 <= tb_aram ovf -> 24 <= tb_len ovf -> 0xd000 <= fa ->
  somewhere base ovf (rom_addr st) (chunk_length st) (aram_base_addr st) (song_offset st) -> payload base + (fa - 0xd000) <= rom_addr st + song_offset st ->
  payload base <= song_table_addr st -> song_table_addr st + 2 <= payload base + (fa - 0xd000) -> write_song b verbose (blocks_of base ovf) st lp s = Ok st' ->
  somewhere base ovf (rom_addr st') (chunk_length st') (aram_base_addr st') (song_offset st') /\ song_table_addr st' = song_table_addr st + 2 /\
  exists a h, song_place base ovf fa a h /\ rom_addr st + song_offset st <= h /\ h + 20 <= rom_addr st' + song_offset st' /\
    same_outside (fun x => song_table_addr st <= x < song_table_addr st + 2 \/ rom_addr st + song_offset st <= x) (ws_rom st) (ws_rom st') /\
    bytes_hold (ws_rom st') (song_table_addr st) a /\ bytes_hold (ws_rom st') h (a + header_size lp).
Proof.
  intros HG Hov H24 Hfa HP Hq Hta0 Hta H. pose proof HG as (G1 & G2 & G3 & G4 & G5 & G6 & G7). unfold write_song in H. inv_bind H.
  set (m := header_size lp + 16) in *. assert (Hm : 20 <= m <= 24) by (unfold m, header_size; destruct lp; lia).
  assert (K : somewhere base ovf (rom_addr a) (chunk_length a) (aram_base_addr a) (song_offset a + m) /\ rom_addr st + song_offset st <= rom_addr a + song_offset a /\ 0 <= song_offset a /\
    song_table_addr a = song_table_addr st /\ ws_rom a = ws_rom st /\ song_place base ovf fa (aram_base_addr a + song_offset a) (rom_addr a + song_offset a)).
  { unfold reserve_header in Ha. cbn [aram_overflow_base overflow_chunk_addr overflow_chunk_len blocks_of] in Ha. change (if lp then 8 else 4) with (header_size lp) in Ha.
    replace (song_offset st + header_size lp + 16) with (song_offset st + m) in Ha by (unfold m; lia). unfold song_place.
    destruct HP as [(P1 & P2 & P3 & P4)|(P1 & P2 & P3 & P4)]; (destruct (Z.ltb_spec (chunk_length st) (song_offset st + m)) as [Hlt|Hle]).
    - destruct (Z.eqb_spec (aram_base_addr st) (tb_aram ovf)) as [|Hne]; [discriminate|]. inv_bind Ha. injection Ha as <-. cbn [rom_addr chunk_length aram_base_addr song_offset song_table_addr ws_rom].
      split; [right; unfold in_ovf; lia|]. split; [unfold payload, payload_end in *; lia|]. split; [lia|]. split; [reflexivity|]. split; [reflexivity|]. right. lia.
    - injection Ha as <-. split; [left; unfold in_base; lia|]. split; [lia|]. split; [lia|]. split; [reflexivity|]. split; [reflexivity|]. left. lia.
    - rewrite P3, Z.eqb_refl in Ha. discriminate.
    - injection Ha as <-. split; [right; unfold in_ovf; lia|]. split; [lia|]. split; [lia|]. split; [reflexivity|]. split; [reflexivity|]. right. lia. }
  destruct K as (K1 & K2 & K3 & K4 & K5 & K6). cbv zeta in H. change (if lp then 8 else 4) with (header_size lp) in H. inv_bind H.
  assert (Hp0 : 0 <= payload base) by (unfold payload in *; lia).
  assert (Hab : 0 <= aram_base_addr a + song_offset a) by (unfold song_place in K6; lia).
  rewrite K5, K4 in Ha0. assert (Ht1 : 0 <= song_table_addr st) by lia. assert (Ht2 : song_table_addr st + 2 <= rom_addr a + song_offset a) by lia.
  destruct (header_ok _ _ _ _ _ _ _ Ht1 Ht2 Hab Ha0) as (Hs1 & Hb1 & Hb2 & _).
  set (h := rom_addr a + song_offset a) in *. inv_bind H.
  assert (HG1 : good_blocks base ovf (size a0)) by (rewrite (same_size _ _ _ Hs1); exact HG).
  assert (Hlo : 0 <= h + header_size lp) by (unfold header_size, song_place in *; destruct lp; lia).
  assert (K1' : somewhere base ovf (rom_addr a) (chunk_length a) (aram_base_addr a) (song_offset a + header_size lp + 16)) by (replace (song_offset a + header_size lp + 16) with (song_offset a + m) by (unfold m; lia); exact K1).
  assert (Hlo1 : h + header_size lp <= rom_addr a + (song_offset a + header_size lp + 16)) by (unfold h; lia).
  destruct (tracks_from b verbose base ovf s (song_offset a) (h + header_size lp) _ Hlo {| ks_rom := a0; track_data_offset := song_offset a + header_size lp + 16; ks_rom_addr := rom_addr a; ks_chunk_length := chunk_length a; ks_aram_base := aram_base_addr a; track_addrs := []; call_loops := [] |} _ HG1 K1' Hlo1 (Forall_nil _) Ha1) as (T1 & T2 & T3 & T4).
  cbn [ks_rom ks_rom_addr track_data_offset] in T2, T4. inv_bind H. inv_bind H. inv_bind H. inv_bind H. injection H as <-.
  cbn [rom_addr chunk_length aram_base_addr song_offset song_table_addr ws_rom]. split; [exact T1|]. split; [rewrite K4; reflexivity|].
  assert (Hh : 4 <= header_size lp) by (unfold header_size; destruct lp; lia).
  replace (rom_addr a + (song_offset a + header_size lp)) with (h + header_size lp) in * by (unfold h; lia).
  assert (HT : same_outside (from (h + header_size lp)) a0 a5).
  { eapply same_outside_trans; [exact T4|]. eapply same_outside_trans; [eapply zero_from; [| |exact Ha2]; lia|].
    eapply same_outside_trans; [eapply part_from; [| |exact Ha4]; lia|]. eapply patch_from; [| exact T3|exact Ha5]; lia. }
  exists (aram_base_addr a + song_offset a), h. split; [exact K6|]. split; [exact K2|]. split; [unfold h; lia|]. split; [|split].
  - eapply same_outside_trans; [eapply same_outside_weaken; [|exact Hs1]|eapply same_outside_weaken; [|exact HT]]; cbv beta; unfold from; intros x _ Hx; lia.
  - eapply bytes_hold_same; [exact HT|lia| | |exact Hb1]; unfold from; lia.
  - eapply bytes_hold_same; [exact HT|lia| | |exact Hb2]; unfold from; lia.
Qed.
Lemma songs_from b verbose base ovf conv fa : 0 <= tb_aram ovf -> 24 <= tb_len ovf -> 0xd000 <= fa -> forall sds st st', good_blocks base ovf (size (ws_rom st)) ->
  somewhere base ovf (rom_addr st) (chunk_length st) (aram_base_addr st) (song_offset st) -> payload base + (fa - 0xd000) <= rom_addr st + song_offset st ->
  payload base <= song_table_addr st -> song_table_addr st + 2 * Z.of_nat (length sds) <= payload base + (fa - 0xd000) ->
  ofold (write_song_def b verbose (blocks_of base ovf) conv) sds st = Ok st' ->
  song_table_addr st' = song_table_addr st + 2 * Z.of_nat (length sds) /\
  same_outside (fun x => song_table_addr st <= x < song_table_addr st + 2 * Z.of_nat (length sds) \/ rom_addr st + song_offset st <= x) (ws_rom st) (ws_rom st') /\
  forall k sd, nth_error sds k = Some sd -> exists a h, song_place base ovf fa a h /\ bytes_hold (ws_rom st') (song_table_addr st + 2 * Z.of_nat k) a /\
    rom_addr st + song_offset st <= h /\ bytes_hold (ws_rom st') h (a + header_size (loops sd)).
Proof.
  intros Hov H24 Hfa. induction sds as [|sd sds IH]; intros st st' HG HP Hq Hta0 Hta H; cbn [ofold] in H.
  - injection H as <-. cbn [length]. split; [lia|]. split; [apply same_outside_refl|]. intros k sd Hk. destruct k; discriminate.
  - inv_bind H. cbn [length] in Hta. unfold write_song_def in Ha. inv_bind Ha. inv_bind Ha.
    destruct (song_from _ _ _ _ _ _ _ _ fa HG Hov H24 Hfa HP Hq Hta0 ltac:(lia) Ha) as (A1 & A2 & a2 & h & A3 & A4 & A5 & A6 & A7 & A8).
    rewrite <- (same_size _ _ _ A6) in HG. destruct (IH a st' HG A1 ltac:(lia) ltac:(lia) ltac:(lia) H) as (B1 & B2 & B3).
    pose proof HG as (G1 & G2 & _). cbn [length]. split; [lia|]. split.
    + eapply same_outside_trans; [eapply same_outside_weaken; [|exact A6]|eapply same_outside_weaken; [|exact B2]]; cbv beta; intros x _ Hx; lia.
    + intros [|k] sd' Hk.
      * injection Hk as <-. exists a2, h. split; [exact A3|]. split; [|split; [lia|]].
        -- replace (song_table_addr st + 2 * Z.of_nat 0) with (song_table_addr st) by lia. eapply bytes_hold_same; [exact B2| | | |exact A7]; cbv beta; unfold payload in *; lia.
        -- eapply bytes_hold_same; [exact B2| | | |exact A8]; cbv beta; unfold payload in *; lia.
      * destruct (B3 k sd' Hk) as (a' & h' & C1 & C2 & C3 & C4). exists a', h'. split; [exact C1|]. split; [|split; [lia|exact C4]].
        replace (song_table_addr st + 2 * Z.of_nat (S k)) with (song_table_addr a + 2 * Z.of_nat k) by lia. exact C2.
Qed.
Lemma hold_word r a w : 0 <= w < 65536 -> bytes_hold r a w -> word r a = w.
Proof. intros H [H1 H2]. unfold word. rewrite H1, H2. Z.div_mod_to_equations. lia. Qed.
Lemma bank_table b verbose bk r L fa first conv r' : is_image r -> layout_ok r L -> 0xd000 <= fa -> fa - 0xd000 <= tb_len (lo_base L) ->
  2 * Z.of_nat (first + length (songs bk)) <= fa - 0xd000 -> write_bank b verbose bk r (lo_addr L) fa first conv = Ok r' ->
  same_outside (fun x => payload (lo_base L) + 2 * Z.of_nat first <= x) r r' /\
  (forall k sd, nth_error (songs bk) k = Some sd -> exists a h, song_place (lo_base L) (lo_ovf L) fa a h /\
     word r' (payload (lo_base L) + 2 * Z.of_nat (first + k)) = a /\ word r' h = a + header_size (loops sd)) /\
  (forall x, payload (lo_base L) + 2 * Z.of_nat (first + length (songs bk)) <= x < payload (lo_base L) + (fa - 0xd000) -> byte r' x = 0).
Proof.
  intros Hr HL Hfa Hb Hroom H. destruct (layout_fits r L Hr HL) as [HG HA]. pose proof (layout_pointers r L HL) as Hp.
  pose proof HL as [A1 A2 A3 A4 A5 A6]. pose proof (find_blocks_found b _ _ _ _ _ _ Hr Hp A3) as Hf.
  pose proof HG as (G1 & G2 & G3 & G4 & G5 & G6 & G7). unfold write_bank in H. rewrite Hf in H. cbn [bind] in H. inv_bind H.
  set (base := lo_base L) in *. set (ovf := lo_ovf L) in *.
  assert (Hta : song_table_addr (wstate_init r (blocks_of base ovf) fa first) = payload base + 2 * Z.of_nat first) by (unfold wstate_init; cbn [song_table_addr blocks_of base_chunk_addr]; lia).
  assert (Hpos : rom_addr (wstate_init r (blocks_of base ovf) fa first) + song_offset (wstate_init r (blocks_of base ovf) fa first) = payload base + (fa - 0xd000)).
  { unfold wstate_init. cbn [rom_addr song_offset blocks_of base_chunk_addr]. unfold ARAM_BASE. lia. }
  assert (HP : somewhere base ovf (rom_addr (wstate_init r (blocks_of base ovf) fa first)) (chunk_length (wstate_init r (blocks_of base ovf) fa first))
    (aram_base_addr (wstate_init r (blocks_of base ovf) fa first)) (song_offset (wstate_init r (blocks_of base ovf) fa first))).
  { left. unfold in_base, wstate_init. cbn [rom_addr song_offset chunk_length aram_base_addr blocks_of base_chunk_addr base_chunk_len]. unfold ARAM_BASE. lia. }
  destruct (songs_from b verbose base ovf conv fa (proj1 HA) A6 Hfa (songs bk) (wstate_init r (blocks_of base ovf) fa first) a HG HP ltac:(lia) ltac:(lia) ltac:(lia) Ha) as (B1 & B2 & B3).
  rewrite Hta, ?Hpos in *. change (ws_rom (wstate_init r (blocks_of base ovf) fa first)) with r in B2.
  unfold clear_table in H. cbn [blocks_of base_chunk_addr] in H. unfold ARAM_BASE in H. rewrite B1 in H.
  set (n := Z.to_nat (payload base + fa - 53248 - (payload base + 2 * Z.of_nat first + 2 * Z.of_nat (length (songs bk))))) in *.
  assert (Hp0 : 0 <= payload base) by (unfold payload in *; lia).
  destruct (wr_all_ok (zero_range (payload base + 2 * Z.of_nat first + 2 * Z.of_nat (length (songs bk))) n) (ws_rom a) r') as (_ & HLn & Hby).
  { apply Forall_forall. intros x Hx. unfold zero_range in Hx. apply in_map_iff in Hx. destruct Hx as (i & <- & Hi). cbn [fst]. lia. }
  { exact H. }
  assert (Hout : forall x, 0 <= x -> x < payload base + 2 * Z.of_nat (first + length (songs bk)) \/ payload base + (fa - 53248) <= x -> byte r' x = byte (ws_rom a) x).
  { intros x Hx Hx'. rewrite Hby by exact Hx. rewrite zero_range_spec. destruct (_ && _) eqn:E; [|reflexivity]. unfold n in E. lia. }
  split; [|split].
  - split; [rewrite HLn; apply B2|]. intros x Hx Hx'. rewrite Hout by lia. apply B2; [exact Hx|]. lia.
  - intros k sd Hk. destruct (B3 k sd Hk) as (w & h & C1 & C2 & C3 & C4). assert (Hkl : (k < length (songs bk))%nat) by (apply nth_error_Some; congruence). exists w, h.
    replace (payload base + 2 * Z.of_nat first + 2 * Z.of_nat k) with (payload base + 2 * Z.of_nat (first + k)) in C2 by lia.
    assert (Hhs : 4 <= header_size (loops sd) <= 8) by (unfold header_size; destruct (loops sd); lia).
    split; [exact C1|]. unfold bytes_hold in C2, C4. split.
    + apply hold_word; [unfold song_place in C1; destruct HA; fold base ovf in A5; lia|]. unfold bytes_hold. rewrite !Hout by lia. exact C2.
    + apply hold_word; [unfold song_place in C1; destruct HA; fold base ovf in A5; lia|]. unfold bytes_hold. rewrite !Hout by (unfold payload in *; lia). exact C4.
  - intros x Hx. rewrite Hby by lia. rewrite zero_range_spec. destruct (_ && _) eqn:E; [reflexivity|]. unfold n in E. lia.
Qed.
Lemma bank_table_full b verbose bk r L fa first conv r' : is_image r -> layout_ok r L -> 0xd000 <= fa -> fa - 0xd000 <= tb_len (lo_base L) ->
  2 * Z.of_nat (first + length (songs bk)) <= fa - 0xd000 -> write_bank b verbose bk r (lo_addr L) fa first conv = Ok r' ->
  (forall k sd, nth_error (songs bk) k = Some sd -> exists a h, song_place (lo_base L) (lo_ovf L) fa a h /\
     word r' (payload (lo_base L) + 2 * Z.of_nat (first + k)) = a /\ word r' h = a + (if loops sd then 8 else 4)) /\
  (forall x, payload (lo_base L) + 2 * Z.of_nat (first + length (songs bk)) <= x < payload (lo_base L) + (fa - 0xd000) -> byte r' x = 0).
Proof. intros Hr HL Hfa Hb Hroom H. exact (proj2 (bank_table b verbose bk r L fa first conv r' Hr HL Hfa Hb Hroom H)). Qed.
Lemma bank_before b verbose bk r L fa first conv r' : is_image r -> layout_ok r L -> 0xd000 <= fa -> fa - 0xd000 <= tb_len (lo_base L) ->
  2 * Z.of_nat (first + length (songs bk)) <= fa - 0xd000 -> write_bank b verbose bk r (lo_addr L) fa first conv = Ok r' ->
  size r' = size r /\ forall x, 0 <= x < payload (lo_base L) + 2 * Z.of_nat first -> byte r' x = byte r x.
Proof.
  intros Hr HL Hfa Hb Hroom H. destruct (bank_table b verbose bk r L fa first conv r' Hr HL Hfa Hb Hroom H) as [H1 _]. split; [exact (same_size _ _ _ H1)|].
  intros x Hx. apply H1; [apply Hx|]. lia.
Qed.

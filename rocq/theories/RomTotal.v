(** RomTotal.v: writing succeeds exactly when the songs fit (C34). *)
From Coq Require Import ZArith List Bool Lia ZifyBool ZifyNat Sorted.
From Verif Require Import SpecPath PathProofs.
From Verif Require Import Base F32 Command Track Song Paths Manifest Rom SpecNspc SpecRom SpecBank ProofLib CodecProofs RomLib RomProofs RomBank RomChain RomBanks.
Ltac Zify.zify_post_hook ::= Z.div_mod_to_equations.
Open Scope Z_scope.

Lemma wr_all_total l : forall r, Forall (fun av => 0 <= fst av < size r) l -> exists r', wr_all r l = Ok r'.
Proof.
  unfold wr_all. induction l as [|[a v] l IH]; intros r HF; cbn [ofold]; [eauto|]. apply Forall_cons_iff in HF. cbn [fst snd] in *. destruct HF as [Ha HF].
  destruct (wr_total r a v) as [r1 E1]; [lia|lia|]. rewrite E1. cbn [bind]. apply IH. destruct (wr_ok r a v r1 ltac:(lia) E1) as (_ & HL & _).
  unfold size in *. rewrite HL. exact HF.
Qed.
Lemma zero_total r a n : 0 <= a -> a + Z.of_nat n <= size r -> exists r', wr_all r (zero_range a n) = Ok r'.
Proof.
  intros H1 H2. apply wr_all_total. apply Forall_forall. intros x Hx. unfold zero_range in Hx. apply in_map_iff in Hx. destruct Hx as (i & <- & Hi).
  apply in_seq in Hi. cbn. lia.
Qed.
Lemma verbose_total b verbose x y : 0 <= x - y < 2 ^ 64 -> exists u, verbose_sub b verbose x y = Ok u.
Proof. intros H. unfold verbose_sub. destruct verbose; [|eauto]. rewrite arith_exact by lia. cbn. eauto. Qed.

Lemma reserve_total b verbose base ovf n lp st p : good_blocks base ovf n -> tb_len base < 2 ^ 64 -> wcursor base ovf p st ->
  place base ovf p (header_size lp + 16) + (header_size lp + 16) <= payload_end ovf ->
  exists st', reserve_header b verbose (blocks_of base ovf) lp st = Ok st'.
Proof.
  intros (G1 & G2 & G3 & G4 & G5 & G6 & G7) Hl Hw He. unfold reserve_header. cbn [aram_overflow_base blocks_of].
  change (if lp then 8 else 4) with (header_size lp). set (m := header_size lp + 16) in *. assert (Hm : 20 <= m <= 24) by (unfold m, header_size; destruct lp; lia).
  replace (song_offset st + header_size lp + 16) with (song_offset st + m) by (unfold m; lia).
  unfold wcursor in Hw. inversion Hw as [p' Hp E0 E1 E2 E3 E4|p' Hp E0 E1 E2 E3 E4]; subst p'.
  - destruct (Z.ltb_spec (tb_len base) (p - payload base + m)) as [Hlt|Hle]; [|eauto].
    rewrite G6. destruct (Z.eqb_spec 53248 (tb_aram ovf)); [congruence|].
    destruct (verbose_total b verbose (tb_len base) (p - payload base)) as [u ->]; [unfold payload, payload_end in *; lia|]. cbn [bind]. eauto.
  - destruct (Z.ltb_spec (tb_len ovf) (p - payload ovf + m)) as [Hlt|Hle]; [|eauto]. exfalso.
    rewrite (place_ovf base ovf p m) in He by (unfold payload, payload_end in *; lia). unfold payload, payload_end in *. lia.
Qed.

Lemma track_total b verbose base ovf n s o st i p data refs :
  good_blocks base ovf n -> tb_len base < 2 ^ 64 -> kcursor base ovf p st -> size (ks_rom st) = n -> 0 <= o -> (p <= payload_end base -> o <= tb_len base) ->
  write_track s [] i [] = Ok (data, refs) ->
  place base ovf p (Z.of_nat (length data)) + Z.of_nat (length data) <= payload_end ovf ->
  exists st', write_one_track b verbose (blocks_of base ovf) o s st i = Ok st'.
Proof.
  intros (G1 & G2 & G3 & G4 & G5 & G6 & G7) Hl Hk Hn Ho0 Ho Hw He. unfold write_one_track. cbn zeta. rewrite Hw. cbn [bind]. cbn zeta.
  set (len := Z.of_nat (length data)) in *. unfold kcursor in Hk.
  assert (Hsp : forall q, 0 <= q -> q + len <= n -> exists r, splice (ks_rom st) q data = Ok r) by (intros q Hq1 Hq2; apply splice_total; [exact Hq1|rewrite Hn; exact Hq2]).
  inversion Hk as [p' Hp E0 E1 E2 E3 E4|p' Hp E0 E1 E2 E3 E4]; subst p'; cbn [aram_overflow_base blocks_of].
  - destruct (Z.ltb_spec (tb_len base) (p - payload base + len)) as [Hlt|Hle].
    + rewrite G6. destruct (Z.eqb_spec 53248 (tb_aram ovf)); [congruence|].
      destruct (verbose_total b verbose (tb_len base) o) as [u ->]; [specialize (Ho ltac:(unfold payload, payload_end in *; lia)); unfold payload, payload_end in *; lia|].
      cbn [bind ks_rom ks_rom_addr track_data_offset overflow_chunk_addr overflow_chunk_len blocks_of]. destruct (0 <? len); [|eauto].
      rewrite (place_switch base ovf p len) in He by (unfold payload, payload_end in *; lia).
      destruct (Hsp (payload ovf + 0)) as [r E]; [unfold payload, payload_end in *; lia|unfold payload, payload_end in *; lia|]. rewrite E. cbn [bind]. eauto.
    + cbn [bind]. destruct (0 <? len); [|eauto]. rewrite <- E1, <- E4.
      destruct (Hsp (payload base + (p - payload base))) as [r E]; [unfold payload, payload_end in *; lia|unfold payload, payload_end in *; lia|]. rewrite E. cbn [bind]. eauto.
  - rewrite (place_ovf base ovf p len) in He by (unfold payload, payload_end in *; lia).
    destruct (Z.ltb_spec (tb_len ovf) (p - payload ovf + len)) as [Hlt|Hle]; [unfold payload, payload_end in *; lia|].
    cbn [bind]. destruct (0 <? len); [|eauto]. rewrite <- E1, <- E4.
    destruct (Hsp (payload ovf + (p - payload ovf))) as [r E]; [unfold payload, payload_end in *; lia|unfold payload, payload_end in *; lia|]. rewrite E. cbn [bind]. eauto.
Qed.

Lemma tracks_total b verbose base ovf n s o l : forall i st p,
  good_blocks base ovf n -> tb_len base < 2 ^ 64 -> kcursor base ovf p st -> size (ks_rom st) = n -> 0 <= o -> (p <= payload_end base -> o <= tb_len base) ->
  (forall k d, nth_error l k = Some d -> write_track s [] (i + k) [] = Ok d) ->
  tracks_stay base ovf p l -> tracks_end base ovf p l <= payload_end ovf ->
  exists st', ofold (write_one_track b verbose (blocks_of base ovf) o s) (seq i (length l)) st = Ok st'.
Proof.
  induction l as [|[data refs] l IH]; intros i st p HG Hl Hk Hn Ho0 Ho Hw Hstay He; cbn [length seq ofold]; [eauto|].
  cbn [tracks_stay tracks_end] in *. destruct Hstay as [Hs1 Hstay]. pose proof (Hw O _ eq_refl) as Hw0. rewrite Nat.add_0_r in Hw0.
  change (data_len (data, refs)) with (Z.of_nat (length data)) in *. set (q := place base ovf p (Z.of_nat (length data))) in *.
  pose proof HG as (_ & _ & G3 & _). pose proof (tracks_end_ge base ovf l G3 (q + Z.of_nat (length data))) as Hge.
  destruct (track_total b verbose base ovf n s o st i p data refs HG Hl Hk Hn Ho0 Ho Hw0) as [st1 E]; [fold q; lia|].
  cbn [fst snd] in Hs1.
  destruct (one_track b verbose base ovf n s o st i st1 p data refs HG Hk Hn Hw0 Hs1 E) as (H1 & H2 & H3 & H4 & _). fold q in H1, H3, H4.
  rewrite E. cbn [bind]. apply (IH (S i) st1 (q + Z.of_nat (length data))); auto.
  - rewrite (same_size _ _ _ H4). exact Hn.
  - intros Hq. apply Ho. lia.
  - intros k d Hd. replace (S i + k)%nat with (i + S k)%nat by lia. apply Hw. exact Hd.
Qed.

Lemma header_total r ra off ab ta lp : 0 <= ta -> ta + 2 <= size r -> 0 <= ra + off -> ra + off + header_size lp <= size r ->
  exists r', write_song_header r ra off ab ta lp = Ok r'.
Proof.
  intros H0 H1 H2 H3. unfold write_song_header. destruct (addr_to_bytes (ab + off)) as [sh sl]. destruct (addr_to_bytes _) as [ph pl].
  assert (Hsz : forall l r0 r1, Forall (fun av => 0 <= fst av) l -> wr_all r0 l = Ok r1 -> size r1 = size r0).
  { intros l r0 r1 HF E. destruct (wr_all_ok _ _ _ HF E) as (_ & HL & _). unfold size. congruence. }
  assert (Hh : 4 <= header_size lp) by (unfold header_size; destruct lp; lia).
  destruct (wr_all_total [(ta + 1, sh); (ta, sl)] r) as [r1 E1]; [repeat constructor; cbn; lia|].
  rewrite E1. cbn [bind]. apply Hsz in E1; [|repeat constructor; cbn; lia].
  destruct (wr_all_total [(ra + off + 1, ph); (ra + off, pl)] r1) as [r2 E2]; [repeat constructor; cbn; lia|].
  rewrite E2. cbn [bind]. apply Hsz in E2; [|repeat constructor; cbn; lia].
  destruct lp; cbn [header_size] in *; apply wr_all_total; repeat constructor; cbn; lia.
Qed.
Lemma part_total addrs part : Forall (fun ti => (ti < length addrs)%nat) part -> forall r a, 0 <= a -> a + 2 * Z.of_nat (length part) <= size r ->
  exists r', write_part r a addrs part = Ok r'.
Proof.
  intros HF. induction HF as [|ti part Hti _ IH]; intros r a Ha Hs; cbn [write_part]; [eauto|]. cbn [length] in Hs.
  destruct (nth_error addrs ti) as [ta|] eqn:E; [|apply nth_error_None in E; lia]. cbn [or_panic bind]. destruct (addr_to_bytes ta) as [h l].
  destruct (wr_all_total [(a + 1, h); (a, l)] r) as [r1 E1]; [repeat constructor; cbn; lia|]. rewrite E1. cbn [bind]. apply IH; [lia|].
  destruct (wr_all_ok [(a + 1, h); (a, l)] r r1 ltac:(repeat constructor; cbn; lia) E1) as (_ & HL & _). unfold size in *. rewrite HL. lia.
Qed.
Lemma patch_total addrs refs : Forall (fun x => (rr_target x < length addrs)%nat) refs -> forall r, Forall (fun x => 0 <= ref_addr x /\ ref_addr x + 2 <= size r) refs ->
  exists r', ofold (patch_loop addrs) refs r = Ok r'.
Proof.
  intros HF. induction HF as [|x refs Hx _ IH]; intros r HA; cbn [ofold]; [eauto|]. apply Forall_cons_iff in HA. destruct HA as [Hr HA].
  unfold patch_loop at 1. cbv zeta. destruct (nth_error addrs (rr_target x)) as [ta|] eqn:E; [|apply nth_error_None in E; lia]. cbn [or_panic bind]. destruct (addr_to_bytes ta) as [h l].
  change (rr_chunk_base x + Z.of_nat (rr_ref_pos x)) with (ref_addr x).
  destruct (wr_all_total [(ref_addr x + 1, h); (ref_addr x, l)] r) as [r1 E1]; [repeat constructor; cbn; lia|]. rewrite E1. cbn [bind]. apply IH.
  destruct (wr_all_ok [(ref_addr x + 1, h); (ref_addr x, l)] r r1 ltac:(repeat constructor; cbn; lia) E1) as (_ & HL & _). unfold size in *. rewrite HL. exact HA.
Qed.

Lemma song_total b verbose base ovf n st lp s p l :
  good_blocks base ovf n -> tb_len base < 2 ^ 64 -> wcursor base ovf p st -> size (ws_rom st) = n ->
  24 <= tb_len ovf -> encodes s l ->
  (forall part, nth_error (parts s) 0 = Some part -> (length part <= 8)%nat) -> song_closed s l ->
  song_stays base ovf p lp l -> 0 <= song_table_addr st -> song_table_addr st + 2 <= p ->
  song_end base ovf p lp l <= payload_end ovf ->
  exists st', write_song b verbose (blocks_of base ovf) st lp s = Ok st'.
Proof.
  intros HG Hl Hw Hn H24 [HeL He] Hpart ((part & Hpt & Hcl) & Hrl) Hstay Hta0 Hta Hend.
  unfold write_song. set (m := header_size lp + 16) in *. assert (Hm : 20 <= m <= 24) by (unfold m, header_size; destruct lp; lia).
  destruct (HG) as (G1 & G2 & G3 & G4 & G5 & G6 & G7).
  unfold song_end, song_stays in *. fold m in Hend, Hstay.
  pose proof (tracks_end_ge base ovf l G3 (place base ovf p m + m)) as Hge.
  destruct (reserve_total b verbose base ovf n lp st p HG Hl Hw) as [st1 Ha]; [fold m; lia|]. rewrite Ha. cbn [bind].
  destruct (reserve_ok _ _ _ _ n _ _ _ _ HG Hw H24 Ha) as (R1 & R2 & R3 & R4 & R5 & R6 & R7 & R8). fold m in R1, R2, R5, R6, R7, R8.
  set (h := place base ovf p m) in *. cbv zeta. change (if lp then 8 else 4) with (header_size lp). rewrite R4, R3.
  assert (Hp0 : 0 <= p) by (unfold wcursor in Hw; inversion Hw; unfold payload, payload_end in *; lia).
  assert (Hhs : header_size lp = 4 \/ header_size lp = 8) by (unfold header_size; destruct lp; auto).
  assert (Hhn : h + m <= n) by lia.
  destruct (header_total (ws_rom st) (rom_addr st1) (song_offset st1) (aram_base_addr st1) (song_table_addr st) lp) as [r1 Ea]; [lia|lia|lia|unfold m in *; lia|].
  rewrite Ea. cbn [bind].
  assert (Hsz1 : size r1 = n).
  { rewrite <- Hn. unfold write_song_header in Ea. destruct (addr_to_bytes (aram_base_addr st1 + song_offset st1)) as [sh sl]. destruct (addr_to_bytes _) as [ph pl]. inv_bind Ea. inv_bind Ea.
    apply wr_all_ok in Ha0; [|repeat constructor; cbn; lia]. apply wr_all_ok in Ha1; [|repeat constructor; cbn; lia].
    destruct Ha0 as (_ & L0 & _). destruct Ha1 as (_ & L1 & _). destruct lp; (apply wr_all_ok in Ea; [|repeat constructor; cbn; lia]); destruct Ea as (_ & L2 & _); unfold size; congruence. }
  assert (Hlen : get_num_tracks s = length l) by (unfold get_num_tracks; symmetry; exact HeL). rewrite Hlen.
  set (ks0 := mk_kstate r1 (song_offset st1 + header_size lp + 16) (rom_addr st1) (chunk_length st1) (aram_base_addr st1) [] []) in *.
  assert (Hk0 : kcursor base ovf (h + m) ks0).
  { unfold kcursor, ks0. cbn. replace (song_offset st1 + header_size lp + 16) with (song_offset st1 + m) by (unfold m; lia). exact R6. }
  assert (Henc : forall k d, nth_error l k = Some d -> write_track s [] (0 + k) [] = Ok d).
  { intros k d Hd. apply He. exact Hd. }
  assert (Ho : 0 <= song_offset st1 /\ (h + m <= payload_end base -> song_offset st1 <= tb_len base)).
  { unfold wcursor in R2. inversion R2; unfold payload, payload_end in *; split; intros; lia. }
  destruct (tracks_total b verbose base ovf n s (song_offset st1) l O ks0 (h + m) HG Hl Hk0 Hsz1 (proj1 Ho) (proj2 Ho) Henc Hstay Hend) as [ks Ek].
  rewrite Ek. cbn [bind].
  destruct (all_tracks b verbose base ovf n s (song_offset st1) l O ks0 ks (h + m) HG Hk0 Hsz1 Henc Hstay Ek) as (T1 & T2 & T3 & T4 & T5 & T6 & T7).
  cbn [ks_rom ks0 track_addrs call_loops app] in T3, T6, T7. set (qs := places base ovf (h + m) l) in *.
  assert (Hszk : size (ks_rom ks) = n) by (rewrite (same_size _ _ _ T3); exact Hsz1).
  replace (rom_addr st1 + (song_offset st1 + header_size lp)) with (h + header_size lp) by lia.
  destruct (zero_total (ks_rom ks) (h + header_size lp) 16) as [r2 E2]; [lia|unfold m in *; lia|]. rewrite E2. cbn [bind].
  assert (Hsz2 : size r2 = n).
  { assert (HZ : Forall (fun av => 0 <= fst av) (zero_range (h + header_size lp) 16)).
    { apply Forall_forall. intros x Hx. unfold zero_range in Hx. apply in_map_iff in Hx. destruct Hx as (i & <- & _). cbn. lia. }
    destruct (wr_all_ok _ _ _ HZ E2) as (_ & L & _). unfold size in *. congruence. }
  unfold get_part_tracks. rewrite Hpt. cbn [or_panic bind]. specialize (Hpart part Hpt).
  assert (Hat : length (track_addrs ks) = length (tracks s)).
  { rewrite T6, addrs_length; [exact HeL|apply places_length]. }
  destruct (part_total (track_addrs ks) part) with (r := r2) (a := h + header_size lp) as [r3 E3]; [rewrite Hat; exact Hcl|lia|unfold m in *; lia|].
  rewrite E3. cbn [bind].
  assert (Hsz3 : size r3 = n).
  { rewrite <- Hsz2. clear -E3 R1 Hp0 Hhs. assert (H0 : 0 <= h + header_size lp) by lia. revert E3 H0. generalize (h + header_size lp) r2.
    induction part as [|ti part IH]; intros a r E3 H0; cbn [write_part] in E3; [injection E3 as <-; reflexivity|]. inv_bind E3. destruct (addr_to_bytes a0). inv_bind E3.
    rewrite (IH _ _ E3) by lia. apply wr_all_ok in Ha0; [|repeat constructor; cbn; lia]. destruct Ha0 as (_ & L & _). unfold size. congruence. }
  assert (HR : Forall refs_ok l) by (apply (encodes_refs s); split; assumption).
  destruct (patch_total (track_addrs ks) (call_loops ks)) with (r := r3) as [r4 E4].
  - rewrite T7, Hat. apply Forall_forall. intros x Hx. destruct (loops_at_in l qs x Hx) as (k & q & d & z & K1 & K2 & K3 & ->). cbn [rr_target].
    rewrite Forall_forall in Hrl. specialize (Hrl d (nth_error_In _ _ K2)). rewrite Forall_forall in Hrl. apply Hrl. exact K3.
  - rewrite T7. apply Forall_forall. intros x Hx. destruct (loops_at_in l qs x Hx) as (k & q & d & z & K1 & K2 & K3 & ->). unfold ref_addr. cbn.
    destruct (T4 k q d K1 K2) as (K4 & K5 & K6). rewrite Forall_forall in HR. destruct (HR d (nth_error_In _ _ K2)) as [K7 _]. rewrite Forall_forall in K7. specialize (K7 z K3). unfold data_len in *.
    rewrite Hsz3. lia.
  - rewrite E4. cbn [bind]. eauto.
Qed.

Lemma songs_total b verbose base ovf n conv : good_blocks base ovf n -> tb_len base < 2 ^ 64 -> 0 <= tb_aram ovf -> 24 <= tb_len ovf ->
  forall sds ss ls, loaded b conv sds ss ls -> closed_all sds ss ls -> forall st p,
  wcursor base ovf p st -> size (ws_rom st) = n -> songs_stay base ovf p ls ->
  0 <= song_table_addr st -> song_table_addr st + 2 * Z.of_nat (length sds) <= p -> songs_end base ovf p ls <= payload_end ovf ->
  exists st', ofold (write_song_def b verbose (blocks_of base ovf) conv) sds st = Ok st'.
Proof.
  intros HG Hl Hov H24 sds ss ls HL. pose proof HG as (_ & _ & G3 & _).
  induction HL as [|sd s l sds ss ls Hld (Henc & Hpart & HB) HLd IH]; intros HC st p Hw Hn Hstay Ht0 Ht Hend; cbn [ofold]; [eauto|].
  inversion HC as [|? ? ? ? ? ? ? Hfn Hcl HC']; subst. cbn [songs_stay songs_end length] in *. destruct Hstay as [Hst1 Hstay].
  pose proof (songs_end_ge base ovf ls G3 (song_end base ovf p (loops sd) l)) as Hge.
  destruct (song_total b verbose base ovf (size (ws_rom st)) st (loops sd) s p l HG Hl Hw eq_refl H24 Henc Hpart Hcl Hst1 Ht0 ltac:(lia) ltac:(lia)) as [st1 E].
  assert (E' : write_song_def b verbose (blocks_of base ovf) conv st sd = Ok st1).
  { unfold write_song_def, check_file_name, load_song. destruct (input sd) as [f|].
    - specialize (Hfn f eq_refl). apply has_name_iff in Hfn. destruct (file_name f); [|congruence]. cbn [or_panic bind]. rewrite Hld. cbn [bind]. exact E.
    - cbn [bind]. rewrite Hld. cbn [bind]. exact E. }
  rewrite E'. cbn [bind].
  pose proof (one_song b verbose base ovf (size (ws_rom st)) st (loops sd) s st1 p l HG Hw eq_refl Hov H24 Henc Hpart Hst1 Ht0 ltac:(lia) E) as (W1 & W2 & W3 & W4 & _).
  eapply IH; [exact HC'|exact W2| |exact Hstay| | |exact Hend].
  - rewrite (same_size _ _ _ W4). reflexivity.
  - lia.
  - pose proof (song_end_ge base ovf p (loops sd) l G3) as He1. lia.
Qed.

Lemma bank_total b verbose bk r L fa first conv ss ls : is_image r -> layout_ok r L -> 0xd000 <= fa ->
  bank_fits b conv L fa first (songs bk) ss ls -> closed_all (songs bk) ss ls ->
  (exists r', write_bank b verbose bk r (lo_addr L) fa first conv = Ok r') <->
  songs_end (lo_base L) (lo_ovf L) (payload (lo_base L) + (fa - 0xd000)) ls <= payload_end (lo_ovf L).
Proof.
  intros Hr HL Hfa [F1 F2 F3 F4] HC. destruct (layout_fits r L Hr HL) as [HG HA]. pose proof (layout_pointers r L HL) as Hp.
  pose proof HL as [A1 A2 A3 A4 A5 A6]. pose proof (find_blocks_found b _ _ _ _ _ _ Hr Hp A3) as Hf.
  pose proof HG as (G1 & G2 & G3 & G4 & G5 & G6 & G7).
  unfold write_bank. rewrite Hf. cbn [bind]. set (base := lo_base L) in *. set (ovf := lo_ovf L) in *. set (p := payload base + (fa - 0xd000)) in *.
  set (st0 := wstate_init r (blocks_of base ovf) fa first) in *.
  assert (Hpp : p = payload base + (fa - 53248)) by reflexivity.
  assert (Hw : wcursor base ovf p st0).
  { unfold wcursor, st0, wstate_init. cbn [rom_addr chunk_length aram_base_addr song_offset blocks_of base_chunk_addr base_chunk_len]. unfold ARAM_BASE.
    replace (fa - 53248) with (p - payload base) by lia. clearbody p. rewrite <- G6. apply cursor_base. unfold payload, payload_end in *. lia. }
  assert (Hta : song_table_addr st0 = payload base + 2 * Z.of_nat first).
  { unfold st0, wstate_init. cbn [song_table_addr blocks_of base_chunk_addr]. lia. }
  assert (Hta0 : 0 <= song_table_addr st0) by (rewrite Hta; unfold payload; lia).
  assert (Hta1 : song_table_addr st0 + 2 * Z.of_nat (length (songs bk)) <= p) by (rewrite Hta; lia).
  split.
  - intros (r' & H). inv_bind H. destruct (all_songs b verbose base ovf (size r) conv HG (proj1 HA) A6 _ _ _ F1 st0 a p Hw eq_refl F4 Hta0 Hta1 Ha) as (X1 & _).
    unfold wcursor in X1. inversion X1; unfold payload, payload_end in *; lia.
  - intros Hend. destruct (songs_total b verbose base ovf (size r) conv HG) with (sds := songs bk) (ss := ss) (ls := ls) (st := st0) (p := p) as [st E]; auto.
    { lia. } { apply HA. }
    rewrite E. cbn [bind]. destruct (all_songs b verbose base ovf (size r) conv HG (proj1 HA) A6 _ _ _ F1 st0 st p Hw eq_refl F4 Hta0 Hta1 E) as (X1 & X2 & X3 & _).
    unfold clear_table. apply zero_total; [lia|]. change (ws_rom st0) with r in X3. rewrite (same_size _ _ _ X3). rewrite X2. cbn [blocks_of base_chunk_addr]. unfold ARAM_BASE.
    unfold payload, payload_end in *. lia.
Qed.

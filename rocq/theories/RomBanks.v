(** RomBanks.v: one bank and all banks, as seen from ARAM (C33-C36, C39). *)
From Coq Require Import ZArith List Bool Lia ZifyBool ZifyNat Sorted.
From Verif Require Import Base F32 Command Track Song Paths Manifest Rom SpecNspc SpecRom SpecBank ProofLib CodecProofs RomLib RomProofs RomBank RomChain.
Ltac Zify.zify_post_hook ::= Z.div_mod_to_equations.
Open Scope Z_scope.

(** ** Images stay images *)
Lemma image_wr r a v r' : is_image r -> u8 v -> wr r a v = Ok r' -> is_image r'.
Proof.
  intros Hr Hv H. unfold wr in H. apply or_panic_ok in H. unfold is_image in *. revert r' H. generalize (Z.to_nat a). 
  induction r as [|x r IH]; intros [|k] r' H; cbn [set_nth] in H; try discriminate; apply Forall_cons_iff in Hr; destruct Hr as [H1 H2].
  - injection H as <-. constructor; auto.
  - destruct (set_nth r k v) as [r1|] eqn:E; [|discriminate]. injection H as <-. constructor; [exact H1|]. eapply IH; eauto.
Qed.
Lemma image_wr_all l : forall r r', is_image r -> Forall (fun av => u8 (snd av)) l -> wr_all r l = Ok r' -> is_image r'.
Proof.
  unfold wr_all. induction l as [|[a v] l IH]; intros r r' Hr HF H; cbn [ofold] in H; [injection H as <-; exact Hr|].
  apply Forall_cons_iff in HF. destruct HF as [Hv HF]. inv_bind H. eapply IH; [|exact HF|exact H]. eapply image_wr; [exact Hr| |exact Ha]. exact Hv.
Qed.
Lemma image_splice r a data r' : is_image r -> Forall u8 data -> splice r a data = Ok r' -> is_image r'.
Proof.
  intros Hr Hd H. unfold splice in H. cbv zeta in H. destruct (Nat.leb _ _); [|discriminate]. injection H as <-.
  unfold is_image in *. apply Forall_app. split; [|apply Forall_app; split; [exact Hd|]].
  - rewrite <- (firstn_skipn (Z.to_nat a) r) in Hr. apply Forall_app in Hr. apply Hr.
  - rewrite <- (firstn_skipn (Z.to_nat a + length data) r) in Hr. apply Forall_app in Hr. apply Hr.
Qed.
Lemma u8_mod x : u8 (x mod 256). Proof. unfold u8. lia. Qed.
Lemma u8_land x : u8 (Z.land x 0xff). Proof. rewrite land_byte. apply u8_mod. Qed.
Lemma image_header r a o ab t lp r' : is_image r -> write_song_header r a o ab t lp = Ok r' -> is_image r'.
Proof.
  intros Hr H. unfold write_song_header, addr_to_bytes in H. cbv zeta beta in H. inv_bind H. inv_bind H.
  apply image_wr_all in Ha; [|exact Hr|repeat constructor; cbn [snd]; apply u8_land].
  apply image_wr_all in Ha0; [|exact Ha|repeat constructor; cbn [snd]; apply u8_land].
  destruct lp; (apply image_wr_all in H; [exact H|exact Ha0|]); repeat constructor; cbn [snd]; try apply u8_land; unfold u8; lia.
Qed.
Lemma image_part part : forall r a addrs r', is_image r -> write_part r a addrs part = Ok r' -> is_image r'.
Proof.
  induction part as [|ti part IH]; intros r a addrs r' Hr H; cbn [write_part] in H; [injection H as <-; exact Hr|].
  unfold addr_to_bytes in H. inv_bind H. inv_bind H. eapply IH; [|exact H].
  eapply image_wr_all; [exact Hr| |exact Ha0]. repeat constructor; cbn [snd]; apply u8_land.
Qed.
Lemma image_patch addrs l : forall r r', is_image r -> ofold (patch_loop addrs) l r = Ok r' -> is_image r'.
Proof.
  induction l as [|x l IH]; intros r r' Hr H; cbn [ofold] in H; [injection H as <-; exact Hr|]. inv_bind H. eapply IH; [|exact H].
  unfold patch_loop, addr_to_bytes in Ha. inv_bind Ha. eapply image_wr_all; [exact Hr| |exact Ha]. repeat constructor; cbn [snd]; apply u8_land.
Qed.
Lemma image_zero a n r r' : is_image r -> wr_all r (zero_range a n) = Ok r' -> is_image r'.
Proof.
  intros Hr H. eapply image_wr_all; [exact Hr| |exact H]. apply Forall_forall. intros x Hx. unfold zero_range in Hx. apply in_map_iff in Hx.
  destruct Hx as (i & <- & _). cbn. unfold u8. lia.
Qed.
Lemma image_tracks b verbose bl so s l : encodes s l -> Forall (fun d => Forall u8 (fst d)) l ->
  forall is st st', Forall (fun i => (i < length l)%nat) is -> is_image (ks_rom st) -> ofold (write_one_track b verbose bl so s) is st = Ok st' -> is_image (ks_rom st').
Proof.
  intros [HeL He] HB. induction is as [|i is IH]; intros st st' HF Hr H; cbn [ofold] in H; [injection H as <-; exact Hr|].
  apply Forall_cons_iff in HF. destruct HF as [Hi HF]. inv_bind H. eapply IH; [exact HF| |exact H]. clear H IH.
  destruct (nth_error l i) as [[data refs]|] eqn:Ed; [|apply nth_error_None in Ed; lia].
  unfold write_one_track in Ha. rewrite (He _ _ Ed) in Ha. cbn [bind] in Ha. inv_bind Ha. destruct a0 as [[st1 p1] p2].
  assert (Hst1 : ks_rom st1 = ks_rom st).
  { destruct (_ <? _); [|injection Ha0 as <- <- <-; reflexivity]. destruct (_ =? _); [discriminate|]. inv_bind Ha0. injection Ha0 as <- <- <-. reflexivity. }
  destruct (0 <? _).
  - inv_bind Ha. injection Ha as <-. cbn [ks_rom]. eapply image_splice; [|exact (proj1 (Forall_forall _ _) HB _ (nth_error_In _ _ Ed))|exact Ha1]. rewrite Hst1. exact Hr.
  - injection Ha as <-. cbn [ks_rom]. rewrite Hst1. exact Hr.
Qed.
Lemma image_song b verbose bl st lp s st' l : encodes s l -> Forall (fun d => Forall u8 (fst d)) l ->
  is_image (ws_rom st) -> write_song b verbose bl st lp s = Ok st' -> is_image (ws_rom st').
Proof.
  intros He HB Hr H. unfold write_song in H. cbv zeta in H. inv_bind H. rename a into st1.
  assert (Hst1 : ws_rom st1 = ws_rom st).
  { unfold reserve_header in Ha. destruct (_ <? _); [|injection Ha as <-; reflexivity]. destruct (_ =? _); [discriminate|]. inv_bind Ha. injection Ha as <-. reflexivity. }
  inv_bind H. apply image_header in Ha0; [|rewrite Hst1; exact Hr]. inv_bind H. rename a0 into ks.
  assert (Hk : is_image (ks_rom ks)).
  { eapply (image_tracks b verbose bl _ s l He HB); [|  |exact Ha1]; [|exact Ha0]. apply Forall_forall. intros i Hi. apply in_seq in Hi. unfold get_num_tracks in Hi. destruct He as [HeL _]. lia. }
  inv_bind H. apply image_zero in Ha2; [|exact Hk]. inv_bind H. inv_bind H. apply image_part in Ha4; [|exact Ha2]. inv_bind H.
  apply image_patch in Ha5; [|exact Ha4]. injection H as <-. exact Ha5.
Qed.
Lemma image_bank b verbose bk r base_addr fa first conv r' ss ls : is_image r ->
  loaded b conv (songs bk) ss ls -> write_bank b verbose bk r base_addr fa first conv = Ok r' -> is_image r'.
Proof.
  intros Hr HL H. unfold write_bank in H. inv_bind H. inv_bind H. unfold clear_table in H. apply image_zero in H; [exact H|]. clear H.
  assert (Hr0 : is_image (ws_rom (wstate_init r a fa first))) by exact Hr. revert Ha0 Hr0. generalize (wstate_init r a fa first). clear Ha Hr r' r.
  induction HL as [|sd s l sds ss ls Hld (Henc & _ & HB) HLd IH]; intros st H Hr; cbn [ofold] in H; [injection H as <-; exact Hr|].
  inv_bind H. apply (IH _ H). unfold write_song_def in Ha. inv_bind Ha. inv_bind Ha.
  assert (Es : a3 = s) by (unfold load_song in Ha1; destruct (input sd); rewrite Hld in Ha1; congruence). subst a3.
  eapply image_song; [exact Henc|exact HB|exact Hr|exact Ha].
Qed.

(** ** One bank *)
Lemma layout_pointers r L : layout_ok r L -> pointers_in r (lo_addr L).
Proof. intros [(A1 & A2) A3 _ _ _ _]. split; [exact A1|]. split; [exact A2|]. intros a Ha. apply A3. exact Ha. Qed.
Lemma layout_fits r L : is_image r -> layout_ok r L -> good_blocks (lo_base L) (lo_ovf L) (size r) /\ aram_fits (lo_base L) (lo_ovf L).
Proof.
  intros Hr [_ _ Hin _ (A1 & A2) _]. pose proof (song_blocks_good _ _ _ _ _ _ Hr Hin) as HG. split; [exact HG|].
  destruct HG as (G1 & G2 & G3 & G4 & G5 & G6 & G7). split; [|split; [rewrite G6; exact A1|exact A2]].
  destruct Hin as (bs & t & Hc & E & _). pose proof (chain_bounds _ _ _ _ Hr Hc) as HB. rewrite E in HB. apply Forall_app in HB. destruct HB as [_ HB].
  apply Forall_cons_iff in HB. destruct HB as [_ HB]. apply Forall_cons_iff in HB. destruct HB as [(_ & _ & _ & HB) _]. rewrite HB. cbn [block_at tb_aram].
  apply word_u16. exact Hr.
Qed.

(** The file-level form of [bank_in], kept across changes elsewhere. *)
Definition bank_file (r : list Z) (L : layout) (fa : Z) (first : nat) (sds : list song_def) (ss : list song) : Prop :=
  (forall k sd s, nth_error sds k = Some sd -> nth_error ss k = Some s ->
    exists h e at_ qs l, payload (lo_base L) + (fa - 0xd000) <= h /\ e <= payload_end (lo_ovf L) /\ encodes s l /\
      song_at (lo_base L) (lo_ovf L) r h e (loops sd) s at_ qs l /\
      bytes_hold r (payload (lo_base L) + 2 * Z.of_nat (first + k)) (aram_of (lo_base L) (lo_ovf L) h)) /\
  (forall x, payload (lo_base L) + 2 * Z.of_nat (first + length sds) <= x < payload (lo_base L) + (fa - 0xd000) -> byte r x = 0).

Lemma one_bank b verbose bk r L fa first conv r' ss ls : is_image r -> layout_ok r L -> 0xd000 <= fa ->
  bank_fits b conv L fa first (songs bk) ss ls ->
  write_bank b verbose bk r (lo_addr L) fa first conv = Ok r' ->
  is_image r' /\ layout_ok r' L /\
  same_outside (fun x => lo_data L x /\ payload (lo_base L) + 2 * Z.of_nat first <= x) r r' /\
  bank_file r' L fa first (songs bk) ss.
Proof.
  intros Hr HL Hfa [F1 F2 F3 F4] H. destruct (layout_fits r L Hr HL) as [HG HA]. pose proof (layout_pointers r L HL) as Hp.
  pose proof HL as [A1 A2 A3 A4 A5 A6]. pose proof (find_blocks_found b _ _ _ _ _ _ Hr Hp A3) as Hf.
  destruct (write_bank_ok b verbose bk r (lo_addr L) fa first conv r' (lo_base L) (lo_ovf L) (size r) ss ls Hf HG eq_refl (proj1 HA) A6 Hfa F3 F2 F1 F4 H) as (W1 & W2 & W3).
  assert (Hr' : is_image r') by (eapply image_bank; [exact Hr|exact F1|exact H]).
  split; [exact Hr'|]. split; [|split; [exact W1|split; [exact W2|exact W3]]].
  constructor; auto.
  - intros a Ha. rewrite (same_size _ _ _ W1). apply A2. exact Ha.
  - eapply song_blocks_same; [exact Hr|exact W1| | |exact A3]; cbv beta.
    + intros x [Hx _]. exact Hx.
    + intros x Hx [Hd _]. apply (A2 x Hx). exact Hd.
Qed.

Lemma bank_file_in r L fa first sds ss : is_image r -> layout_ok r L -> 0xd000 <= fa ->
  2 * Z.of_nat (first + length sds) <= fa - 0xd000 -> fa - 0xd000 <= tb_len (lo_base L) ->
  bank_file r L fa first sds ss -> bank_in r L fa first sds ss.
Proof.
  intros Hr HL Hfa Ht Hf [B1 B2]. destruct (layout_fits r L Hr HL) as [HG HA]. pose proof HL as [A1 A2 A3 A4 A5 A6].
  pose proof HG as (G1 & G2 & G3 & G4 & G5 & G6 & G7).
  pose proof (aram_reads r (lo_pre L) _ _ (lo_post L) _ HG (proj1 A4) (proj2 A4)) as Hm. fold (lo_blocks L) in Hm.
  assert (Hb : forall x, payload (lo_base L) <= x < payload (lo_base L) + (fa - 0xd000) -> in_data (lo_base L) (lo_ovf L) x).
  { intros x Hx. left. unfold in_payload, payload, payload_end in *. lia. }
  assert (Hrun := aram_of_run (lo_base L) (lo_ovf L) (size r) (payload (lo_base L)) (fa - 0xd000) HG Hb).
  assert (E0 : 0 < fa - 0xd000 -> aram_of (lo_base L) (lo_ovf L) (payload (lo_base L)) = 0xd000).
  { intros Hpos. unfold aram_of. destruct (Z.ltb_spec (payload (lo_base L)) (payload_end (lo_base L))); unfold payload, payload_end in *; lia. }
  constructor; [exact A3| |].
  - intros k sd s Hk Hs. destruct (B1 k sd s Hk Hs) as (h & e & at_ & qs & l & C1 & C2 & C3 & C4 & C5). apply nth_error_lt in Hk.
    destruct (song_at_in _ _ _ _ _ _ _ _ _ _ _ _ HG HA Hm C3 C4) as [D1 D2].
    exists (aram_of (lo_base L) (lo_ovf L) h), at_. split; [|split; [|exact D1]].
    + rewrite <- E0 by lia. eapply holds_of; [exact Hb|exact Hm|exact Hrun|lia|lia|exact D2|exact C5].
    + destruct (sa_bounds _ _ _ _ _ _ _ _ _ _ C4) as (S1 & S2 & S3). 
      assert (Hh : in_data (lo_base L) (lo_ovf L) h) by (apply S3; unfold header_size; destruct (loops sd); lia).
      unfold aram_of, in_data, in_payload, payload, payload_end in *. destruct (Z.ltb_spec h (tb_start (lo_base L) + 4 + tb_len (lo_base L))); lia.
  - intros a Ha. replace a with (0xd000 + (a - 0xd000)) by lia. rewrite <- E0 by lia. rewrite <- Hrun by lia. rewrite Hm by (apply Hb; lia). f_equal. apply B2. lia.
Qed.

Lemma bank_write_in b verbose bk r L fa first conv r' ss ls : is_image r -> layout_ok r L -> 0xd000 <= fa ->
  bank_fits b conv L fa first (songs bk) ss ls -> write_bank b verbose bk r (lo_addr L) fa first conv = Ok r' ->
  bank_in r' L fa first (songs bk) ss.
Proof.
  intros Hr HL Hfa HF H. destruct (one_bank b verbose bk r L fa first conv r' ss ls Hr HL Hfa HF H) as (W1 & W2 & W3 & W4).
  destruct HF as [F1 F2 F3 F4]. apply bank_file_in; auto.
Qed.
Lemma bank_write_frame b verbose bk r L fa first conv r' ss ls : is_image r -> layout_ok r L -> 0xd000 <= fa ->
  bank_fits b conv L fa first (songs bk) ss ls -> write_bank b verbose bk r (lo_addr L) fa first conv = Ok r' ->
  same_outside (fun x => lo_data L x /\ payload (lo_base L) + 2 * Z.of_nat first <= x) r r'.
Proof. intros Hr HL Hfa HF H. apply (one_bank b verbose bk r L fa first conv r' ss ls Hr HL Hfa HF H). Qed.

(** ** Several banks *)
Lemma layout_same (P : Z -> Prop) r r' L : is_image r -> same_outside P r r' -> (forall x, P x -> ~ lo_frame L x) -> layout_ok r L -> layout_ok r' L.
Proof.
  intros Hr HS HP [A1 A2 A3 A4 A5 A6]. constructor; auto.
  - intros a Ha. rewrite (same_size _ _ _ HS). apply A2. exact Ha.
  - destruct A3 as (bs & t & Hc & E & Hb & HF).
    assert (EC : bank_chain r' (lo_addr L) = bank_chain r (lo_addr L)).
    { unfold bank_chain. rewrite !(proj2 HS); auto; try apply lorom24_nonneg; intros Hx; apply (HP _ Hx); left; unfold pointer_bytes; auto. }
    exists bs, t. split; [|auto]. rewrite EC. eapply chain_same; [exact HS|exact Hc|].
    rewrite E. apply Forall_forall. intros b0 Hb0 x Hx Hpx. apply (HP x Hpx). right. exists b0. split; [exact Hb0|exact Hx].
Qed.
Lemma bank_file_same (P : Z -> Prop) r r' L n fa first sds ss : same_outside P r r' -> good_blocks (lo_base L) (lo_ovf L) n -> (forall x, P x -> ~ lo_frame L x /\ ~ lo_data L x) ->
  fa - 0xd000 <= tb_len (lo_base L) -> 2 * Z.of_nat (first + length sds) <= fa - 0xd000 ->
  bank_file r L fa first sds ss -> bank_file r' L fa first sds ss.
Proof.
  intros HS (G1 & G2 & G3 & G4 & G5 & G6 & G7) HP Hf Ht [B1 B2].
  assert (Hall : forall x, payload (lo_base L) <= x < payload_end (lo_ovf L) -> ~ P x).
  { intros x Hx Hpx. destruct (HP x Hpx) as [P1 P2]. destruct (Z.lt_ge_cases x (payload_end (lo_base L))).
    - apply P2. left. unfold in_payload. lia.
    - destruct (Z.lt_ge_cases x (payload (lo_ovf L))).
      + apply P1. right. exists (lo_ovf L). split; [unfold lo_blocks; apply in_or_app; right; right; left; reflexivity|lia].
      + apply P2. right. unfold in_payload. lia. }
  assert (Hend : payload (lo_base L) + (fa - 0xd000) <= payload_end (lo_ovf L)) by (unfold payload, payload_end in *; lia).
  split.
  - intros k sd s Hk Hs. destruct (B1 k sd s Hk Hs) as (h & e & at_ & qs & l & C1 & C2 & C3 & C4 & C5). apply nth_error_lt in Hk.
    exists h, e, at_, qs, l. split; [exact C1|]. split; [exact C2|]. split; [exact C3|]. split.
    + eapply song_at_same; [exact HS| |apply (encodes_refs s); exact C3|exact C4]. intros x Hx. apply Hall. lia.
    + eapply bytes_hold_same; [exact HS|unfold payload in *; lia| | |exact C5]; apply Hall; lia.
  - intros x Hx. rewrite (proj2 HS); [apply B2; exact Hx|unfold payload in *; lia|apply Hall; lia].
Qed.

Lemma all_banks b verbose conv addrs : forall i first bks Ls sss, banks_fit b conv i first bks Ls sss ->
  forall r r' pa, addrs = pa ++ map lo_addr Ls -> length pa = i -> is_image r -> Forall (layout_ok r) Ls -> ForallOrdPairs independent Ls ->
  write_banks b verbose bks i first r addrs conv = Ok r' ->
  is_image r' /\ Forall (layout_ok r') Ls /\ same_outside (fun x => exists L, In L Ls /\ lo_data L x) r r' /\
  forall k bk L ss, nth_error bks k = Some bk -> nth_error Ls k = Some L -> nth_error sss k = Some ss ->
    exists fa, nth_error first_songs (i + k) = Some fa /\ 0xd000 <= fa /\ fa - 0xd000 <= tb_len (lo_base L) /\
      2 * Z.of_nat (first + count_songs (firstn k bks) + length (songs bk)) <= fa - 0xd000 /\
      bank_file r' L fa (first + count_songs (firstn k bks)) (songs bk) ss.
Proof.
  intros i first bks Ls sss HB. induction HB as [i first|i first fa bk L ss ls bks Ls sss Hfa HF HB IH]; intros r r' pa Ea Epa Hr HLs HI H.
  - cbn [write_banks] in H. injection H as <-. split; [exact Hr|]. split; [constructor|]. split; [apply same_outside_refl|].
    intros [|k] bk L ss Hk; discriminate.
  - cbn [write_banks] in H. inv_bind H. inv_bind H. inv_bind H. apply or_panic_ok in Ha, Ha0. rename a1 into r1.
    assert (Ead : a = lo_addr L).
    { subst addrs. rewrite nth_error_app2 in Ha by lia. replace (i - length pa)%nat with 0%nat in Ha by lia. cbn in Ha. congruence. }
    subst a. assert (a0 = fa) by (change BANK_FIRST_SONG_ADDRS with first_songs in Ha0; congruence). subst a0.
    assert (Hfa0 : 0xd000 <= fa).
    { clear -Hfa. destruct i as [|[|[|i]]]; cbn in Hfa; try (injection Hfa as <-; lia). destruct i; discriminate. }
    apply Forall_cons_iff in HLs. destruct HLs as [HL HLs]. inversion HI as [|? ? HI1 HI2]; subst.
    destruct (one_bank b verbose bk r L fa first conv r1 ss ls Hr HL Hfa0 HF Ha1) as (W1 & W2 & W3 & W4).
    destruct (IH r1 r' (pa ++ [lo_addr L])) as (X1 & X2 & X3 & X4).
    { cbn [map]. rewrite <- app_assoc. reflexivity. }
    { rewrite app_length. cbn. lia. }
    { exact W1. }
    { rewrite Forall_forall in *. intros L' HL'. eapply layout_same; [exact Hr|exact W3| |apply HLs; exact HL'].
      cbv beta. intros x [Hx _]. apply (proj1 (HI1 L' HL' x) Hx). }
    { exact HI2. }
    { exact H. }
    assert (HP : forall x, (exists L', In L' Ls /\ lo_data L' x) -> ~ lo_frame L x /\ ~ lo_data L x).
    { intros x (L' & HL' & Hx). rewrite Forall_forall in HI1. destruct (proj2 (HI1 L' HL' x) Hx). auto. }
    split; [exact X1|]. split; [|split].
    + constructor; [|exact X2]. eapply layout_same; [exact W1|exact X3| |exact W2]. cbv beta. intros x Hx. apply HP. exact Hx.
    + eapply same_outside_trans; [eapply same_outside_weaken; [|exact W3]|eapply same_outside_weaken; [|exact X3]]; cbv beta.
      * intros x _ [Hx _]. exists L. split; [left; reflexivity|exact Hx].
      * intros x _ (L' & HL' & Hx). exists L'. split; [right; exact HL'|exact Hx].
    + intros [|k] bk' L' ss' Hk1 Hk2 Hk3; cbn [nth_error] in Hk1, Hk2, Hk3.
      * injection Hk1 as <-. injection Hk2 as <-. injection Hk3 as <-. exists fa. rewrite Nat.add_0_r. split; [exact Hfa|]. split; [exact Hfa0|].
        destruct HF as [F1 F2 F3 F4]. cbn [firstn]. replace (first + count_songs [])%nat with first by (cbn; lia). split; [exact F3|]. split; [exact F2|].
        destruct (layout_fits r1 L W1 W2) as [HG _]. eapply bank_file_same; [exact X3|exact HG|exact HP|exact F3|exact F2|exact W4].
      * destruct (X4 k bk' L' ss' Hk1 Hk2 Hk3) as (fa' & Y1 & Y2 & Y3 & Y4 & Y5). exists fa'.
        replace (length pa + S k)%nat with (S (length pa) + k)%nat by lia. cbn [firstn].
        assert (Ec : count_songs (bk :: firstn k bks) = (length (songs bk) + count_songs (firstn k bks))%nat) by reflexivity.
        rewrite Ec, Nat.add_assoc.
        auto.
Qed.

Lemma banks_read b verbose conv bks Ls sss r r' : banks_fit b conv 0 0 bks Ls sss -> is_image r -> Forall (layout_ok r) Ls -> ForallOrdPairs independent Ls ->
  write_banks b verbose bks 0 0 r (map lo_addr Ls) conv = Ok r' ->
  same_outside (fun x => exists L, In L Ls /\ lo_data L x) r r' /\
  forall k bk L ss, nth_error bks k = Some bk -> nth_error Ls k = Some L -> nth_error sss k = Some ss ->
    exists fa, nth_error first_songs k = Some fa /\ bank_in r' L fa (count_songs (firstn k bks)) (songs bk) ss.
Proof.
  intros HB Hr HLs HI H. destruct (all_banks b verbose conv _ 0%nat 0%nat bks Ls sss HB r r' [] eq_refl eq_refl Hr HLs HI H) as (X1 & X2 & X3 & X4).
  split; [exact X3|]. intros k bk L ss H1 H2 H3. destruct (X4 k bk L ss H1 H2 H3) as (fa & Y1 & Y2 & Y3 & Y4 & Y5). exists fa. split; [exact Y1|].
  apply bank_file_in; auto. rewrite Forall_forall in X2. apply X2. eapply nth_error_In. exact H2.
Qed.

(** ** When does the layout condition on loops hold? *)
Lemma tracks_stay_noloops base ovf l : Forall (fun d => snd d = [] /\ data_len d <= tb_len ovf) l -> forall p, tracks_stay base ovf p l.
Proof. intros H. induction H as [|d l Hd _ IH]; intros p; cbn [tracks_stay]; auto. Qed.
Lemma songs_stay_noloops base ovf ls : Forall (fun x => Forall (fun d => snd d = [] /\ data_len d <= tb_len ovf) (snd x)) ls -> forall p, songs_stay base ovf p ls.
Proof. intros H. induction H as [|[lp l] ls Hd _ IH]; intros p; cbn [songs_stay]; [exact I|]. split; [apply tracks_stay_noloops; exact Hd|apply IH]. Qed.

Definition total_len (l : list (list Z * list call_loop_ref)) : Z := fold_right (fun d acc => data_len d + acc) 0 l.
Lemma tracks_stay_small base ovf l : forall p, p + total_len l <= payload_end base -> tracks_stay base ovf p l /\ tracks_end base ovf p l = p + total_len l.
Proof.
  induction l as [|d l IH]; intros p H; cbn [tracks_stay tracks_end total_len fold_right] in *; [split; [exact I|lia]|]. fold (total_len l) in *.
  assert (0 <= data_len d) by (unfold data_len; lia).
  assert (0 <= total_len l) by (clear; induction l as [|d l IH]; cbn [total_len fold_right]; [lia|]; fold (total_len l); unfold data_len; lia).
  assert (E : place base ovf p (data_len d) = p) by (unfold place; destruct (_ && _) eqn:E; [lia|reflexivity]).
  rewrite E. destruct (IH (p + data_len d)) as [I1 I2]; [lia|]. split; [split; [left; reflexivity|exact I1]|lia].
Qed.
Definition song_len (x : bool * list (list Z * list call_loop_ref)) : Z := header_size (fst x) + 16 + total_len (snd x).
Lemma songs_stay_small base ovf ls : forall p, p + fold_right (fun x acc => song_len x + acc) 0 ls <= payload_end base -> songs_stay base ovf p ls.
Proof.
  induction ls as [|[lp l] ls IH]; intros p H; cbn [songs_stay fold_right] in *; [exact I|].
  assert (Hn : forall l, 0 <= total_len l) by (clear; induction l as [|d l IH]; cbn [total_len fold_right]; [lia|]; fold (total_len l); unfold data_len; lia).
  assert (Hs : 0 <= fold_right (fun x acc => song_len x + acc) 0 ls).
  { clear -Hn. induction ls as [|x ls IH]; cbn [fold_right]; [lia|]. assert (0 <= song_len x) by (unfold song_len, header_size; specialize (Hn (snd x)); destruct (fst x); lia). lia. }
  change (song_len (lp, l)) with (header_size lp + 16 + total_len l) in H. pose proof (Hn l) as Hl.
  assert (Hh : header_size lp = 4 \/ header_size lp = 8) by (unfold header_size; destruct lp; auto).
  assert (E : place base ovf p (header_size lp + 16) = p) by (unfold place; destruct (_ && _) eqn:E; [lia|reflexivity]).
  unfold song_stays, song_end. rewrite E.
  destruct (tracks_stay_small base ovf l (p + (header_size lp + 16))) as [I1 I2]; [lia|].
  split; [exact I1|]. rewrite I2. apply IH. lia.
Qed.

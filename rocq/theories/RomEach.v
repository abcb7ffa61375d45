(** RomEach.v: a bank whose tracks may be moved: every song but one is found (C34, C36, C39). *)
From Coq Require Import ZArith List Bool Lia ZifyBool ZifyNat Sorted.
From Verif Require Import Base F32 Command Track Song Paths Manifest Rom SpecNspc SpecRom SpecBank SpecSafe SpecEach ProofLib CodecProofs RomLib RomProofs RomBank RomChain RomBanks RomTotal RomSafe.
Ltac Zify.zify_post_hook ::= Z.div_mod_to_equations.
Open Scope Z_scope.

(** ** At most one song has its track moved *)
Lemma tracks_stay_over base ovf l : forall p, payload_end base < p -> tracks_stay base ovf p l.
Proof.
  induction l as [|d l IH]; intros p H; cbn [tracks_stay]; [exact I|].
  assert (E : place base ovf p (data_len d) = p) by (unfold place; destruct (_ && _) eqn:E; [lia|reflexivity]).
  rewrite E. split; [left; reflexivity|]. apply IH. unfold data_len. lia.
Qed.
Lemma tracks_stay_or base ovf l : tb_start ovf = payload_end base -> forall p, tracks_stay base ovf p l \/ payload_end base < tracks_end base ovf p l.
Proof.
  intros G. induction l as [|d l IH]; intros p; cbn [tracks_stay tracks_end]; [left; exact I|].
  set (q := place base ovf p (data_len d)) in *. assert (Hq : q = p \/ q = payload ovf) by (unfold q, place; destruct (_ && _); auto).
  destruct Hq as [Hq|Hq].
  - destruct (IH (q + data_len d)) as [H|H]; [left; auto|right; exact H].
  - right. pose proof (tracks_end_ge base ovf l G (q + data_len d)). unfold data_len, payload in *. lia.
Qed.
Lemma stays_over base ovf p lp l : tb_start ovf = payload_end base -> payload_end base < p -> song_stays base ovf p lp l.
Proof.
  intros G H. unfold song_stays. apply tracks_stay_over. pose proof (place_ge base ovf p (header_size lp + 16) G). unfold header_size in *. destruct lp; lia.
Qed.
Lemma one_moved base ovf ls : tb_start ovf = payload_end base -> forall p, exists bad, forall k lp l, k <> bad -> nth_error ls k = Some (lp, l) ->
  song_stays base ovf (songs_end base ovf p (firstn k ls)) lp l.
Proof.
  intros G. induction ls as [|[lp l] ls IH]; intros p.
  { exists O. intros [|k] lp l _ H; discriminate. }
  destruct (tracks_stay_or base ovf l G (place base ovf p (header_size lp + 16) + (header_size lp + 16))) as [H|H].
  - destruct (IH (song_end base ovf p lp l)) as [bad Hb]. exists (S bad). intros [|k] lp' l' Hk E; cbn [nth_error firstn songs_end] in *.
    + injection E as <- <-. exact H.
    + apply (Hb k lp' l'); [congruence|exact E].
  - exists O. intros [|k] lp' l' Hk E; [congruence|]. cbn [nth_error firstn songs_end] in *. apply stays_over; [exact G|].
    pose proof (songs_end_ge base ovf (firstn k ls) G (song_end base ovf p lp l)). unfold song_end in *. lia.
Qed.

(** ** The songs of a bank *)
Lemma each_songs b verbose base ovf n conv : good_blocks base ovf n -> tb_len base < 2 ^ 64 -> 0 <= tb_aram ovf -> 24 <= tb_len ovf ->
  forall sds ss ls, loaded b conv sds ss ls -> closed_all sds ss ls -> Forall (fun x => Forall (fun d => data_len d <= tb_len ovf) (snd x)) ls -> forall st st' p,
  wcursor base ovf p st -> size (ws_rom st) = n -> is_image (ws_rom st) ->
  0 <= song_table_addr st -> song_table_addr st + 2 * Z.of_nat (length sds) <= p ->
  ofold (write_song_def b verbose (blocks_of base ovf) conv) sds st = Ok st' ->
  let e := songs_end base ovf p ls in
  wcursor base ovf e st' /\ song_table_addr st' = song_table_addr st + 2 * Z.of_nat (length sds) /\ is_image (ws_rom st') /\
  same_outside (fun x => song_table_addr st <= x < song_table_addr st + 2 * Z.of_nat (length sds) \/ span p ovf x) (ws_rom st) (ws_rom st') /\
  forall k sd s lp l, nth_error sds k = Some sd -> nth_error ss k = Some s -> nth_error ls k = Some (lp, l) ->
    exists h e', p <= h /\ e' <= payload_end ovf /\ in_data base ovf h /\ bytes_hold (ws_rom st') (song_table_addr st + 2 * Z.of_nat k) (aram_of base ovf h) /\
      (song_stays base ovf (songs_end base ovf p (firstn k ls)) lp l -> encodes s l /\ exists at_ qs, song_at base ovf (ws_rom st') h e' (loops sd) s at_ qs l).
Proof.
  intros HG Hl Hov H24 sds ss ls HLd. pose proof HG as (_ & _ & G3 & _).
  induction HLd as [|sd s l sds ss ls Hld (Henc & Hpart & Hu) HLd IH]; intros HC HS st st' p Hw Hn Hi Ht0 Ht H.
  - cbn [ofold] in H. injection H as <-. cbv zeta. cbn [songs_end length]. split; [exact Hw|]. split; [lia|]. split; [exact Hi|]. split; [apply same_outside_refl|].
    intros [|k] sd s lp l Hk; discriminate.
  - inversion HC as [|? ? ? ? ? ? ? _ C1 C2]; subst. inversion HS as [|? ? S1 S2]; subst. cbn [snd] in S1.
    cbn [ofold] in H. inv_bind H. rename a into st1. unfold write_song_def in Ha. inv_bind Ha. inv_bind Ha.
    assert (Es : a0 = s) by (unfold load_song in Ha1; destruct (Manifest.input sd); rewrite Hld in Ha1; congruence). subst a0.
    cbn [length] in Ht.
    pose proof (song_ends b verbose base ovf _ st (loops sd) s p l HG Hl Hov Hw eq_refl H24 Henc Hpart C1 S1 Ht0 ltac:(lia)) as K.
    destruct (Z.leb_spec (song_end base ovf p (loops sd) l) (payload_end ovf)) as [Hfit|Hno]; [|rewrite K in Ha; discriminate].
    destruct K as (st1' & E1 & W2 & W3 & W4 & W5). rewrite Ha in E1. injection E1 as <-.
    set (h := place base ovf p (header_size (loops sd) + 16)) in *. set (e1 := song_end base ovf p (loops sd) l) in *.
    pose proof (song_end_ge base ovf p (loops sd) l G3) as He1. fold h e1 in He1.
    pose proof (place_ge base ovf p (header_size (loops sd) + 16) G3) as Hph. fold h in Hph.
    assert (Hi1 : is_image (ws_rom st1)) by (eapply image_song; eassumption).
    assert (Hp0 : 0 <= p) by lia.
    destruct (IH C2 S2 st1 st' e1 W2) as (X1 & X2 & X5 & X3 & X4).
    { apply (same_size _ _ _ W4). }
    { exact Hi1. }
    { rewrite W3. lia. }
    { rewrite W3. lia. }
    { exact H. }
    cbv zeta. cbn [songs_end]. fold e1. set (e := songs_end base ovf e1 ls) in *.
    split; [exact X1|]. split; [rewrite X2, W3; cbn [length]; lia|]. split; [exact X5|]. split.
    + eapply same_outside_trans; [eapply same_outside_weaken; [|exact W4]|eapply same_outside_weaken; [|exact X3]]; cbv beta; unfold span; rewrite ?W3; cbn [length]; intros x _ [Hx|Hx]; lia.
    + intros [|k] sd' s' lp' l' Hsd Hs Hl'; cbn [nth_error] in Hsd, Hs, Hl'.
      * injection Hsd as <-. injection Hs as <-. injection Hl' as <- <-. exists h, e1. split; [exact Hph|]. split; [exact Hfit|].
        assert (Hd : in_data base ovf h).
        { unfold wcursor in Hw. inversion Hw as [pp Hp E0 E2 E3 E4 E5|pp Hp E0 E2 E3 E4 E5]; subst; unfold h, in_data, in_payload, place, payload, payload_end, e1, header_size in *; clear - Hp G3 He1 Hfit HG H24; destruct HG as (G1 & G2 & _ & G4 & _); destruct (loops sd); destruct (_ && _) eqn:E; lia. }
        split; [exact Hd|]. split.
        -- replace (song_table_addr st + 2 * Z.of_nat 0) with (song_table_addr st) by lia.
           eapply bytes_hold_same; [exact X3|exact Ht0| | |exact W5]; cbv beta; unfold span; rewrite W3; lia.
        -- cbn [firstn songs_end]. intros Hst. split; [exact Henc|].
           destruct (one_song b verbose base ovf _ st (loops sd) s st1 p l HG Hw eq_refl Hov H24 Henc Hpart Hst Ht0 ltac:(lia) Ha) as (_ & _ & _ & _ & _ & at_ & qs & W6).
           exists at_, qs. eapply song_at_same; [exact X3| |apply (encodes_refs s); exact Henc|exact W6].
           cbv beta. unfold span. rewrite W3. fold e1 h. intros x Hx. cbn [length] in *. lia.
      * destruct (X4 k sd' s' lp' l' Hsd Hs Hl') as (h' & e' & Y1 & Y2 & Y3 & Y4 & Y5). exists h', e'.
        split; [lia|]. split; [exact Y2|]. split; [exact Y3|]. split; [|exact Y5]. rewrite W3 in Y4.
        replace (song_table_addr st + 2 * Z.of_nat (S k)) with (song_table_addr st + 2 + 2 * Z.of_nat k) by lia. exact Y4.
Qed.

(** ** One bank *)
Definition bank_file_for (good : nat -> Prop) (r : list Z) (L : layout) (fa : Z) (first : nat) (sds : list song_def) (ss : list song) : Prop :=
  (forall k sd s, nth_error sds k = Some sd -> nth_error ss k = Some s ->
    exists h e, payload (lo_base L) + (fa - 0xd000) <= h /\ e <= payload_end (lo_ovf L) /\ in_data (lo_base L) (lo_ovf L) h /\
      bytes_hold r (payload (lo_base L) + 2 * Z.of_nat (first + k)) (aram_of (lo_base L) (lo_ovf L) h) /\
      (good k -> exists at_ qs l, encodes s l /\ song_at (lo_base L) (lo_ovf L) r h e (loops sd) s at_ qs l)) /\
  (forall x, payload (lo_base L) + 2 * Z.of_nat (first + length sds) <= x < payload (lo_base L) + (fa - 0xd000) -> byte r x = 0).
Lemma loaded_lens b conv sds ss ls : loaded b conv sds ss ls -> length ss = length sds /\ length ls = length sds.
Proof. intros H. induction H as [|? ? ? ? ? ? ? ? ? [IH1 IH2]]; cbn [length]; [auto|split; congruence]. Qed.

Lemma each_bank b verbose bk r L fa first conv r' ss ls : is_image r -> layout_ok r L -> 0xd000 <= fa ->
  bank_short b conv L fa first (songs bk) ss ls -> write_bank b verbose bk r (lo_addr L) fa first conv = Ok r' ->
  is_image r' /\ same_outside (lo_span L) r r' /\ bank_file_for (song_unmoved L fa ls) r' L fa first (songs bk) ss.
Proof.
  intros Hr HL Hfa [F1 F5 F2 F3 F4] H. destruct (layout_fits r L Hr HL) as [HG HA]. pose proof (layout_pointers r L HL) as Hp.
  pose proof HL as [A1 A2 A3 A4 A5 A6]. pose proof (find_blocks_found b _ _ _ _ _ _ Hr Hp A3) as Hf.
  pose proof HG as (G1 & G2 & G3 & G4 & G5 & G6 & G7).
  unfold write_bank in H. rewrite Hf in H. cbn [bind] in H. inv_bind H. rename a into st.
  unfold lo_span, bank_file_for, song_unmoved. set (base := lo_base L) in *. set (ovf := lo_ovf L) in *. set (p := payload base + (fa - 0xd000)) in *.
  set (st0 := wstate_init r (blocks_of base ovf) fa first) in *.
  assert (Hpp : p = payload base + (fa - 53248)) by reflexivity.
  assert (Hw : wcursor base ovf p st0).
  { unfold wcursor, st0, wstate_init. cbn [rom_addr chunk_length aram_base_addr song_offset blocks_of base_chunk_addr base_chunk_len]. unfold ARAM_BASE.
    replace (fa - 53248) with (p - payload base) by lia. clearbody p. rewrite <- G6. apply cursor_base. unfold payload, payload_end in *. lia. }
  assert (Hta : song_table_addr st0 = payload base + 2 * Z.of_nat first).
  { unfold st0, wstate_init. cbn [song_table_addr blocks_of base_chunk_addr]. lia. }
  destruct (each_songs b verbose base ovf (size r) conv HG ltac:(lia) (proj1 HA) A6 _ _ _ F1 F5 F4 st0 st p Hw eq_refl Hr) as (X1 & X2 & X5 & X3 & X4); auto.
  { rewrite Hta. unfold payload in *. lia. }
  { rewrite Hta. unfold p. lia. }
  unfold clear_table in H. set (from := song_table_addr st) in *. unfold blocks_of in H. cbn [base_chunk_addr] in H. unfold ARAM_BASE in H.
  replace (payload base + fa - 53248) with p in H by (unfold p; lia).
  assert (Hfrom : from = payload base + 2 * Z.of_nat (first + length (songs bk))) by (rewrite X2, Hta; lia).
  assert (HZ : Forall (fun av => 0 <= fst av) (zero_range from (Z.to_nat (p - from)))).
  { apply Forall_forall. intros x Hx. unfold zero_range in Hx. apply in_map_iff in Hx. destruct Hx as (i & <- & _). cbn. rewrite Hfrom. unfold payload. lia. }
  destruct (wr_all_ok _ _ _ HZ H) as (_ & ZL & ZB).
  assert (HS : same_outside (fun x => from <= x < p) (ws_rom st) r').
  { split; [exact ZL|]. intros x Hx Hout. rewrite ZB, zero_range_spec by exact Hx. destruct (_ && _) eqn:E; [lia|reflexivity]. }
  change (ws_rom st0) with r in X3. rewrite Hta in *.
  split; [eapply image_zero; [exact X5|exact H]|]. split; [|split].
  - eapply same_outside_trans; [eapply same_outside_weaken; [|exact X3]|eapply same_outside_weaken; [|exact HS]]; cbv beta; unfold span; unfold p, payload, payload_end in *; intros x Hx Hx'; lia.
  - intros k sd s Hk Hs. destruct (loaded_lens _ _ _ _ _ F1) as [L1 L2]. pose proof (nth_error_lt _ _ _ Hk) as Hlt.
    destruct (nth_error ls k) as [[lp l]|] eqn:El; [|apply nth_error_None in El; lia].
    destruct (X4 k sd s lp l Hk Hs El) as (h & e' & Y1 & Y2 & Y3 & Y4 & Y5). exists h, e'.
    split; [exact Y1|]. split; [exact Y2|]. split; [exact Y3|]. split.
    + replace (payload base + 2 * Z.of_nat (first + k)) with (payload base + 2 * Z.of_nat first + 2 * Z.of_nat k) by lia.
      eapply bytes_hold_same; [exact HS|unfold payload in *; lia| | |exact Y4]; cbv beta; lia.
    + intros Hg. destruct (Y5 (Hg lp l eq_refl)) as (Z1 & at_ & qs & Z2). exists at_, qs, l. split; [exact Z1|].
      eapply song_at_same; [exact HS| |apply (encodes_refs s); exact Z1|exact Z2]. cbv beta. lia.
  - intros x Hx. rewrite ZB, zero_range_spec by (unfold payload in *; lia). destruct (_ && _) eqn:E; [reflexivity|lia].
Qed.

Lemma bank_each_in good r L fa first sds ss : is_image r -> layout_ok r L -> 0xd000 <= fa -> length ss = length sds ->
  2 * Z.of_nat (first + length sds) <= fa - 0xd000 -> fa - 0xd000 <= tb_len (lo_base L) ->
  bank_file_for good r L fa first sds ss -> bank_in_for good r L fa first sds ss.
Proof.
  intros Hr HL Hfa Hss Ht Hf [B1 B2]. destruct (layout_fits r L Hr HL) as [HG HA]. pose proof HL as [A1 A2 A3 A4 A5 A6].
  pose proof HG as (G1 & G2 & G3 & G4 & G5 & G6 & G7).
  pose proof (aram_reads r (lo_pre L) _ _ (lo_post L) _ HG (proj1 A4) (proj2 A4)) as Hm. fold (lo_blocks L) in Hm.
  assert (Hb : forall x, payload (lo_base L) <= x < payload (lo_base L) + (fa - 0xd000) -> in_data (lo_base L) (lo_ovf L) x).
  { intros x Hx. left. unfold in_payload, payload, payload_end in *. lia. }
  assert (Hrun := aram_of_run (lo_base L) (lo_ovf L) (size r) (payload (lo_base L)) (fa - 0xd000) HG Hb).
  assert (E0 : 0 < fa - 0xd000 -> aram_of (lo_base L) (lo_ovf L) (payload (lo_base L)) = 0xd000).
  { intros Hpos. unfold aram_of. destruct (Z.ltb_spec (payload (lo_base L)) (payload_end (lo_base L))); unfold payload, payload_end in *; lia. }
  assert (HT : forall k h, (k < length sds)%nat -> in_data (lo_base L) (lo_ovf L) h -> payload (lo_base L) + (fa - 0xd000) <= h ->
    bytes_hold r (payload (lo_base L) + 2 * Z.of_nat (first + k)) (aram_of (lo_base L) (lo_ovf L) h) ->
    holds (aram r (lo_blocks L)) (0xd000 + 2 * Z.of_nat (first + k)) (aram_of (lo_base L) (lo_ovf L) h)).
  { intros k h Hk Hd Hh C5. rewrite <- E0 by lia. eapply holds_of; [exact Hb|exact Hm|exact Hrun|lia|lia| |exact C5]. eapply aram_of_range; [exact HG|exact HA|exact Hd]. }
  constructor; [exact A3| | |].
  - intros k Hk. destruct (nth_error sds k) as [sd|] eqn:E1; [|apply nth_error_None in E1; lia]. destruct (nth_error ss k) as [s|] eqn:E2; [|apply nth_error_None in E2; lia].
    destruct (B1 k sd s E1 E2) as (h & e & C1 & C2 & C3 & C4 & _). exists (aram_of (lo_base L) (lo_ovf L) h). split; [apply HT; assumption|].
    unfold aram_of, in_data, in_payload, payload, payload_end in *. destruct (Z.ltb_spec h (tb_start (lo_base L) + 4 + tb_len (lo_base L))); lia.
  - intros k sd s Hk Hs Hgood. destruct (B1 k sd s Hk Hs) as (h & e & C1 & C2 & C3 & C4 & C5). destruct (C5 Hgood) as (at_ & qs & l & C6 & C7). apply nth_error_lt in Hk.
    destruct (song_at_in _ _ _ _ _ _ _ _ _ _ _ _ HG HA Hm C6 C7) as [D1 D2].
    exists (aram_of (lo_base L) (lo_ovf L) h), at_. split; [apply HT; assumption|exact D1].
  - intros a Ha. replace a with (0xd000 + (a - 0xd000)) by lia. rewrite <- E0 by lia. rewrite <- Hrun by lia. rewrite Hm by (apply Hb; lia). f_equal. apply B2. lia.
Qed.

Lemma layout_kept r r' L : length r' = length r -> layout_ok r L -> lo_in r' L -> layout_ok r' L.
Proof.
  intros HS [A1 A2 A3 A4 A5 A6] H. constructor; auto. intros a Ha. unfold size. rewrite HS. apply A2. exact Ha.
Qed.
Lemma unmoved_but_one r L fa ls : is_image r -> layout_ok r L -> exists bad, forall k, k <> bad -> song_unmoved L fa ls k.
Proof.
  intros Hr HL. destruct (layout_fits r L Hr HL) as [(_ & _ & G3 & _) _]. destruct (one_moved _ _ ls G3 (payload (lo_base L) + (fa - 0xd000))) as [bad Hb].
  exists bad. intros k Hk lp l E. apply Hb; assumption.
Qed.
Lemma for_weaken (g1 g2 : nat -> Prop) r L fa first sds ss : (forall k, g2 k -> g1 k) -> bank_in_for g1 r L fa first sds ss -> bank_in_for g2 r L fa first sds ss.
Proof. intros H [B1 B2 B3 B4]. constructor; auto. Qed.

Lemma bank_each b verbose bk r L fa first conv r' ss ls : is_image r -> layout_ok r L -> 0xd000 <= fa ->
  bank_short b conv L fa first (songs bk) ss ls -> write_bank b verbose bk r (lo_addr L) fa first conv = Ok r' -> lo_in r' L ->
  bank_in_for (song_unmoved L fa ls) r' L fa first (songs bk) ss /\
  exists bad, bank_in_for (fun k => k <> bad) r' L fa first (songs bk) ss.
Proof.
  intros Hr HL Hfa HB H Hin. destruct (each_bank b verbose bk r L fa first conv r' ss ls Hr HL Hfa HB H) as (W1 & W2 & W3). destruct HB as [F1 F5 F2 F3 F4].
  assert (K : bank_in_for (song_unmoved L fa ls) r' L fa first (songs bk) ss).
  { apply bank_each_in; auto; [eapply layout_kept; [apply W2|exact HL|exact Hin]|apply (loaded_lens _ _ _ _ _ F1)]. }
  split; [exact K|]. destruct (unmoved_but_one r L fa ls Hr HL) as [bad Hb]. exists bad. eapply for_weaken; [|exact K]. exact Hb.
Qed.

(** ** Several banks *)
Lemma bank_for_same (P : Z -> Prop) good r r' L n fa first sds ss : same_outside P r r' -> good_blocks (lo_base L) (lo_ovf L) n -> (forall x, P x -> ~ lo_span L x) ->
  fa - 0xd000 <= tb_len (lo_base L) -> 2 * Z.of_nat (first + length sds) <= fa - 0xd000 ->
  bank_file_for good r L fa first sds ss -> bank_file_for good r' L fa first sds ss.
Proof.
  intros HS (G1 & G2 & G3 & G4 & G5 & G6 & G7) HP Hf Ht [B1 B2].
  assert (Hall : forall x, payload (lo_base L) <= x < payload_end (lo_ovf L) -> ~ P x) by (intros x Hx Hpx; apply (HP x Hpx); exact Hx).
  assert (Hend : payload (lo_base L) + (fa - 0xd000) <= payload_end (lo_ovf L)) by (unfold payload, payload_end in *; lia).
  split.
  - intros k sd s Hk Hs. destruct (B1 k sd s Hk Hs) as (h & e & C1 & C2 & C3 & C4 & C5). apply nth_error_lt in Hk.
    exists h, e. split; [exact C1|]. split; [exact C2|]. split; [exact C3|]. split.
    + eapply bytes_hold_same; [exact HS|unfold payload in *; lia| | |exact C4]; apply Hall; lia.
    + intros Hg. destruct (C5 Hg) as (at_ & qs & l & C6 & C7). exists at_, qs, l. split; [exact C6|].
      eapply song_at_same; [exact HS| |apply (encodes_refs s); exact C6|exact C7]. intros x Hx. apply Hall. lia.
  - intros x Hx. rewrite (proj2 HS); [apply B2; exact Hx|unfold payload in *; lia|apply Hall; lia].
Qed.

Lemma each_banks b verbose conv addrs : forall i first bks Ls sss lss, banks_short b conv i first bks Ls sss lss ->
  forall r r' pa, addrs = pa ++ map lo_addr Ls -> length pa = i -> is_image r -> Forall (layout_ok r) Ls -> ForallOrdPairs separate Ls ->
  write_banks b verbose bks i first r addrs conv = Ok r' ->
  is_image r' /\ same_outside (fun x => exists L, In L Ls /\ lo_span L x) r r' /\
  forall k bk L ss ls, nth_error bks k = Some bk -> nth_error Ls k = Some L -> nth_error sss k = Some ss -> nth_error lss k = Some ls ->
    exists fa, nth_error first_songs (i + k) = Some fa /\ 0xd000 <= fa /\ fa - 0xd000 <= tb_len (lo_base L) /\ length ss = length (songs bk) /\
      2 * Z.of_nat (first + count_songs (firstn k bks) + length (songs bk)) <= fa - 0xd000 /\
      bank_file_for (song_unmoved L fa ls) r' L fa (first + count_songs (firstn k bks)) (songs bk) ss.
Proof.
  intros i first bks Ls sss lss HB. induction HB as [i first|i first fa bk L ss ls bks Ls sss lss Hfa HF HB IH]; intros r r' pa Ea Epa Hr HLs HI H.
  - cbn [write_banks] in H. injection H as <-. split; [exact Hr|]. split; [apply same_outside_refl|].
    intros [|k] bk L ss ls Hk; discriminate.
  - cbn [write_banks] in H. inv_bind H. inv_bind H. inv_bind H. apply or_panic_ok in Ha, Ha0. rename a1 into r1.
    assert (Ead : a = lo_addr L).
    { subst addrs. rewrite nth_error_app2 in Ha by lia. replace (i - length pa)%nat with 0%nat in Ha by lia. cbn in Ha. congruence. }
    subst a. assert (a0 = fa) by (change BANK_FIRST_SONG_ADDRS with first_songs in Ha0; congruence). subst a0.
    assert (Hfa0 : 0xd000 <= fa).
    { clear -Hfa. destruct i as [|[|[|i]]]; cbn in Hfa; try (injection Hfa as <-; lia). destruct i; discriminate. }
    apply Forall_cons_iff in HLs. destruct HLs as [HL HLs]. inversion HI as [|? ? HI1 HI2]; subst.
    destruct (each_bank b verbose bk r L fa first conv r1 ss ls Hr HL Hfa0 HF Ha1) as (W1 & W3 & W4).
    destruct (IH r1 r' (pa ++ [lo_addr L])) as (X1 & X3 & X4).
    { cbn [map]. rewrite <- app_assoc. reflexivity. }
    { rewrite app_length. cbn. lia. }
    { exact W1. }
    { rewrite Forall_forall in *. intros L' HL'. eapply layout_same; [exact Hr|exact W3| |apply HLs; exact HL'].
      intros x Hx. apply (proj1 (HI1 L' HL' x) Hx). }
    { exact HI2. }
    { exact H. }
    assert (HP : forall x, (exists L', In L' Ls /\ lo_span L' x) -> ~ lo_span L x).
    { intros x (L' & HL' & Hx) Hx'. rewrite Forall_forall in HI1. destruct (proj1 (HI1 L' HL' x) Hx'). auto. }
    split; [exact X1|]. split.
    + eapply same_outside_trans; [eapply same_outside_weaken; [|exact W3]|eapply same_outside_weaken; [|exact X3]]; cbv beta.
      * intros x _ Hx. exists L. split; [left; reflexivity|exact Hx].
      * intros x _ (L' & HL' & Hx). exists L'. split; [right; exact HL'|exact Hx].
    + intros [|k] bk' L' ss' ls' Hk1 Hk2 Hk3 Hk4; cbn [nth_error] in Hk1, Hk2, Hk3, Hk4.
      * injection Hk1 as <-. injection Hk2 as <-. injection Hk3 as <-. injection Hk4 as <-. exists fa. rewrite Nat.add_0_r. split; [exact Hfa|]. split; [exact Hfa0|].
        destruct HF as [F1 F5 F2 F3 F4]. cbn [firstn]. replace (first + count_songs [])%nat with first by (cbn; lia). split; [exact F3|]. split; [apply (loaded_lens _ _ _ _ _ F1)|]. split; [exact F2|].
        destruct (layout_fits r L Hr HL) as [HG _]. eapply bank_for_same; [exact X3|exact HG|exact HP|exact F3|exact F2|exact W4].
      * destruct (X4 k bk' L' ss' ls' Hk1 Hk2 Hk3 Hk4) as (fa' & Y1 & Y2 & Y3 & Y0 & Y4 & Y5). exists fa'.
        replace (length pa + S k)%nat with (S (length pa) + k)%nat by lia. cbn [firstn].
        assert (Ec : count_songs (bk :: firstn k bks) = (length (songs bk) + count_songs (firstn k bks))%nat) by reflexivity.
        rewrite Ec, Nat.add_assoc.
        auto 10.
Qed.

Lemma banks_each b verbose conv bks Ls sss lss r r' : banks_short b conv 0 0 bks Ls sss lss -> is_image r -> Forall (layout_ok r) Ls -> ForallOrdPairs separate Ls ->
  write_banks b verbose bks 0 0 r (map lo_addr Ls) conv = Ok r' ->
  same_outside (fun x => exists L, In L Ls /\ lo_span L x) r r' /\
  forall k bk L ss ls, nth_error bks k = Some bk -> nth_error Ls k = Some L -> nth_error sss k = Some ss -> nth_error lss k = Some ls -> lo_in r' L ->
    exists fa, nth_error first_songs k = Some fa /\ bank_in_for (song_unmoved L fa ls) r' L fa (count_songs (firstn k bks)) (songs bk) ss /\
    exists bad, bank_in_for (fun i => i <> bad) r' L fa (count_songs (firstn k bks)) (songs bk) ss.
Proof.
  intros HB Hr HLs HI H. destruct (each_banks b verbose conv _ 0%nat 0%nat bks Ls sss lss HB r r' [] eq_refl eq_refl Hr HLs HI H) as (X1 & X3 & X4).
  split; [exact X3|]. intros k bk L ss ls H1 H2 H3 H4 Hin. destruct (X4 k bk L ss ls H1 H2 H3 H4) as (fa & Y1 & Y2 & Y3 & Y0 & Y4 & Y5). exists fa. split; [exact Y1|].
  assert (HL : layout_ok r L) by (rewrite Forall_forall in HLs; apply HLs; eapply nth_error_In; exact H2).
  assert (K : bank_in_for (song_unmoved L fa ls) r' L fa (count_songs (firstn k bks)) (songs bk) ss).
  { apply bank_each_in; auto. eapply layout_kept; [apply X3|exact HL|exact Hin]. }
  split; [exact K|]. destruct (unmoved_but_one r L fa ls Hr HL) as [bad Hb]. exists bad. eapply for_weaken; [|exact K]. exact Hb.
Qed.

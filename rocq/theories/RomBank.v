(** RomBank.v: writing a whole bank, and reading its songs back from ARAM (C33-C36). *)
From Coq Require Import ZArith List Bool Lia ZifyBool ZifyNat Sorted.
From Verif Require Import Base F32 Command Track Song Paths Manifest Rom SpecNspc SpecRom SpecBank ProofLib CodecProofs RomLib RomProofs.
Ltac Zify.zify_post_hook ::= Z.div_mod_to_equations.
Open Scope Z_scope.

Lemma song_at_same base ovf (P : Z -> Prop) r r' h e lp s at_ qs l :
  same_outside P r r' -> (forall x, h <= x < e -> ~ P x) -> Forall refs_ok l ->
  song_at base ovf r h e lp s at_ qs l -> song_at base ovf r' h e lp s at_ qs l.
Proof.
  intros HS HP HR [A1 A2 A3 A4 A5 A6 A7 A8]. destruct A1 as (B1 & B2 & B3).
  assert (Hhs : header_size lp = 4 \/ header_size lp = 8) by (unfold header_size; destruct lp; auto).
  constructor; auto.
  - eapply bytes_hold_same; [exact HS|lia| | |exact A2]; apply HP; lia.
  - destruct lp; cbn [header_size] in *.
    + destruct A3 as (U1 & U2 & U3). split; [|split]; (eapply bytes_hold_same; [exact HS|lia| | |eassumption]); apply HP; lia.
    + eapply bytes_hold_same; [exact HS|lia| | |exact A3]; apply HP; lia.
  - destruct A4 as (part & E & Hp). exists part. split; [exact E|]. intros k Hk. eapply bytes_hold_same; [exact HS|lia| | |apply Hp; exact Hk]; apply HP; lia.
  - intros k q d Hq Hd. destruct (A8 k q d Hq Hd) as [C1 C2]. destruct (A6 k q d Hq Hd) as (D1 & D2 & D3). unfold data_len in *. split.
    + intros j Hj Hno. rewrite (proj2 HS); [apply C1; assumption|lia|apply HP; lia].
    + intros x Hx. destruct (C2 x Hx) as (ta & E1 & E2). exists ta. split; [exact E1|].
      rewrite Forall_forall in HR. destruct (HR d (nth_error_In _ _ Hd)) as [K7 _]. rewrite Forall_forall in K7. specialize (K7 x Hx).
      eapply bytes_hold_same; [exact HS|lia| | |exact E2]; apply HP; lia.
Qed.

Lemma encodes_refs s l : encodes s l -> Forall refs_ok l.
Proof.
  intros [_ He]. apply Forall_forall. intros d Hd. apply In_nth_error in Hd. destruct Hd as [k Hd]. specialize (He k d Hd). destruct d as [data refs].
  destruct (write_track_refs _ _ _ _ He) as (K1 & K2 & _). split; [exact K1|exact K2].
Qed.
Lemma tracks_end_ge base ovf l : tb_start ovf = payload_end base -> forall p, p <= tracks_end base ovf p l.
Proof.
  intros G. induction l as [|d l IH]; intros p; cbn [tracks_end]; [lia|]. pose proof (place_ge base ovf p (data_len d) G).
  assert (0 <= data_len d) by (unfold data_len; lia). specialize (IH (place base ovf p (data_len d) + data_len d)). lia.
Qed.
Lemma song_end_ge base ovf p lp l : tb_start ovf = payload_end base -> place base ovf p (header_size lp + 16) + 20 <= song_end base ovf p lp l.
Proof.
  intros G. unfold song_end. pose proof (tracks_end_ge base ovf l G (place base ovf p (header_size lp + 16) + (header_size lp + 16))).
  unfold header_size in *. destruct lp; lia.
Qed.

Lemma songs_end_ge base ovf ls : tb_start ovf = payload_end base -> forall p, p <= songs_end base ovf p ls.
Proof.
  intros G. induction ls as [|[lp l] ls IH]; intros p; cbn [songs_end]; [lia|]. pose proof (song_end_ge base ovf p lp l G).
  pose proof (place_ge base ovf p (header_size lp + 16) G). specialize (IH (song_end base ovf p lp l)). lia.
Qed.

Lemma all_songs b verbose base ovf n conv : good_blocks base ovf n -> 0 <= tb_aram ovf -> 24 <= tb_len ovf ->
  forall sds ss ls, loaded b conv sds ss ls -> forall st st' p,
  wcursor base ovf p st -> size (ws_rom st) = n -> songs_stay base ovf p ls ->
  0 <= song_table_addr st -> song_table_addr st + 2 * Z.of_nat (length sds) <= p ->
  ofold (write_song_def b verbose (blocks_of base ovf) conv) sds st = Ok st' ->
  let e := songs_end base ovf p ls in
  wcursor base ovf e st' /\ song_table_addr st' = song_table_addr st + 2 * Z.of_nat (length sds) /\
  same_outside (fun x => song_table_addr st <= x < song_table_addr st + 2 * Z.of_nat (length sds) \/ free base ovf p e x) (ws_rom st) (ws_rom st') /\
  forall k sd s, nth_error sds k = Some sd -> nth_error ss k = Some s ->
    exists h e' at_ qs l, p <= h /\ e' <= e /\ encodes s l /\ song_at base ovf (ws_rom st') h e' (loops sd) s at_ qs l /\
      bytes_hold (ws_rom st') (song_table_addr st + 2 * Z.of_nat k) (aram_of base ovf h).
Proof.
  intros HG Hov H24 sds ss ls HLd. pose proof HG as (_ & _ & G3 & _).
  induction HLd as [|sd s l sds ss ls Hld (Henc & Hpart & _) HLd IH]; intros st st' p Hw Hn Hstay Ht0 Ht H.
  - cbn [ofold] in H. injection H as <-. cbv zeta. cbn [songs_end length]. split; [exact Hw|]. split; [lia|]. split; [apply same_outside_refl|].
    intros [|k] sd s Hk; discriminate.
  - cbn [ofold] in H. inv_bind H. rename a into st1. unfold write_song_def in Ha. inv_bind Ha. inv_bind Ha. 
    assert (Es : a0 = s) by (unfold load_song in Ha1; destruct (input sd); rewrite Hld in Ha1; congruence). subst a0.
    cbn [songs_stay] in Hstay. destruct Hstay as [Hst1 Hstay]. cbn [length] in Ht.
    pose proof (one_song b verbose base ovf n st (loops sd) s st1 p l HG Hw Hn Hov H24 Henc Hpart Hst1 Ht0 ltac:(lia) Ha) as (W1 & W2 & W3 & W4 & W5 & at_ & qs & W6).
    set (h := place base ovf p (header_size (loops sd) + 16)) in *. set (e1 := song_end base ovf p (loops sd) l) in *.
    pose proof (song_end_ge base ovf p (loops sd) l G3) as He1. fold h e1 in He1.
    assert (Hp0 : 0 <= p) by lia.
    destruct (IH st1 st' e1 W2) as (X1 & X2 & X3 & X4).
    { rewrite (same_size _ _ _ W4). exact Hn. }
    { exact Hstay. }
    { rewrite W3. lia. }
    { rewrite W3. lia. }
    { exact H. }
    cbv zeta. cbn [songs_end]. fold e1. set (e := songs_end base ovf e1 ls) in *.
    pose proof (songs_end_ge base ovf ls G3 e1) as Hee. fold e in Hee.
    split; [exact X1|]. split; [rewrite X2, W3; cbn [length]; lia|]. split.
    + eapply same_outside_trans; [eapply same_outside_weaken; [|exact W4]|eapply same_outside_weaken; [|exact X3]]; cbv beta; unfold free; rewrite ?W3; cbn [length].
      * intros x _ [Hx|[Hx Hd]]; [left; lia|right; split; [lia|exact Hd]].
      * intros x _ [Hx|[Hx Hd]]; [left; lia|right; split; [lia|exact Hd]].
    + intros [|k] sd' s' Hsd Hs; cbn [nth_error] in Hsd, Hs.
      * injection Hsd as <-. injection Hs as <-. exists h, e1, at_, qs, l. split; [exact W1|]. split; [exact Hee|]. split; [exact Henc|].
        destruct W6 as [A1 A2 A3 A4 A5 A6 A7 A8] eqn:EW. clear EW. split.
        -- eapply song_at_same; [exact X3| |apply (encodes_refs s); exact Henc|constructor; eassumption].
           cbv beta. unfold free. rewrite W3. intros x Hx. cbn [length] in *. lia.
        -- replace (song_table_addr st + 2 * Z.of_nat 0) with (song_table_addr st) by lia.
           eapply bytes_hold_same; [exact X3|exact Ht0| | |exact W5]; cbv beta; unfold free; rewrite W3; lia.
      * destruct (X4 k sd' s' Hsd Hs) as (h' & e' & at' & qs' & l' & Y1 & Y2 & Y3 & Y4 & Y5). exists h', e', at', qs', l'.
        split; [lia|]. split; [exact Y2|]. split; [exact Y3|]. split; [exact Y4|]. rewrite W3 in Y5.
        replace (song_table_addr st + 2 * Z.of_nat (S k)) with (song_table_addr st + 2 + 2 * Z.of_nat k) by lia. exact Y5.
Qed.

(** ** From file addresses to ARAM *)
Definition aram_fits (base ovf : tblock) : Prop :=
  0 <= tb_aram ovf /\ tb_aram base + tb_len base <= 65536 /\ tb_aram ovf + tb_len ovf <= 65536.
Definition reads (base ovf : tblock) (r : list Z) (mem : Z -> option Z) : Prop :=
  forall x, in_data base ovf x -> mem (aram_of base ovf x) = Some (byte r x).

Lemma aram_of_run base ovf n q m : good_blocks base ovf n -> (forall x, q <= x < q + m -> in_data base ovf x) ->
  forall j, 0 <= j < m -> aram_of base ovf (q + j) = aram_of base ovf q + j.
Proof.
  intros (G1 & G2 & G3 & G4 & G5 & G6 & G7) H j Hj. unfold aram_of.
  destruct (Z.ltb_spec (q + j) (payload_end base)); destruct (Z.ltb_spec q (payload_end base)); try lia.
  exfalso. specialize (H (payload_end base) ltac:(lia)). unfold in_data, in_payload, payload, payload_end in *. lia.
Qed.
Lemma aram_of_range base ovf n x : good_blocks base ovf n -> aram_fits base ovf -> in_data base ovf x -> 0 <= aram_of base ovf x < 65536.
Proof.
  intros (G1 & G2 & G3 & G4 & G5 & G6 & G7) (F1 & F2 & F3) H. unfold aram_of, in_data, in_payload, payload, payload_end in *.
  destruct (Z.ltb_spec x (tb_start base + 4 + tb_len base)); lia.
Qed.
Lemma holds_of base ovf r mem q m w j : (forall x, q <= x < q + m -> in_data base ovf x) -> reads base ovf r mem ->
  (forall j, 0 <= j < m -> aram_of base ovf (q + j) = aram_of base ovf q + j) ->
  0 <= j -> j + 2 <= m -> 0 <= w < 65536 -> bytes_hold r (q + j) w -> holds mem (aram_of base ovf q + j) w.
Proof.
  intros Hd Hm Hrun H1 H2 Hw [E1 E2]. split; [|split; [|exact Hw]].
  - rewrite <- Hrun by lia. rewrite Hm by (apply Hd; lia). rewrite E1. reflexivity.
  - replace (aram_of base ovf q + j + 1) with (aram_of base ovf q + (j + 1)) by lia. rewrite <- Hrun by lia. rewrite Hm by (apply Hd; lia).
    replace (q + (j + 1)) with (q + j + 1) by lia. rewrite E2. f_equal. lia.
Qed.

Lemma song_at_in base ovf n r mem h e lp s at_ qs l :
  good_blocks base ovf n -> aram_fits base ovf -> reads base ovf r mem -> encodes s l ->
  song_at base ovf r h e lp s at_ qs l -> song_in mem (aram_of base ovf h) lp s at_ /\ 0 <= aram_of base ovf h < 65536.
Proof.
  intros HG HA Hm Henc [A1 A2 A3 A4 A5 A6 A7 A8]. destruct A1 as (B1 & B2 & B3).
  set (m := header_size lp + 16) in *.
  assert (Hhs : header_size lp = 4 \/ header_size lp = 8) by (unfold header_size; destruct lp; auto).
  assert (Hmm : m = 20 \/ m = 24) by (unfold m; lia).
  pose proof (aram_of_run base ovf n h m HG B3) as Hrun.
  assert (Hr0 : 0 <= aram_of base ovf h < 65536) by (eapply aram_of_range; eauto; apply B3; lia).
  assert (Hr1 : aram_of base ovf h + header_size lp < 65536).
  { rewrite <- Hrun by lia. eapply aram_of_range; eauto. apply B3. lia. }
  assert (Hat : forall k, 0 <= nth k at_ 0 < 65536).
  { intros k. destruct (nth_error at_ k) as [a|] eqn:E.
    - rewrite (nth_error_nth _ _ 0 E). assert (Hk : (k < length l)%nat) by (apply nth_error_lt in E; lia).
      destruct (nth_error l k) as [d|] eqn:Ed; [|apply nth_error_None in Ed; lia].
      destruct (nth_error qs k) as [q|] eqn:Eq; [|apply nth_error_None in Eq; lia].
      rewrite (A7 k q d Eq Ed) in E. injection E as <-. unfold addr_of. destruct (fst d) eqn:Ef; [lia|].
      eapply aram_of_range; eauto. apply (A6 k q d Eq Ed). unfold data_len. rewrite Ef. cbn [length]. lia.
    - apply nth_error_None in E. rewrite nth_overflow by exact E. lia. }
  split; [|exact Hr0]. destruct Henc as [HeL He]. constructor.
  - replace (aram_of base ovf h) with (aram_of base ovf h + 0) at 1 by lia. eapply holds_of; try eassumption; try lia.
    replace (h + 0) with h by lia. exact A2.
  - destruct lp; cbn [header_size] in *.
    + destruct A3 as (U1 & U2 & U3). split; [|split]; eapply holds_of; try eassumption; lia.
    + eapply holds_of; try eassumption; lia.
  - lia.
  - destruct A4 as (part & E & Hp). exists part. split; [exact E|]. intros k Hk.
    replace (aram_of base ovf h + header_size lp + 2 * Z.of_nat k) with (aram_of base ovf h + (header_size lp + 2 * Z.of_nat k)) by lia.
    eapply holds_of; try eassumption; try (unfold m; lia).
    + destruct (nth_error part k); [apply Hat|lia].
    + rewrite Z.add_assoc. apply Hp. exact Hk.
  - intros i Hi. destruct (nth_error l i) as [[data refs]|] eqn:Ed; [|apply nth_error_None in Ed; lia].
    destruct (nth_error qs i) as [q|] eqn:Eq; [|apply nth_error_None in Eq; lia].
    exists data, refs. split; [apply He; exact Ed|]. exists (addr_of base ovf q (data, refs)). split; [apply A7; assumption|].
    destruct (write_track_refs _ _ _ _ (He i _ Ed)) as (K1 & K2 & K3).
    destruct (A6 i q _ Eq Ed) as (D1 & D2 & D3). destruct (A8 i q _ Eq Ed) as [C1 C2]. unfold data_len in *. cbn [fst snd] in *.
    pose proof (aram_of_run base ovf n q _ HG D3) as Hrun'.
    split; [intros ->; reflexivity|]. split.
    + intros j Hj Hno. unfold addr_of. cbn [fst]. destruct data as [|d0 data]; [cbn in Hj; lia|].
      rewrite <- Hrun' by lia. rewrite Hm by (apply D3; lia). f_equal. apply C1; assumption.
    + intros x Hx. destruct (C2 x Hx) as (ta & E1 & E2). exists ta. split; [exact E1|].
      rewrite Forall_forall in K1. specialize (K1 x Hx). unfold addr_of. cbn [fst]. destruct data as [|d0 data]; [cbn in K1; lia|].
      eapply holds_of; try eassumption; try lia. rewrite <- (nth_error_nth _ _ 0 E1). apply Hat.
Qed.

(** ** A whole bank *)
Lemma write_bank_ok b verbose bk r base_addr fa first conv r' base ovf n ss ls :
  find_blocks b r base_addr = Ok (blocks_of base ovf) -> good_blocks base ovf n -> size r = n -> 0 <= tb_aram ovf -> 24 <= tb_len ovf ->
  0xd000 <= fa -> fa - 0xd000 <= tb_len base -> 2 * Z.of_nat (first + length (songs bk)) <= fa - 0xd000 ->
  loaded b conv (songs bk) ss ls -> songs_stay base ovf (payload base + (fa - 0xd000)) ls ->
  write_bank b verbose bk r base_addr fa first conv = Ok r' ->
  let p := payload base + (fa - 0xd000) in
  same_outside (fun x => in_data base ovf x /\ payload base + 2 * Z.of_nat first <= x) r r' /\
  (forall k sd s, nth_error (songs bk) k = Some sd -> nth_error ss k = Some s ->
    exists h e at_ qs l, p <= h /\ e <= payload_end ovf /\ encodes s l /\ song_at base ovf r' h e (loops sd) s at_ qs l /\
      bytes_hold r' (payload base + 2 * Z.of_nat (first + k)) (aram_of base ovf h)) /\
  (forall x, payload base + 2 * Z.of_nat (first + length (songs bk)) <= x < p -> byte r' x = 0).
Proof.
  intros Hf HG Hn Hov H24 Hfa Hfl Htab HL Hstay H p. unfold write_bank in H. rewrite Hf in H. cbn [bind] in H. inv_bind H. rename a into st.
  pose proof HG as (G1 & G2 & G3 & G4 & G5 & G6 & G7).
  set (st0 := wstate_init r (blocks_of base ovf) fa first) in *.
  assert (Hpp : p = payload base + (fa - 53248)) by reflexivity.
  assert (Hw : wcursor base ovf p st0).
  { unfold wcursor, st0, wstate_init. cbn [rom_addr chunk_length aram_base_addr song_offset blocks_of base_chunk_addr base_chunk_len]. unfold ARAM_BASE.
    replace (fa - 53248) with (p - payload base) by (unfold p; lia). clearbody p. rewrite <- G6. apply cursor_base. unfold payload, payload_end in *. lia. }
  assert (Hta : song_table_addr st0 = payload base + 2 * Z.of_nat first).
  { unfold st0, wstate_init. cbn [song_table_addr blocks_of base_chunk_addr]. lia. }
  destruct (all_songs b verbose base ovf n conv HG Hov H24 _ _ _ HL st0 st p Hw) as (X1 & X2 & X3 & X4); auto.
  { rewrite Hta. unfold payload in *. lia. }
  { rewrite Hta. unfold p. lia. }
  unfold clear_table in H. set (from := song_table_addr st) in *. unfold blocks_of in H. cbn [base_chunk_addr] in H. unfold ARAM_BASE in H.
  replace (payload base + fa - 53248) with p in H by (unfold p; lia).
  assert (Hfrom : from = payload base + 2 * Z.of_nat (first + length (songs bk))) by (rewrite X2, Hta; lia).
  assert (HZ : Forall (fun av => 0 <= fst av) (zero_range from (Z.to_nat (p - from)))).
  { apply Forall_forall. intros x Hx. unfold zero_range in Hx. apply in_map_iff in Hx. destruct Hx as (i & <- & _). cbn. rewrite Hfrom. unfold payload. lia. }
  destruct (wr_all_ok _ _ _ HZ H) as (_ & ZL & ZB).
  assert (HS : same_outside (fun x => from <= x < p) (ws_rom st) r').
  { split; [exact ZL|]. intros x Hx Hout. rewrite ZB, zero_range_spec by exact Hx. destruct (_ && _) eqn:E; [lia|reflexivity]. }
  cbn [ws_rom] in X3. change (ws_rom st0) with r in X3. rewrite Hta in *.
  split; [|split].
  - eapply same_outside_trans; [eapply same_outside_weaken; [|exact X3]|eapply same_outside_weaken; [|exact HS]]; cbv beta.
    + intros x Hx [Hx'|[Hx' Hd]]; (split; [|unfold p in *; lia]).
      * left. unfold in_payload, payload, payload_end, p in *. lia.
      * exact Hd.
    + intros x Hx Hx'. split; [|lia]. left. unfold in_payload, payload, payload_end, p in *. lia.
  - intros k sd s Hk Hs. destruct (X4 k sd s Hk Hs) as (h & e' & at_ & qs & l & Y1 & Y2 & Y3 & Y4 & Y5). exists h, e', at_, qs, l.
    split; [exact Y1|]. split.
    { unfold wcursor in X1. inversion X1 as [pp Hp E0 E1 E2 E3 E4|pp Hp E0 E1 E2 E3 E4]; unfold payload, payload_end in *; lia. }
    split; [exact Y3|]. split.
    + eapply song_at_same; [exact HS| |apply (encodes_refs s); exact Y3|exact Y4]. cbv beta. lia.
    + apply nth_error_lt in Hk. replace (payload base + 2 * Z.of_nat (first + k)) with (payload base + 2 * Z.of_nat first + 2 * Z.of_nat k) by lia.
      eapply bytes_hold_same; [exact HS|unfold payload in *; lia| | |exact Y5]; cbv beta; lia.
  - intros x Hx. rewrite ZB, zero_range_spec by (unfold payload in *; lia). destruct (_ && _) eqn:E; [reflexivity|lia].
Qed.

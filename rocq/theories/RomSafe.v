(** RomSafe.v: writing songs whose tracks are not longer than the overflow block never crashes (C76). *)
From Coq Require Import ZArith List Bool Lia ZifyBool ZifyNat.
From Verif Require Import SpecPath PathProofs.
From Verif Require Import Base F32 Command Track Song Paths Manifest Rom SpecNspc SpecRom SpecBank SpecSafe ProofLib CodecProofs RomLib RomProofs RomBank RomChain RomBanks RomTotal.
Ltac Zify.zify_post_hook ::= Z.div_mod_to_equations.
Open Scope Z_scope.

(** ** One track *)
(** From [lo] to the end of the overflow block. *)
Definition span (lo : Z) (ovf : tblock) (x : Z) : Prop := lo <= x < payload_end ovf.
Definition inside (lo : Z) (ovf : tblock) (t : nat) (x : rom_ref) : Prop :=
  lo <= ref_addr x /\ ref_addr x + 2 <= payload_end ovf /\ (rr_target x < t)%nat.

Lemma splice_span lo ovf r a data r' : 0 <= lo -> lo <= a -> a + Z.of_nat (length data) <= payload_end ovf ->
  splice r a data = Ok r' -> same_outside (span lo ovf) r r'.
Proof.
  intros H0 H1 H2 H. destruct (splice_ok r a data r' ltac:(lia) H) as (_ & HL & Hb & _). split; [exact HL|]. intros x Hx Hout. apply Hb; [exact Hx|].
  unfold span in Hout. lia.
Qed.

Lemma track_ends b verbose base ovf n s o st i p data refs t lo : 0 <= lo <= p ->
  good_blocks base ovf n -> tb_len base < 2 ^ 64 -> kcursor base ovf p st -> size (ks_rom st) = n -> 0 <= o -> (p <= payload_end base -> o <= tb_len base) ->
  write_track s [] i [] = Ok (data, refs) -> Z.of_nat (length data) <= tb_len ovf ->
  Forall (fun x => (target_track x < t)%nat) refs -> Forall (inside lo ovf t) (call_loops st) ->
  let e := place base ovf p (Z.of_nat (length data)) + Z.of_nat (length data) in
  if e <=? payload_end ovf then exists st', write_one_track b verbose (blocks_of base ovf) o s st i = Ok st' /\
    kcursor base ovf e st' /\ p <= e /\ same_outside (span lo ovf) (ks_rom st) (ks_rom st') /\
    length (track_addrs st') = S (length (track_addrs st)) /\ Forall (inside lo ovf t) (call_loops st')
  else write_one_track b verbose (blocks_of base ovf) o s st i = Err EDoesNotFit.
Proof.
  intros Hlo (G1 & G2 & G3 & G4 & G5 & G6 & G7) Hl Hk Hn Ho0 Ho Hw Hs Ht HI. cbv zeta.
  destruct (write_track_refs _ _ _ _ Hw) as (Hpos & _ & Hnil).
  unfold write_one_track. cbn zeta. rewrite Hw. cbn [bind]. cbn zeta.
  set (len := Z.of_nat (length data)) in *. unfold kcursor in Hk. assert (Hl0 : 0 <= len) by (unfold len; lia).
  assert (Hsp : forall q, lo <= q -> q + len <= payload_end ovf -> exists r, splice (ks_rom st) q data = Ok r /\ same_outside (span lo ovf) (ks_rom st) r).
  { intros q Hq1 Hq2. destruct (splice_total (ks_rom st) q data) as [r E]; [unfold payload in *; lia|rewrite Hn; fold len; lia|]. exists r. split; [exact E|].
    eapply splice_span; [| |unfold len in *; exact Hq2|exact E]; unfold payload in *; lia. }
  assert (Hrf : forall q, lo <= q -> q + len <= payload_end ovf ->
    Forall (inside lo ovf t) (map (fun x => mk_rom_ref (target_track x) q (ref_pos x)) refs)).
  { intros q Hq1 Hq2. apply Forall_forall. intros x Hx. apply in_map_iff in Hx. destruct Hx as (y & <- & Hy). rewrite Forall_forall in Hpos, Ht.
    specialize (Hpos y Hy). specialize (Ht y Hy). unfold inside, ref_addr. cbn. unfold len in *. lia. }
  inversion Hk as [p' Hp E0 E1 E2 E3 E4|p' Hp E0 E1 E2 E3 E4]; subst p'; cbn [aram_overflow_base blocks_of].
  - destruct (Z.ltb_spec (tb_len base) (p - payload base + len)) as [Hlt|Hle].
    + rewrite G6. destruct (Z.eqb_spec 53248 (tb_aram ovf)); [congruence|].
      destruct (verbose_total b verbose (tb_len base) o) as [u ->]; [specialize (Ho ltac:(unfold payload, payload_end in *; lia)); unfold payload, payload_end in *; lia|].
      cbn [bind ks_rom ks_rom_addr track_data_offset overflow_chunk_addr overflow_chunk_len blocks_of ks_chunk_length ks_aram_base track_addrs call_loops base_chunk_addr].
      rewrite (place_switch base ovf p len) by (unfold payload, payload_end in *; lia).
      destruct (Z.leb_spec (payload ovf + len) (payload_end ovf)) as [Hfit|]; [|unfold payload, payload_end in *; lia].
      destruct (Z.ltb_spec 0 len); [|unfold payload, payload_end in *; lia].
      destruct (Hsp (payload ovf + 0)) as (r & E & Hr); [unfold payload, payload_end in *; lia|unfold payload, payload_end in *; lia|]. rewrite E. cbn [bind].
      eexists. split; [reflexivity|]. unfold kcursor. cbn [ks_rom ks_rom_addr track_data_offset ks_chunk_length ks_aram_base track_addrs call_loops].
      split; [replace (0 + len) with (payload ovf + len - payload ovf) by lia; apply cursor_ovf; unfold payload, payload_end in *; lia|].
      split; [unfold payload, payload_end in *; lia|]. split; [exact Hr|]. split; [rewrite app_length; cbn [length]; lia|].
      apply Forall_app. split; [exact HI|]. cbn [map]. rewrite app_nil_r. replace (payload base + (p - payload base)) with p by lia. apply Hrf; unfold payload, payload_end in *; lia.
    + rewrite (place_base base ovf p len) by (unfold payload, payload_end in *; lia).
      destruct (Z.leb_spec (p + len) (payload_end ovf)) as [Hfit|]; [|unfold payload, payload_end in *; lia].
      cbn [bind map app]. destruct (Z.ltb_spec 0 len) as [H0|H0].
      * rewrite <- E1, <- E2, <- E3, <- E4. destruct (Hsp (payload base + (p - payload base))) as (r & E & Hr); [unfold payload, payload_end in *; lia|unfold payload, payload_end in *; lia|]. rewrite E. cbn [bind].
        eexists. split; [reflexivity|]. unfold kcursor. cbn [ks_rom ks_rom_addr track_data_offset ks_chunk_length ks_aram_base track_addrs call_loops].
        split; [replace (p - payload base + len) with (p + len - payload base) by lia; apply cursor_base; unfold payload, payload_end in *; lia|].
        split; [lia|]. split; [exact Hr|]. split; [rewrite app_length; cbn [length]; lia|].
        apply Forall_app. split; [exact HI|]. apply Hrf; unfold payload, payload_end in *; lia.
      * eexists. split; [reflexivity|]. unfold kcursor. cbn [ks_rom ks_rom_addr track_data_offset ks_chunk_length ks_aram_base track_addrs call_loops].
        replace (p + len) with p by lia. split; [exact Hk|]. split; [lia|]. split; [apply same_outside_refl|]. split; [rewrite app_length; cbn [length]; lia|exact HI].
  - rewrite (place_ovf base ovf p len) by (unfold payload, payload_end in *; lia).
    destruct (Z.ltb_spec (tb_len ovf) (p - payload ovf + len)) as [Hlt|Hle].
    + rewrite Z.eqb_refl. destruct (Z.leb_spec (p + len) (payload_end ovf)); [unfold payload, payload_end in *; lia|]. reflexivity.
    + destruct (Z.leb_spec (p + len) (payload_end ovf)) as [Hfit|]; [|unfold payload, payload_end in *; lia].
      cbn [bind map app]. destruct (Z.ltb_spec 0 len) as [H0|H0].
      * rewrite <- E1, <- E2, <- E3, <- E4. destruct (Hsp (payload ovf + (p - payload ovf))) as (r & E & Hr); [unfold payload, payload_end in *; lia|unfold payload, payload_end in *; lia|]. rewrite E. cbn [bind].
        eexists. split; [reflexivity|]. unfold kcursor. cbn [ks_rom ks_rom_addr track_data_offset ks_chunk_length ks_aram_base track_addrs call_loops].
        split; [replace (p - payload ovf + len) with (p + len - payload ovf) by lia; apply cursor_ovf; unfold payload, payload_end in *; lia|].
        split; [lia|]. split; [exact Hr|]. split; [rewrite app_length; cbn [length]; lia|].
        apply Forall_app. split; [exact HI|]. apply Hrf; unfold payload, payload_end in *; lia.
      * eexists. split; [reflexivity|]. unfold kcursor. cbn [ks_rom ks_rom_addr track_data_offset ks_chunk_length ks_aram_base track_addrs call_loops].
        replace (p + len) with p by lia. split; [exact Hk|]. split; [lia|]. split; [apply same_outside_refl|]. split; [rewrite app_length; cbn [length]; lia|exact HI].
Qed.

Lemma tracks_ends b verbose base ovf n s o t l lo : 0 <= lo -> forall i st p, lo <= p ->
  good_blocks base ovf n -> tb_len base < 2 ^ 64 -> kcursor base ovf p st -> size (ks_rom st) = n -> 0 <= o -> (p <= payload_end base -> o <= tb_len base) ->
  (forall k d, nth_error l k = Some d -> write_track s [] (i + k) [] = Ok d) ->
  Forall (fun d => data_len d <= tb_len ovf) l -> Forall (fun d => Forall (fun x => (target_track x < t)%nat) (snd d)) l -> Forall (inside lo ovf t) (call_loops st) ->
  if tracks_end base ovf p l <=? payload_end ovf then exists st', ofold (write_one_track b verbose (blocks_of base ovf) o s) (seq i (length l)) st = Ok st' /\
    kcursor base ovf (tracks_end base ovf p l) st' /\ same_outside (span lo ovf) (ks_rom st) (ks_rom st') /\
    length (track_addrs st') = (length (track_addrs st) + length l)%nat /\ Forall (inside lo ovf t) (call_loops st')
  else ofold (write_one_track b verbose (blocks_of base ovf) o s) (seq i (length l)) st = Err EDoesNotFit.
Proof.
  intros Hlo. induction l as [|[data refs] l IH]; intros i st p Hlp HG Hl Hk Hn Ho0 Ho Hw Hs Ht HI; cbn [length seq ofold].
  - cbn [tracks_end]. destruct (Z.leb_spec p (payload_end ovf)) as [|Hlt].
    + eexists. split; [reflexivity|]. split; [exact Hk|]. split; [apply same_outside_refl|]. split; [lia|exact HI].
    + exfalso. pose proof HG as (G1 & G2 & G3 & G4 & _). unfold kcursor in Hk. inversion Hk; unfold payload, payload_end in *; lia.
  - cbn [tracks_end]. pose proof (Hw O _ eq_refl) as Hw0. rewrite Nat.add_0_r in Hw0. inversion Hs as [|? ? S1 S2]; subst. inversion Ht as [|? ? T1 T2]; subst.
    change (data_len (data, refs)) with (Z.of_nat (length data)) in *. cbn [snd] in T1. pose proof HG as (_ & _ & G3 & _).
    pose proof (track_ends b verbose base ovf _ s o st i p data refs t lo (conj Hlo Hlp) HG Hl Hk eq_refl Ho0 Ho Hw0 S1 T1 HI) as K. cbv zeta in K.
    set (e := place base ovf p (Z.of_nat (length data)) + Z.of_nat (length data)) in *. pose proof (tracks_end_ge base ovf l G3 e) as Hge.
    destruct (Z.leb_spec e (payload_end ovf)) as [Hfit|Hno].
    + destruct K as (st1 & E & K1 & K2 & K3 & K4 & K5). rewrite E. cbn [bind].
      specialize (IH (S i) st1 e ltac:(lia) HG Hl K1). rewrite (same_size _ _ _ K3) in IH. specialize (IH eq_refl Ho0 ltac:(intros; apply Ho; lia)).
      specialize (IH ltac:(intros k d Hd; replace (S i + k)%nat with (i + S k)%nat by lia; apply Hw; exact Hd) S2 T2 K5).
      destruct (tracks_end base ovf e l <=? payload_end ovf); [|exact IH]. destruct IH as (st' & E' & I1 & I2 & I3 & I4). exists st'. split; [exact E'|]. split; [exact I1|].
      split; [eapply same_outside_trans; eassumption|]. split; [lia|exact I4].
    + destruct (Z.leb_spec (tracks_end base ovf e l) (payload_end ovf)); [lia|]. rewrite K. reflexivity.
Qed.

(** ** One song *)
Lemma reserve_ends b verbose base ovf n lp st p : good_blocks base ovf n -> tb_len base < 2 ^ 64 -> 24 <= tb_len ovf -> wcursor base ovf p st ->
  payload_end ovf < place base ovf p (header_size lp + 16) + (header_size lp + 16) ->
  reserve_header b verbose (blocks_of base ovf) lp st = Err EDoesNotFit.
Proof.
  intros (G1 & G2 & G3 & G4 & G5 & G6 & G7) Hl H24 Hw He. unfold reserve_header. cbn [aram_overflow_base blocks_of].
  change (if lp then 8 else 4) with (header_size lp). set (m := header_size lp + 16) in *. assert (Hm : 20 <= m <= 24) by (unfold m, header_size; destruct lp; lia).
  replace (song_offset st + header_size lp + 16) with (song_offset st + m) by (unfold m; lia).
  unfold wcursor in Hw. inversion Hw as [p' Hp E0 E1 E2 E3 E4|p' Hp E0 E1 E2 E3 E4]; subst p'.
  - exfalso. destruct (Z.ltb_spec (tb_len base) (p - payload base + m)) as [Hlt|Hle].
    + rewrite (place_switch base ovf p m) in He by (unfold payload, payload_end in *; lia). unfold payload, payload_end in *. lia.
    + rewrite (place_base base ovf p m) in He by (unfold payload, payload_end in *; lia). unfold payload, payload_end in *. lia.
  - rewrite (place_ovf base ovf p m) in He by (unfold payload, payload_end in *; lia).
    destruct (Z.ltb_spec (tb_len ovf) (p - payload ovf + m)) as [Hlt|Hle]; [|unfold payload, payload_end in *; lia]. rewrite Z.eqb_refl. reflexivity.
Qed.
Lemma wr_all_span lo ovf l r r' : 0 <= lo -> Forall (fun av => lo <= fst av < payload_end ovf) l -> wr_all r l = Ok r' -> same_outside (span lo ovf) r r'.
Proof.
  intros H0 HF H. destruct (wr_all_ok l r r') as (_ & HL & Hb); [eapply Forall_impl; [|exact HF]; cbv beta; intros; lia|exact H|]. split; [exact HL|].
  intros x Hx Hout. rewrite Hb by exact Hx. apply last_write_none. eapply Forall_impl; [|exact HF]. cbv beta. intros av Hav E. apply Hout. unfold span. lia.
Qed.
Lemma zero_span lo ovf a n r r' : 0 <= lo -> lo <= a -> a + Z.of_nat n <= payload_end ovf -> wr_all r (zero_range a n) = Ok r' -> same_outside (span lo ovf) r r'.
Proof.
  intros H0 H1 H2 H. eapply wr_all_span; [exact H0| |exact H]. apply Forall_forall. intros x Hx. unfold zero_range in Hx. apply in_map_iff in Hx. destruct Hx as (i & <- & Hi).
  apply in_seq in Hi. cbn. lia.
Qed.
Lemma part_span lo ovf addrs part : 0 <= lo -> forall r a r', lo <= a -> a + 2 * Z.of_nat (length part) <= payload_end ovf ->
  write_part r a addrs part = Ok r' -> same_outside (span lo ovf) r r'.
Proof.
  intros H0. induction part as [|ti part IH]; intros r a r' H1 H2 H; cbn [write_part] in H; [injection H as <-; apply same_outside_refl|]. cbn [length] in H2.
  inv_bind H. destruct (addr_to_bytes a0) as [h l]. inv_bind H. eapply same_outside_trans; [|eapply (IH a1 (a + 2)); [lia|lia|exact H]].
  eapply wr_all_span; [exact H0| |exact Ha0]. repeat (constructor; [cbn; lia|]). constructor.
Qed.
Lemma patch_span lo ovf t addrs l : 0 <= lo -> Forall (inside lo ovf t) l -> forall r r', ofold (patch_loop addrs) l r = Ok r' -> same_outside (span lo ovf) r r'.
Proof.
  intros H0 HF. induction HF as [|x l Hx _ IH]; intros r r' H; cbn [ofold] in H; [injection H as <-; apply same_outside_refl|]. inv_bind H.
  eapply same_outside_trans; [|exact (IH _ _ H)]. unfold patch_loop in Ha. cbv zeta in Ha. inv_bind Ha. destruct (addr_to_bytes a0) as [hb lb].
  change (rr_chunk_base x + Z.of_nat (rr_ref_pos x)) with (ref_addr x) in Ha. destruct Hx as (X1 & X2 & _).
  eapply wr_all_span; [exact H0| |exact Ha]. repeat (constructor; [cbn; lia|]). constructor.
Qed.

Lemma song_ends b verbose base ovf n st lp s p l :
  good_blocks base ovf n -> tb_len base < 2 ^ 64 -> 0 <= tb_aram ovf -> wcursor base ovf p st -> size (ws_rom st) = n ->
  24 <= tb_len ovf -> encodes s l ->
  (forall part, nth_error (parts s) 0 = Some part -> (length part <= 8)%nat) -> song_closed s l -> Forall (fun d => data_len d <= tb_len ovf) l ->
  0 <= song_table_addr st -> song_table_addr st + 2 <= p ->
  if song_end base ovf p lp l <=? payload_end ovf then exists st', write_song b verbose (blocks_of base ovf) st lp s = Ok st' /\
    wcursor base ovf (song_end base ovf p lp l) st' /\ song_table_addr st' = song_table_addr st + 2 /\
    same_outside (fun x => song_table_addr st <= x < song_table_addr st + 2 \/ span p ovf x) (ws_rom st) (ws_rom st') /\
    bytes_hold (ws_rom st') (song_table_addr st) (aram_of base ovf (place base ovf p (header_size lp + 16)))
  else write_song b verbose (blocks_of base ovf) st lp s = Err EDoesNotFit.
Proof.
  intros HG Hl Hov Hw Hn H24 [HeL He] Hpart ((part & Hpt & Hcl) & Hrl) Hsh Hta0 Hta.
  unfold write_song. set (m := header_size lp + 16) in *. assert (Hm : 20 <= m <= 24) by (unfold m, header_size; destruct lp; lia).
  destruct (HG) as (G1 & G2 & G3 & G4 & G5 & G6 & G7).
  unfold song_end in *. fold m.
  pose proof (tracks_end_ge base ovf l G3 (place base ovf p m + m)) as Hge.
  destruct (Z.le_gt_cases (place base ovf p m + m) (payload_end ovf)) as [Hfit|Hno].
  2:{ rewrite (reserve_ends b verbose base ovf n lp st p HG Hl H24 Hw) by (fold m; lia). cbn [bind].
      destruct (Z.leb_spec (tracks_end base ovf (place base ovf p m + m) l) (payload_end ovf)); [lia|reflexivity]. }
  destruct (reserve_total b verbose base ovf n lp st p HG Hl Hw) as [st1 Ha]; [fold m; lia|]. rewrite Ha. cbn [bind].
  destruct (reserve_ok _ _ _ _ n _ _ _ _ HG Hw H24 Ha) as (R1 & R2 & R3 & R4 & R5 & R6 & R7 & R8). fold m in R1, R2, R5, R6, R7, R8.
  set (h := place base ovf p m) in *. cbv zeta. change (if lp then 8 else 4) with (header_size lp). rewrite R4, R3.
  assert (Hb0 : 0 <= p) by lia. assert (Hph : p <= h) by exact R1.
  assert (Hhs : header_size lp = 4 \/ header_size lp = 8) by (unfold header_size; destruct lp; auto).
  destruct (header_total (ws_rom st) (rom_addr st1) (song_offset st1) (aram_base_addr st1) (song_table_addr st) lp) as [r1 Ea]; [lia|lia|lia|unfold m in *; lia|].
  rewrite Ea. cbn [bind].
  assert (Hab : 0 <= aram_base_addr st1 + song_offset st1) by (unfold wcursor in R2; inversion R2; unfold payload, payload_end in *; lia).
  destruct (header_ok (ws_rom st) (rom_addr st1) (song_offset st1) (aram_base_addr st1) (song_table_addr st) lp r1 Hta0 ltac:(lia) Hab Ea) as (Hs1 & Hb1 & _). rewrite R7, R8 in *.
  assert (Hlen : get_num_tracks s = length l) by (unfold get_num_tracks; symmetry; exact HeL). rewrite Hlen.
  set (ks0 := mk_kstate r1 (song_offset st1 + header_size lp + 16) (rom_addr st1) (chunk_length st1) (aram_base_addr st1) [] []) in *.
  assert (Hk0 : kcursor base ovf (h + m) ks0).
  { unfold kcursor, ks0. cbn. replace (song_offset st1 + header_size lp + 16) with (song_offset st1 + m) by (unfold m; lia). exact R6. }
  assert (Ho : 0 <= song_offset st1 /\ (h + m <= payload_end base -> song_offset st1 <= tb_len base)).
  { unfold wcursor in R2. inversion R2; unfold payload, payload_end in *; split; intros; lia. }
  assert (Hz1 : size r1 = n) by (rewrite (same_size _ _ _ Hs1); exact Hn).
  pose proof (tracks_ends b verbose base ovf n s (song_offset st1) (length (tracks s)) l p Hb0 O ks0 (h + m) ltac:(lia) HG Hl Hk0 Hz1 (proj1 Ho) (proj2 Ho) He Hsh Hrl (Forall_nil _)) as K.
  destruct (tracks_end base ovf (h + m) l <=? payload_end ovf); [|rewrite K; reflexivity].
  destruct K as (ks & Ek & K1 & K2 & K3 & K4). rewrite Ek. cbn [bind]. cbn [ks_rom ks0 track_addrs length Nat.add] in K2, K3.
  assert (Hszk : size (ks_rom ks) = n) by (rewrite (same_size _ _ _ K2); exact Hz1).
  replace (rom_addr st1 + (song_offset st1 + header_size lp)) with (h + header_size lp) by lia.
  destruct (zero_total (ks_rom ks) (h + header_size lp) 16) as [r2 E2]; [lia|unfold m in *; lia|]. rewrite E2. cbn [bind].
  pose proof (zero_span p ovf (h + header_size lp) 16 (ks_rom ks) r2 Hb0 ltac:(lia) ltac:(unfold m in *; lia) E2) as Hs2.
  unfold get_part_tracks. rewrite Hpt. cbn [or_panic bind]. specialize (Hpart part Hpt).
  assert (Hsz2 : size r2 = n) by (rewrite (same_size _ _ _ Hs2); exact Hszk).
  destruct (part_total (track_addrs ks) part) with (r := r2) (a := h + header_size lp) as [r3 E3]; [rewrite K3, HeL; exact Hcl|lia|unfold m in *; lia|].
  rewrite E3. cbn [bind]. pose proof (part_span p ovf (track_addrs ks) part Hb0 r2 (h + header_size lp) r3 ltac:(lia) ltac:(unfold m in *; lia) E3) as Hs3.
  assert (Hsz3 : size r3 = n) by (rewrite (same_size _ _ _ Hs3); exact Hsz2).
  destruct (patch_total (track_addrs ks) (call_loops ks)) with (r := r3) as [r4 E4].
  - rewrite K3, HeL. eapply Forall_impl; [|exact K4]. intros x (_ & _ & X). exact X.
  - eapply Forall_impl; [|exact K4]. intros x (X1 & X2 & _). lia.
  - rewrite E4. cbn [bind]. eexists. split; [reflexivity|]. cbn [ws_rom song_table_addr]. split; [exact K1|]. split; [reflexivity|].
    pose proof (patch_span p ovf _ _ _ Hb0 K4 _ _ E4) as Hs4.
    assert (Hst : same_outside (span p ovf) r1 r4).
    { eapply same_outside_trans; [exact K2|]. eapply same_outside_trans; [exact Hs2|]. eapply same_outside_trans; [exact Hs3|exact Hs4]. }
    split.
    + eapply same_outside_trans; [eapply same_outside_weaken; [|exact Hs1]|eapply same_outside_weaken; [|exact Hst]]; cbv beta; unfold span; intros x _ Hx; [|right; exact Hx].
      destruct Hx as [Hx|Hx]; [left; exact Hx|right; unfold m in *; lia].
    + eapply bytes_hold_same; [exact Hst|exact Hta0| | |exact Hb1]; unfold span; lia.
Qed.

(** ** The songs of a bank *)
Definition quiet : list (list Z * list call_loop_ref) := [([], [])].
Lemma empty_ok b : exists s, song_empty b = Ok s /\ song_ready s quiet /\ song_closed s quiet.
Proof.
  assert (E : song_empty b = Ok (mk_song [[0%nat]] [[]])) by (destruct b; vm_compute; reflexivity).
  exists (mk_song [[0%nat]] [[]]). split; [exact E|]. split; [split; [split; [reflexivity|]|split]|split].
  - intros [|[|i]] d Hd; [|discriminate|discriminate]. injection Hd as <-. reflexivity.
  - intros part Hp. injection Hp as <-. cbn. lia.
  - repeat constructor.
  - exists [0%nat]. split; [reflexivity|repeat constructor].
  - repeat constructor.
Qed.
Lemma slot_ends b verbose base ovf n conv st sd p :
  good_blocks base ovf n -> tb_len base < 2 ^ 64 -> 0 <= tb_aram ovf -> wcursor base ovf p st -> size (ws_rom st) = n -> is_image (ws_rom st) ->
  24 <= tb_len ovf -> slot_safe conv (tb_len ovf) sd -> payload base <= song_table_addr st -> song_table_addr st + 2 <= p ->
  (exists st' p', write_song_def b verbose (blocks_of base ovf) conv st sd = Ok st' /\ p <= p' /\ wcursor base ovf p' st' /\
     song_table_addr st' = song_table_addr st + 2 /\ same_outside (span (payload base) ovf) (ws_rom st) (ws_rom st') /\ is_image (ws_rom st')) \/
  write_song_def b verbose (blocks_of base ovf) conv st sd = Err EDoesNotFit \/
  exists f e, Manifest.input sd = Some f /\ conv f (Manifest.tempo_factor sd) = Err e /\ write_song_def b verbose (blocks_of base ovf) conv st sd = Err e.
Proof.
  intros HG Hl Hov Hw Hn Hi H24 Hsd Hta0 Hta. pose proof HG as (_ & _ & G3 & _).
  assert (K : forall s l, song_ready s l -> song_closed s l -> Forall (fun d => data_len d <= tb_len ovf) l -> write_song_def b verbose (blocks_of base ovf) conv st sd = write_song b verbose (blocks_of base ovf) st (loops sd) s ->
    (exists st' p', write_song_def b verbose (blocks_of base ovf) conv st sd = Ok st' /\ p <= p' /\ wcursor base ovf p' st' /\
     song_table_addr st' = song_table_addr st + 2 /\ same_outside (span (payload base) ovf) (ws_rom st) (ws_rom st') /\ is_image (ws_rom st')) \/
    write_song_def b verbose (blocks_of base ovf) conv st sd = Err EDoesNotFit).
  { intros s l (Henc & Hpart & Hu) Hcl Hsh E. rewrite E.
    pose proof (song_ends b verbose base ovf n st (loops sd) s p l HG Hl Hov Hw Hn H24 Henc Hpart Hcl Hsh ltac:(pose proof HG as (? & ? & _); unfold payload in *; lia) Hta) as K.
    destruct (_ <=? _); [left|right; exact K]. destruct K as (st' & E1 & K1 & K2 & K3 & _). exists st', (song_end base ovf p (loops sd) l). split; [exact E1|].
    split; [pose proof (song_end_ge base ovf p (loops sd) l G3); pose proof (place_ge base ovf p (header_size (loops sd) + 16) G3); lia|]. split; [exact K1|]. split; [exact K2|]. split; [|eapply image_song; eassumption].
    assert (Hpb : payload base <= p) by lia. assert (Hpe : p <= payload_end ovf) by (destruct HG as (G1 & G2 & _ & G4 & _); unfold wcursor in Hw; inversion Hw; unfold payload, payload_end in *; lia).
    eapply same_outside_weaken; [|exact K3]. cbv beta. unfold span. intros x _ [Hx|Hx]; lia. }
  unfold write_song_def, check_file_name, load_song in *. unfold slot_safe in Hsd. destruct (Manifest.input sd) as [f|].
  - destruct (Hsd f eq_refl) as (Hfn & Hrep & Hok). apply has_name_iff in Hfn. destruct (file_name f) as [nm|]; [|congruence]. cbn [or_panic bind] in *.
    destruct Hrep as [(s & Es)|(e & Ee)].
    + destruct (Hok s Es) as (l & L1 & L2 & L3). destruct (K s l L1 L2 L3) as [K1|K1]; [rewrite Es; reflexivity|left; exact K1|right; left; exact K1].
    + right; right. exists f, e. rewrite Ee. auto.
  - destruct (empty_ok b) as (s & Es & L1 & L2). cbn [bind] in *. destruct (K s quiet L1 L2) as [K1|K1]; [|rewrite Es; reflexivity|left; exact K1|right; left; exact K1].
    repeat constructor. unfold data_len. cbn. lia.
Qed.
Lemma songs_ends b verbose base ovf n conv : good_blocks base ovf n -> tb_len base < 2 ^ 64 -> 0 <= tb_aram ovf -> 24 <= tb_len ovf ->
  forall sds st p, wcursor base ovf p st -> size (ws_rom st) = n -> is_image (ws_rom st) -> Forall (slot_safe conv (tb_len ovf)) sds ->
  payload base <= song_table_addr st -> song_table_addr st + 2 * Z.of_nat (length sds) <= p ->
  (exists st' p', ofold (write_song_def b verbose (blocks_of base ovf) conv) sds st = Ok st' /\ p <= p' /\ wcursor base ovf p' st' /\
     song_table_addr st' = song_table_addr st + 2 * Z.of_nat (length sds) /\ same_outside (span (payload base) ovf) (ws_rom st) (ws_rom st') /\ is_image (ws_rom st')) \/
  ofold (write_song_def b verbose (blocks_of base ovf) conv) sds st = Err EDoesNotFit \/
  exists sd f e, In sd sds /\ Manifest.input sd = Some f /\ conv f (Manifest.tempo_factor sd) = Err e /\ ofold (write_song_def b verbose (blocks_of base ovf) conv) sds st = Err e.
Proof.
  intros HG Hl Hov H24. induction sds as [|sd sds IH]; intros st p Hw Hn Hi HF Hta0 Hta; cbn [ofold].
  - left. exists st, p. cbn [length]. split; [reflexivity|]. split; [lia|]. split; [exact Hw|]. split; [lia|]. split; [apply same_outside_refl|exact Hi].
  - inversion HF as [|? ? F1 F2]; subst. cbn [length] in Hta.
    destruct (slot_ends b verbose base ovf _ conv st sd p HG Hl Hov Hw eq_refl Hi H24 F1 Hta0 ltac:(lia)) as [(st1 & p1 & E & K1 & K2 & K3 & K4 & K5)|[E|(f & e & E1 & E2 & E)]]; rewrite E; cbn [bind].
    + destruct (IH st1 p1 K2) as [(st' & p' & E' & J1 & J2 & J3 & J4 & J5)|[E'|(sd' & f & e & J1 & J2 & J3 & E')]]; try assumption.
      * apply (same_size _ _ _ K4).
      * lia.
      * lia.
      * left. exists st', p'. split; [exact E'|]. split; [lia|]. split; [exact J2|]. split; [cbn [length]; lia|]. split; [eapply same_outside_trans; eassumption|exact J5].
      * right; left. exact E'.
      * right; right. exists sd', f, e. split; [right; exact J1|auto].
    + right; left. reflexivity.
    + right; right. exists sd, f, e. split; [left; reflexivity|auto].
Qed.

(** ** One bank, and all of them *)
Definition slot_error (conv : path -> f32 -> outcome song) (sds : list song_def) (e : error) : Prop :=
  e = EDoesNotFit \/ exists sd f, In sd sds /\ Manifest.input sd = Some f /\ conv f (Manifest.tempo_factor sd) = Err e.
Lemma bank_ends b verbose bk r L fa first conv : is_image r -> layout_ok r L -> 0xd000 <= fa -> fa - 0xd000 <= tb_len (lo_base L) ->
  2 * Z.of_nat (first + length (songs bk)) <= fa - 0xd000 -> Forall (slot_safe conv (tb_len (lo_ovf L))) (songs bk) ->
  (exists r', write_bank b verbose bk r (lo_addr L) fa first conv = Ok r' /\ same_outside (lo_span L) r r' /\ is_image r') \/
  exists e, slot_error conv (songs bk) e /\ write_bank b verbose bk r (lo_addr L) fa first conv = Err e.
Proof.
  intros Hr HL Hfa F3 F2 HS. destruct (layout_fits r L Hr HL) as [HG HA]. pose proof (layout_pointers r L HL) as Hp.
  pose proof HL as [A1 A2 A3 A4 A5 A6]. pose proof (find_blocks_found b _ _ _ _ _ _ Hr Hp A3) as Hf.
  pose proof HG as (G1 & G2 & G3 & G4 & G5 & G6 & G7).
  unfold write_bank. rewrite Hf. cbn [bind]. unfold lo_span. set (base := lo_base L) in *. set (ovf := lo_ovf L) in *. set (p := payload base + (fa - 0xd000)) in *.
  set (st0 := wstate_init r (blocks_of base ovf) fa first) in *.
  assert (Hpp : p = payload base + (fa - 53248)) by reflexivity.
  assert (Hw : wcursor base ovf p st0).
  { unfold wcursor, st0, wstate_init. cbn [rom_addr chunk_length aram_base_addr song_offset blocks_of base_chunk_addr base_chunk_len]. unfold ARAM_BASE.
    replace (fa - 53248) with (p - payload base) by lia. clearbody p. rewrite <- G6. apply cursor_base. unfold payload, payload_end in *. lia. }
  assert (Hta : song_table_addr st0 = payload base + 2 * Z.of_nat first).
  { unfold st0, wstate_init. cbn [song_table_addr blocks_of base_chunk_addr]. lia. }
  destruct (songs_ends b verbose base ovf (size r) conv HG) with (sds := songs bk) (st := st0) (p := p) as [(st' & p' & E & K1 & K2 & K3 & K4 & K5)|[E|(sd & f & e & J1 & J2 & J3 & E)]]; auto.
  - lia.
  - apply HA.
  - rewrite Hta. lia.
  - rewrite Hta. lia.
  - left. rewrite E. cbn [bind]. unfold clear_table. cbn [blocks_of base_chunk_addr]. unfold ARAM_BASE. change (ws_rom st0) with r in K4.
    destruct (zero_total (ws_rom st') (song_table_addr st') (Z.to_nat (payload base + fa - 53248 - song_table_addr st'))) as [r' Er].
    + rewrite K3, Hta. unfold payload. lia.
    + rewrite (same_size _ _ _ K4), K3, Hta. unfold payload, payload_end in *. lia.
    + exists r'. split; [exact Er|]. split; [|eapply image_zero; [exact K5|exact Er]]. eapply same_outside_trans; [exact K4|].
      eapply zero_span; [| | |exact Er]; rewrite ?K3, ?Hta; unfold payload, payload_end in *; lia.
  - right. exists EDoesNotFit. split; [left; reflexivity|]. rewrite E. reflexivity.
  - right. exists e. split; [right; exists sd, f; auto|]. rewrite E. reflexivity.
Qed.
Lemma banks_ends b verbose conv addrs : forall bks i first Ls r pa, addrs = pa ++ map lo_addr Ls -> length pa = i -> length Ls = length bks ->
  (i + length bks <= 3)%nat -> is_image r -> Forall (layout_ok r) Ls -> ForallOrdPairs clear_of Ls ->
  (forall k bk L fa, nth_error bks k = Some bk -> nth_error Ls k = Some L -> nth_error first_songs (i + k) = Some fa ->
     fa - 0xd000 <= tb_len (lo_base L) /\ 2 * Z.of_nat (first + count_songs (firstn k bks) + length (songs bk)) <= fa - 0xd000 /\
     Forall (slot_safe conv (tb_len (lo_ovf L))) (songs bk)) ->
  (exists r', write_banks b verbose bks i first r addrs conv = Ok r' /\ length r' = length r) \/
  exists e, slot_error conv (concat (map songs bks)) e /\ write_banks b verbose bks i first r addrs conv = Err e.
Proof.
  induction bks as [|bk bks IH]; intros i first Ls r pa Had Hpa Hlen H3 Hr HL HC HS; cbn [write_banks].
  { left. exists r. auto. }
  destruct Ls as [|L Ls]; [discriminate|]. cbn [length] in *.
  assert (E1 : nth_error addrs i = Some (lo_addr L)) by (rewrite Had, <- Hpa, nth_error_app2, Nat.sub_diag by lia; reflexivity).
  assert (E2 : exists fa, nth_error first_songs i = Some fa /\ 0xd000 <= fa).
  { destruct i as [|[|[|i]]]; [| | |lia]; eexists; (split; [reflexivity|lia]). }
  destruct E2 as (fa & E2 & Hfa). rewrite E1. change BANK_FIRST_SONG_ADDRS with first_songs. rewrite E2. cbn [or_panic bind].
  inversion HL as [|? ? L1 L2]; subst. inversion HC as [|? ? C1 C2]; subst.
  destruct (HS O bk L fa eq_refl eq_refl) as (S1 & S2 & S3); [rewrite Nat.add_0_r; exact E2|]. cbn [firstn count_songs map list_sum fold_right] in S2. unfold count_songs, list_sum in S2. cbn [map fold_right] in S2. rewrite Nat.add_0_r in S2.
  destruct (bank_ends b verbose bk r L fa first conv Hr L1 Hfa S1 S2 S3) as [(r1 & E & K1 & K2)|(e & K1 & E)]; rewrite E; cbn [bind].
  - destruct (IH (S (length pa)) (first + length (songs bk))%nat Ls r1 (pa ++ [lo_addr L])) as [(r' & E' & J1)|(e & J1 & E')].
    + rewrite <- app_assoc. reflexivity.
    + rewrite app_length. cbn. lia.
    + lia.
    + lia.
    + exact K2.
    + apply Forall_forall. intros L' HL'. rewrite Forall_forall in L2, C1. eapply layout_same; [exact Hr|exact K1|apply (C1 L' HL')|apply L2; exact HL'].
    + exact C2.
    + intros k bk' L' fa' Hk Hl Hf. destruct (HS (S k) bk' L' fa' Hk Hl) as (X1 & X2 & X3); [replace (length pa + S k)%nat with (S (length pa) + k)%nat by lia; exact Hf|].
      split; [exact X1|]. split; [|exact X3]. cbn [firstn] in X2. unfold count_songs, list_sum in *. cbn [map fold_right] in X2. lia.
    + left. exists r'. split; [exact E'|]. rewrite J1. apply K1.
    + right. exists e. split; [|exact E']. destruct J1 as [->|(sd & f & Z1 & Z2)]; [left; reflexivity|right; exists sd, f]. cbn [map concat]. split; [apply in_or_app; right; exact Z1|exact Z2].
  - right. exists e. split; [|reflexivity]. destruct K1 as [->|(sd & f & Z1 & Z2)]; [left; reflexivity|right; exists sd, f]. cbn [map concat]. split; [apply in_or_app; left; exact Z1|exact Z2].
Qed.

(** A slot whose path has no file name aborts the build. *)
Lemma bank_names b verbose bk r addr fa first conv r' : write_bank b verbose bk r addr fa first conv = Ok r' ->
  forall sd p, In sd (songs bk) -> Manifest.input sd = Some p -> has_name p.
Proof.
  intros H. unfold write_bank in H. inv_bind H. inv_bind H. clear H. rename Ha0 into H. revert H.
  generalize (wstate_init r a fa first). intros st. revert st a0. induction (songs bk) as [|sd sds IH]; intros st st' H sd' p Hin Hp; [destruct Hin|].
  cbn [ofold] in H. inv_bind H. destruct Hin as [<-|Hin]; [|eapply IH; eassumption].
  unfold write_song_def in Ha0. inv_bind Ha0. unfold check_file_name in Ha1. rewrite Hp in Ha1. inv_bind Ha1.
  apply has_name_iff. destruct (file_name p); [discriminate|]. cbn in *. congruence.
Qed.

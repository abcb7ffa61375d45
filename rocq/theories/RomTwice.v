(** RomTwice.v: what is written does not depend on the image's old content, so building twice changes
    nothing the second time (C56). *)
From Coq Require Import ZArith List Bool Lia ZifyBool ZifyNat String.
From Verif Require Import Base ProofLib F32 Command Track Song Paths Manifest Rom SpecRom SpecBank SpecConsole RomLib RomChain RomBank RomBanks RomFinal.
Open Scope Z_scope.
Open Scope list_scope.

(** Two runs of the same writes: [r] becomes [r'] and [q] becomes [q']; every cell is either written in both
    with the same value or in none. *)
Definition moves (r q r' q' : image) : Prop :=
  length r' = length r /\ length q' = length q /\
  forall n, nth_error r' n = nth_error q' n \/ (nth_error r' n = nth_error r n /\ nth_error q' n = nth_error q n).
Lemma moves_refl r q : moves r q r q.
Proof. split; [reflexivity|]. split; [reflexivity|]. auto. Qed.
Lemma moves_trans r q r1 q1 r2 q2 : moves r q r1 q1 -> moves r1 q1 r2 q2 -> moves r q r2 q2.
Proof.
  intros (A1 & A2 & A3) (B1 & B2 & B3). split; [congruence|]. split; [congruence|]. intros n.
  destruct (B3 n) as [E|[E1 E2]]; [auto|]. destruct (A3 n) as [E|[E3 E4]]; [left; congruence|right; split; congruence].
Qed.
Lemma moves_length r q r' q' : length q = length r -> moves r q r' q' -> length q' = length r'.
Proof. intros H (A & B & _). congruence. Qed.

Lemma wr_moves r q a v r' : length q = length r -> wr r a v = Ok r' -> exists q', wr q a v = Ok q' /\ moves r q r' q'.
Proof.
  unfold wr. intros HL H. apply or_panic_ok in H. pose proof (set_nth_length _ _ _ _ H) as HL'.
  destruct (set_nth_some q (Z.to_nat a) v) as [q' Hq].
  { destruct (Nat.le_gt_cases (length r) (Z.to_nat a)) as [Hle|]; [|lia]. apply (set_nth_none r _ v) in Hle. congruence. }
  exists q'. rewrite Hq. split; [reflexivity|]. split; [exact HL'|]. split; [exact (set_nth_length _ _ _ _ Hq)|].
  intros n. pose proof (set_nth_spec _ _ _ _ H n) as E1. pose proof (set_nth_spec _ _ _ _ Hq n) as E2.
  destruct (Nat.eqb n (Z.to_nat a)); [left; congruence|right; auto].
Qed.
Lemma wr_all_moves l : forall r q r', length q = length r -> wr_all r l = Ok r' -> exists q', wr_all q l = Ok q' /\ moves r q r' q'.
Proof.
  induction l as [|[a v] l IH]; intros r q r' HL H; unfold wr_all in *; cbn [ofold fst snd] in *.
  - injection H as <-. exists q. split; [reflexivity|apply moves_refl].
  - inv_bind H. destruct (wr_moves _ q _ _ _ HL Ha) as (q1 & Hq1 & M1). rewrite Hq1. cbn [bind].
    destruct (IH _ q1 _ (moves_length _ _ _ _ HL M1) H) as (q' & Hq' & M2). exists q'. split; [exact Hq'|eapply moves_trans; eassumption].
Qed.
Lemma nth_error_splice (r : image) s data n : (s + length data <= length r)%nat ->
  nth_error (firstn s r ++ data ++ skipn (s + length data) r) n =
  if Nat.ltb n s then nth_error r n else if Nat.ltb n (s + length data) then nth_error data (n - s) else nth_error r n.
Proof.
  intros H. assert (HL : length (firstn s r) = s) by (rewrite firstn_length; lia). destruct (Nat.ltb_spec n s) as [Hn|Hn].
  - rewrite nth_error_app1 by lia. revert n r H HL Hn. induction s as [|s IH]; intros n r H HL Hn; [lia|].
    destruct r as [|x r]; [cbn in H; lia|]. destruct n as [|n]; [reflexivity|]. cbn [firstn nth_error]. apply IH; cbn [length firstn] in *; lia.
  - rewrite nth_error_app2, HL by lia. destruct (Nat.ltb_spec n (s + length data)).
    + rewrite nth_error_app1 by lia. reflexivity.
    + rewrite nth_error_app2 by lia. clear HL. remember (s + length data)%nat as m. replace (n - s - length data)%nat with (n - m)%nat by lia.
      assert (Hm : (m <= n)%nat) by lia. clear - Hm. revert n r Hm. induction m as [|m IH]; intros n r Hm; [cbn [skipn]; f_equal; lia|].
      destruct r as [|x r]; [destruct n; cbn [skipn]; destruct (_ - _)%nat; reflexivity|]. destruct n as [|n]; [lia|]. cbn [skipn nth_error]. apply IH. lia.
Qed.
Lemma splice_moves r q a data r' : length q = length r -> splice r a data = Ok r' -> exists q', splice q a data = Ok q' /\ moves r q r' q'.
Proof.
  unfold splice. cbv zeta. intros HL H. rewrite HL. destruct (Nat.leb_spec (Z.to_nat a + length data) (length r)) as [Hle|]; [|discriminate].
  injection H as <-. eexists. split; [reflexivity|].
  assert (HS : forall x : image, (Z.to_nat a + length data <= length x)%nat -> length (firstn (Z.to_nat a) x ++ data ++ skipn (Z.to_nat a + length data) x) = length x)
    by (intros x Hx; rewrite !app_length, firstn_length, skipn_length; lia).
  split; [apply HS; lia|]. split; [apply HS; lia|]. intros n. rewrite !nth_error_splice by lia.
  destruct (Nat.ltb n _); [right; auto|]. destruct (Nat.ltb n _); [left; reflexivity|right; auto].
Qed.
Lemma header_moves r q ra so ab st lp r' : length q = length r -> write_song_header r ra so ab st lp = Ok r' ->
  exists q', write_song_header q ra so ab st lp = Ok q' /\ moves r q r' q'.
Proof.
  unfold write_song_header. intros HL H. destruct (addr_to_bytes (ab + so)) as [sh sl]. cbv zeta in *.
  destruct (addr_to_bytes (ab + (so + (if lp then 8 else 4)))) as [ph pl]. inv_bind H. inv_bind H.
  destruct (wr_all_moves _ _ q _ HL Ha) as (q1 & -> & M1). cbn [bind].
  destruct (wr_all_moves _ _ q1 _ (moves_length _ _ _ _ HL M1) Ha0) as (q2 & -> & M2). cbn [bind].
  pose proof (moves_trans _ _ _ _ _ _ M1 M2) as M. destruct lp;
    (destruct (wr_all_moves _ _ q2 _ (moves_length _ _ _ _ HL M) H) as (q3 & -> & M3); exists q3; split; [reflexivity|eapply moves_trans; eassumption]).
Qed.
Lemma part_moves part : forall r q a addrs r', length q = length r -> write_part r a addrs part = Ok r' ->
  exists q', write_part q a addrs part = Ok q' /\ moves r q r' q'.
Proof.
  induction part as [|ti part IH]; intros r q a addrs r' HL H; cbn [write_part] in *; [injection H as <-; exists q; split; [reflexivity|apply moves_refl]|].
  inv_bind H. rewrite Ha. cbn [bind]. destruct (addr_to_bytes a0) as [h l]. inv_bind H.
  destruct (wr_all_moves _ _ q _ HL Ha0) as (q1 & -> & M1). cbn [bind].
  destruct (IH _ q1 _ _ _ (moves_length _ _ _ _ HL M1) H) as (q' & Hq' & M2). exists q'. split; [exact Hq'|eapply moves_trans; eassumption].
Qed.
Lemma patch_one_moves addrs x r q r' : length q = length r -> patch_loop addrs r x = Ok r' -> exists q', patch_loop addrs q x = Ok q' /\ moves r q r' q'.
Proof.
  unfold patch_loop. cbv zeta. intros HL H. inv_bind H. rewrite Ha. cbn [bind]. destruct (addr_to_bytes a) as [h lo]. apply wr_all_moves; assumption.
Qed.
Lemma patch_moves addrs l : forall r q r', length q = length r -> ofold (patch_loop addrs) l r = Ok r' ->
  exists q', ofold (patch_loop addrs) l q = Ok q' /\ moves r q r' q'.
Proof.
  induction l as [|x l IH]; intros r q r' HL H; cbn [ofold] in *; [injection H as <-; exists q; split; [reflexivity|apply moves_refl]|].
  inv_bind H. destruct (patch_one_moves _ _ _ q _ HL Ha) as (q1 & -> & M1). cbn [bind].
  destruct (IH _ q1 _ (moves_length _ _ _ _ HL M1) H) as (q' & Hq' & M2). exists q'. split; [exact Hq'|eapply moves_trans; eassumption].
Qed.

Definition same_ks (s t : kstate) : Prop :=
  track_data_offset s = track_data_offset t /\ ks_rom_addr s = ks_rom_addr t /\ ks_chunk_length s = ks_chunk_length t /\
  ks_aram_base s = ks_aram_base t /\ track_addrs s = track_addrs t /\ call_loops s = call_loops t.
Lemma track_moves b verbose bl so sd s t i s' : same_ks s t -> length (ks_rom t) = length (ks_rom s) -> write_one_track b verbose bl so sd s i = Ok s' ->
  exists t', write_one_track b verbose bl so sd t i = Ok t' /\ same_ks s' t' /\ moves (ks_rom s) (ks_rom t) (ks_rom s') (ks_rom t').
Proof.
  destruct s as [r o ra cl ab ta ls], t as [q o2 ra2 cl2 ab2 ta2 ls2]. unfold same_ks. cbn [track_data_offset ks_rom_addr ks_chunk_length ks_aram_base track_addrs call_loops ks_rom].
  intros (-> & -> & -> & -> & -> & ->) HL H. unfold write_one_track in *. cbv zeta in *. cbn [track_data_offset ks_rom_addr ks_chunk_length ks_aram_base track_addrs call_loops ks_rom] in *.
  inv_bind H. rewrite Ha. cbn [bind]. destruct a as [data refs]. inv_bind H.
  set (sw1 := if cl2 <? o2 + Z.of_nat (length data) then _ else _) in Ha0.
  match goal with |- exists t', bind ?X _ = Ok t' /\ _ => set (sw2 := X) end.
  assert (Hsw : exists st2, sw2 = Ok (st2, snd (fst a), snd a) /\ same_ks (fst (fst a)) st2 /\ ks_rom (fst (fst a)) = r /\ ks_rom st2 = q).
  { subst sw1 sw2. destruct (cl2 <? o2 + Z.of_nat (length data)).
    - destruct (ab2 =? aram_overflow_base bl); [discriminate|]. inv_bind Ha0. injection Ha0 as <-. rewrite Ha1. cbn [bind fst snd]. eexists. split; [reflexivity|].
      unfold same_ks. cbn. auto 10.
    - injection Ha0 as <-. cbn [fst snd]. eexists. split; [reflexivity|]. unfold same_ks. cbn. auto 10. }
  destruct Hsw as (st2 & -> & (E1 & E2 & E3 & E4 & E5 & E6) & Er & Eq). cbn [bind]. destruct a as [[st1 pre] cur]. cbn [fst snd] in *.
  rewrite <- E1, <- E2, <- E3, <- E4, <- E5, <- E6. destruct (0 <? Z.of_nat (length data)).
  - inv_bind H. injection H as <-. rewrite Er in Ha1. rewrite Eq.
    destruct (splice_moves _ q _ _ _ HL Ha1) as (q' & -> & M). cbn [bind]. eexists. split; [reflexivity|]. split; [unfold same_ks; cbn; auto 10|exact M].
  - injection H as <-. eexists. split; [reflexivity|]. cbn [ks_rom]. split; [unfold same_ks; cbn; auto 10|]. rewrite Er, Eq. apply moves_refl.
Qed.
Lemma tracks_moves b verbose bl so sd l : forall s t s', same_ks s t -> length (ks_rom t) = length (ks_rom s) -> ofold (write_one_track b verbose bl so sd) l s = Ok s' ->
  exists t', ofold (write_one_track b verbose bl so sd) l t = Ok t' /\ same_ks s' t' /\ moves (ks_rom s) (ks_rom t) (ks_rom s') (ks_rom t').
Proof.
  induction l as [|i l IH]; intros s t s' HS HL H; cbn [ofold] in *; [injection H as <-; exists t; split; [reflexivity|]; split; [exact HS|apply moves_refl]|].
  inv_bind H. destruct (track_moves _ _ _ _ _ _ _ _ _ HS HL Ha) as (t1 & -> & HS1 & M1). cbn [bind].
  destruct (IH _ t1 _ HS1 (moves_length _ _ _ _ HL M1) H) as (t' & Ht & HS' & M2). exists t'. split; [exact Ht|]. split; [exact HS'|eapply moves_trans; eassumption].
Qed.

Definition same_ws (s t : wstate) : Prop :=
  song_offset s = song_offset t /\ rom_addr s = rom_addr t /\ chunk_length s = chunk_length t /\
  aram_base_addr s = aram_base_addr t /\ song_table_addr s = song_table_addr t.
Lemma song_moves b verbose bl s t lp sd s' : same_ws s t -> length (ws_rom t) = length (ws_rom s) -> write_song b verbose bl s lp sd = Ok s' ->
  exists t', write_song b verbose bl t lp sd = Ok t' /\ same_ws s' t' /\ moves (ws_rom s) (ws_rom t) (ws_rom s') (ws_rom t').
Proof.
  intros HS HL H. unfold write_song in *. inv_bind H.
  assert (Hh : exists t1, reserve_header b verbose bl lp t = Ok t1 /\ same_ws a t1 /\ ws_rom a = ws_rom s /\ ws_rom t1 = ws_rom t).
  { destruct HS as (E1 & E2 & E3 & E4 & E5). unfold reserve_header in *. rewrite <- E1, <- E3, <- E4, <- E5.
    destruct (chunk_length s <? _).
    - destruct (aram_base_addr s =? _); [discriminate|]. inv_bind Ha. injection Ha as <-. rewrite Ha0. cbn [bind]. eexists. split; [reflexivity|]. unfold same_ws. cbn. auto 10.
    - injection Ha as <-. eexists. split; [reflexivity|]. unfold same_ws. auto 10. }
  destruct Hh as (t1 & -> & (E1 & E2 & E3 & E4 & E5) & Er & Eq). cbn [bind]. cbv zeta in *. rewrite Eq, <- E1, <- E2, <- E3, <- E4, <- E5. inv_bind H. rewrite Er in Ha0.
  destruct (header_moves _ (ws_rom t) _ _ _ _ _ _ HL Ha0) as (q1 & -> & M1). cbn [bind]. inv_bind H.
  destruct (tracks_moves b verbose bl (song_offset a) sd _ (mk_kstate a0 (song_offset a + (if lp then 8 else 4) + 16) (rom_addr a) (chunk_length a) (aram_base_addr a) [] []) (mk_kstate q1 (song_offset a + (if lp then 8 else 4) + 16) (rom_addr a) (chunk_length a) (aram_base_addr a) [] []) _
    ltac:(unfold same_ks; cbn; auto 10) (moves_length _ _ _ _ HL M1) Ha1) as (t2 & Ht2 & HS2 & M2).
  cbn [ks_rom] in M2. rewrite Ht2. cbn [bind]. pose proof (moves_trans _ _ _ _ _ _ M1 M2) as M3. inv_bind H.
  destruct (wr_all_moves _ _ (ks_rom t2) _ (moves_length _ _ _ _ HL M3) Ha2) as (q3 & -> & M4). cbn [bind]. pose proof (moves_trans _ _ _ _ _ _ M3 M4) as M5.
  inv_bind H. rewrite Ha3. cbn [bind]. inv_bind H. destruct HS2 as (F1 & F2 & F3 & F4 & F5 & F6). rewrite <- F5, <- F6.
  destruct (part_moves _ _ q3 _ _ _ (moves_length _ _ _ _ HL M5) Ha4) as (q4 & -> & M6). cbn [bind]. pose proof (moves_trans _ _ _ _ _ _ M5 M6) as M7.
  inv_bind H. destruct (patch_moves _ _ _ q4 _ (moves_length _ _ _ _ HL M7) Ha5) as (q5 & -> & M8). cbn [bind]. pose proof (moves_trans _ _ _ _ _ _ M7 M8) as M9.
  injection H as <-. eexists. split; [reflexivity|]. cbn [ws_rom]. split; [unfold same_ws; cbn; repeat split; congruence|exact M9].
Qed.
Lemma def_moves b verbose bl conv s t sd s' : same_ws s t -> length (ws_rom t) = length (ws_rom s) -> write_song_def b verbose bl conv s sd = Ok s' ->
  exists t', write_song_def b verbose bl conv t sd = Ok t' /\ same_ws s' t' /\ moves (ws_rom s) (ws_rom t) (ws_rom s') (ws_rom t').
Proof.
  unfold write_song_def. intros HS HL H. inv_bind H. rewrite Ha. cbn [bind]. inv_bind H. rewrite Ha0. cbn [bind]. apply song_moves; assumption.
Qed.
Lemma songs_moves b verbose bl conv l : forall s t s', same_ws s t -> length (ws_rom t) = length (ws_rom s) -> ofold (write_song_def b verbose bl conv) l s = Ok s' ->
  exists t', ofold (write_song_def b verbose bl conv) l t = Ok t' /\ same_ws s' t' /\ moves (ws_rom s) (ws_rom t) (ws_rom s') (ws_rom t').
Proof.
  induction l as [|i l IH]; intros s t s' HS HL H; cbn [ofold] in *; [injection H as <-; exists t; split; [reflexivity|]; split; [exact HS|apply moves_refl]|].
  inv_bind H. destruct (def_moves _ _ _ _ _ _ _ _ HS HL Ha) as (t1 & -> & HS1 & M1). cbn [bind].
  destruct (IH _ t1 _ HS1 (moves_length _ _ _ _ HL M1) H) as (t' & Ht & HS' & M2). exists t'. split; [exact Ht|]. split; [exact HS'|eapply moves_trans; eassumption].
Qed.
Lemma bank_moves b verbose bk r q a fa first conv r' : length q = length r -> find_blocks b q a = find_blocks b r a -> write_bank b verbose bk r a fa first conv = Ok r' ->
  exists q', write_bank b verbose bk q a fa first conv = Ok q' /\ moves r q r' q'.
Proof.
  intros HL HF H. unfold write_bank in *. rewrite HF. inv_bind H. rewrite Ha. cbn [bind]. inv_bind H.
  destruct (songs_moves b verbose a0 conv (songs bk) (wstate_init r a0 fa first) (wstate_init q a0 fa first) a1 ltac:(unfold same_ws; cbn; auto 10) HL Ha0) as (t & Ht & HS & M).
  rewrite Ht. cbn [bind ws_rom wstate_init] in *. destruct HS as (_ & _ & _ & _ & E). rewrite <- E. unfold clear_table in *.
  destruct (wr_all_moves _ _ (ws_rom t) _ (moves_length _ _ _ _ HL M) H) as (q' & Hq & M2). exists q'. split; [exact Hq|eapply moves_trans; eassumption].
Qed.
(** The second run over the first run's result. *)
Lemma moves_back r r' q' : moves r r' r' q' -> q' = r'.
Proof.
  intros (H1 & H2 & H3). apply nth_error_ext. intros n. destruct (H3 n) as [E|[_ E]]; [symmetry; exact E|exact E].
Qed.

Lemma bank_again b verbose bk r a fa first conv r' : write_bank b verbose bk r a fa first conv = Ok r' -> find_blocks b r' a = find_blocks b r a ->
  write_bank b verbose bk r' a fa first conv = Ok r'.
Proof.
  intros H HF. assert (HL : length r' = length r).
  { destruct (bank_moves b verbose bk r r a fa first conv r' eq_refl eq_refl H) as (q' & _ & (E & _)). exact E. }
  destruct (bank_moves _ _ _ _ _ _ _ _ _ _ HL HF H) as (q' & Hq & M). rewrite (moves_back _ _ _ M) in Hq. exact Hq.
Qed.

Lemma banks_moves b verbose conv addrs : forall i first bks Ls sss, banks_fit b conv i first bks Ls sss ->
  forall r q r' pa, addrs = pa ++ map lo_addr Ls -> length pa = i -> length q = length r -> is_image r -> is_image q ->
  Forall (layout_ok r) Ls -> Forall (layout_ok q) Ls -> ForallOrdPairs independent Ls ->
  write_banks b verbose bks i first r addrs conv = Ok r' ->
  exists q', write_banks b verbose bks i first q addrs conv = Ok q' /\ moves r q r' q'.
Proof.
  intros i first bks Ls sss HB. induction HB as [i first|i first fa bk L ss ls bks Ls sss Hfa HF HB IH]; intros r q r' pa Ea Epa HL Hr Hq HLr HLq HI H.
  - cbn [write_banks] in *. injection H as <-. exists q. split; [reflexivity|apply moves_refl].
  - cbn [write_banks] in *. inv_bind H. rewrite Ha. cbn [bind]. inv_bind H. rewrite Ha0. cbn [bind]. inv_bind H. apply or_panic_ok in Ha, Ha0. rename a1 into r1.
    assert (Ead : a = lo_addr L).
    { subst addrs. rewrite nth_error_app2 in Ha by lia. replace (i - length pa)%nat with 0%nat in Ha by lia. cbn in Ha. congruence. }
    subst a. assert (a0 = fa) by (change BANK_FIRST_SONG_ADDRS with first_songs in Ha0; congruence). subst a0.
    assert (Hfa0 : 0xd000 <= fa).
    { clear -Hfa. destruct i as [|[|[|i]]]; cbn in Hfa; try (injection Hfa as <-; lia). destruct i; discriminate. }
    apply Forall_cons_iff in HLr, HLq. destruct HLr as [HL1 HLr], HLq as [HL2 HLq]. inversion HI as [|? ? HI1 HI2]; subst.
    assert (HFB : find_blocks b q (lo_addr L) = find_blocks b r (lo_addr L)).
    { pose proof HL1 as [_ _ A3 _ _ _]. pose proof HL2 as [_ _ B3 _ _ _].
      rewrite (find_blocks_found b _ _ _ _ _ _ Hr (layout_pointers _ _ HL1) A3), (find_blocks_found b _ _ _ _ _ _ Hq (layout_pointers _ _ HL2) B3). reflexivity. }
    destruct (bank_moves _ _ _ _ _ _ _ _ _ _ HL HFB Ha1) as (q1 & Hq1 & M1). rewrite Hq1. cbn [bind].
    destruct (one_bank b verbose bk r L fa first conv r1 ss ls Hr HL1 Hfa0 HF Ha1) as (W1 & W2 & W3 & _).
    destruct (one_bank b verbose bk q L fa first conv q1 ss ls Hq HL2 Hfa0 HF Hq1) as (V1 & V2 & V3 & _).
    destruct (IH r1 q1 r' (pa ++ [lo_addr L])) as (q' & Hq' & M2).
    + cbn [map]. rewrite <- app_assoc. reflexivity.
    + rewrite app_length. cbn. lia.
    + exact (moves_length _ _ _ _ HL M1).
    + exact W1.
    + exact V1.
    + rewrite Forall_forall in *. intros L' HL'. eapply layout_same; [exact Hr|exact W3| |apply HLr; exact HL'].
      cbv beta. intros x [Hx _]. apply (proj1 (HI1 L' HL' x) Hx).
    + rewrite Forall_forall in *. intros L' HL'. eapply layout_same; [exact Hq|exact V3| |apply HLq; exact HL'].
      cbv beta. intros x [Hx _]. apply (proj1 (HI1 L' HL' x) Hx).
    + exact HI2.
    + exact H.
    + exists q'. split; [exact Hq'|eapply moves_trans; eassumption].
Qed.
Lemma banks_again b verbose conv bks Ls sss r r' : banks_fit b conv 0 0 bks Ls sss -> is_image r -> Forall (layout_ok r) Ls -> ForallOrdPairs independent Ls ->
  write_banks b verbose bks 0 0 r (map lo_addr Ls) conv = Ok r' -> write_banks b verbose bks 0 0 r' (map lo_addr Ls) conv = Ok r'.
Proof.
  intros HB Hr HLs HI H. destruct (all_banks b verbose conv _ 0%nat 0%nat bks Ls sss HB r r' [] eq_refl eq_refl Hr HLs HI H) as (X1 & X2 & X3 & _).
  destruct (banks_moves b verbose conv _ 0%nat 0%nat bks Ls sss HB r r' r' [] eq_refl eq_refl (proj1 X3) Hr X1 HLs X2 HI H) as (q' & Hq & M).
  rewrite (moves_back _ _ _ M) in Hq. exact Hq.
Qed.

Lemma nth_error_skip {A} (l : list A) n i : nth_error (skipn n l) i = nth_error l (n + i).
Proof. revert n. induction l as [|x l IH]; intros [|n]; cbn [skipn nth_error Nat.add]; auto. destruct i; reflexivity. Qed.
(** Starting from any mixture of the old image and the new one: the layouts are still there. *)
Lemma data_frame r L x : is_image r -> layout_ok r L -> lo_data L x -> ~ lo_frame L x.
Proof.
  intros Hr [_ A2 A3 _ _ _] Hd [Hp|(b0 & Hb & Hx)].
  - apply (A2 x Hp). exact Hd.
  - destruct A3 as (bs & t & Hc & E & _). pose proof (data_off_headers _ _ _ _ _ _ _ _ Hr Hc E) as HF. fold (lo_blocks L) in *.
    rewrite E in HF. rewrite Forall_forall in HF. apply (HF b0 Hb x Hx). exact Hd.
Qed.
Lemma data_frames r Ls x : is_image r -> Forall (layout_ok r) Ls -> ForallOrdPairs independent Ls ->
  (exists L, In L Ls /\ lo_data L x) -> forall L', In L' Ls -> ~ lo_frame L' x.
Proof.
  intros Hr HLs HI. induction HI as [|L0 Ls H0 _ IH]; intros (L & HL & Hx) L' HL'; [destruct HL|].
  apply Forall_cons_iff in HLs. destruct HLs as [HL0 HLs]. rewrite Forall_forall in H0.
  destruct HL as [<-|HL], HL' as [<-|HL'].
  - eapply data_frame; eassumption.
  - apply (proj1 (H0 L' HL' x) Hx).
  - apply (proj2 (H0 L HL x) Hx).
  - apply (IH HLs); [exists L; auto|exact HL'].
Qed.
Lemma nth_nth_error (l : list Z) n : nth n l 0 = match nth_error l n with Some x => x | None => 0 end.
Proof. revert n. induction l; intros [|n]; cbn; auto. Qed.
Lemma mixture_same P r r' q : same_outside P r r' -> half_written r r' q -> same_outside P r q.
Proof.
  intros [HL HS] [ML MS]. split; [exact ML|]. intros a Ha HP. specialize (HS a Ha HP). unfold byte in *.
  destruct (MS (Z.to_nat a)) as [E|E].
  - rewrite !nth_nth_error with (n := Z.to_nat a). rewrite E. reflexivity.
  - rewrite <- HS. rewrite !nth_nth_error with (n := Z.to_nat a). rewrite E. reflexivity.
Qed.
Lemma mixture_image r r' q : is_image r -> is_image r' -> half_written r r' q -> is_image q.
Proof.
  intros Hr Hr' [_ M]. unfold is_image in *. rewrite Forall_forall in *. intros x Hx. apply In_nth_error in Hx. destruct Hx as [n Hn].
  destruct (M n) as [E|E]; rewrite E in Hn; apply nth_error_In in Hn; auto.
Qed.
Lemma banks_resume b verbose conv bks Ls sss r r' q : banks_fit b conv 0 0 bks Ls sss -> is_image r -> Forall (layout_ok r) Ls -> ForallOrdPairs independent Ls ->
  write_banks b verbose bks 0 0 r (map lo_addr Ls) conv = Ok r' -> half_written r r' q -> write_banks b verbose bks 0 0 q (map lo_addr Ls) conv = Ok r'.
Proof.
  intros HB Hr HLs HI H M. destruct (all_banks b verbose conv _ 0%nat 0%nat bks Ls sss HB r r' [] eq_refl eq_refl Hr HLs HI H) as (X1 & X2 & X3 & _).
  assert (Hq : is_image q) by exact (mixture_image r r' q Hr X1 M).
  assert (HLq : Forall (layout_ok q) Ls).
  { rewrite Forall_forall in *. intros L HL. eapply layout_same; [exact Hr|eapply mixture_same; [exact X3|exact M]| |apply HLs; exact HL].
    cbv beta. intros x Hx. eapply data_frames; [exact Hr|apply Forall_forall; exact HLs|exact HI|exact Hx|exact HL]. }
  destruct (banks_moves b verbose conv _ 0%nat 0%nat bks Ls sss HB r q r' [] eq_refl eq_refl (proj1 M) Hr Hq HLs HLq HI H) as (q' & Hq' & (M1 & M2 & M3)).
  replace r' with q'; [exact Hq'|]. apply nth_error_ext. intros n. destruct (M3 n) as [E|[E1 E2]]; [symmetry; exact E|].
  destruct (proj2 M n) as [E|E]; congruence.
Qed.

Lemma overwrite_same r n : file_overwrite r r n = r.
Proof.
  unfold file_overwrite. destruct (Nat.le_gt_cases (length r) n) as [H|H].
  - rewrite firstn_all2 by lia. rewrite skipn_all. apply app_nil_r.
  - rewrite firstn_length_le by lia. apply firstn_skipn.
Qed.
Lemma write_resume b verbose conv m Ls sss r r' q n k : banks_fit b conv 0 0 m Ls sss -> is_image r -> Forall (layout_ok r) Ls -> ForallOrdPairs independent Ls ->
  rom_write b verbose m r true (map lo_addr Ls) conv (Wrote n) = (Ok tt, r') -> (length r <= n)%nat -> half_written r r' q ->
  (length r <= k)%nat -> rom_write b verbose m q true (map lo_addr Ls) conv (Wrote k) = (Ok tt, r').
Proof.
  intros HB Hr HLs HI Hw Hn Hq Hk. apply good_write in Hw; [|exact Hn]. destruct Hw as [Hw HL].
  pose proof (banks_resume b verbose conv m Ls sss r r' q HB Hr HLs HI Hw Hq) as H2.
  unfold rom_write. rewrite H2. unfold file_overwrite. rewrite firstn_all2 by lia. rewrite HL, <- (proj1 Hq), skipn_all, app_nil_r. reflexivity.
Qed.
Lemma write_again b verbose conv m Ls sss r r' n k : banks_fit b conv 0 0 m Ls sss -> is_image r -> Forall (layout_ok r) Ls -> ForallOrdPairs independent Ls ->
  rom_write b verbose m r true (map lo_addr Ls) conv (Wrote n) = (Ok tt, r') -> (length r <= n)%nat ->
  rom_write b verbose m r' true (map lo_addr Ls) conv (Wrote k) = (Ok tt, r').
Proof.
  intros HB Hr HLs HI Hw Hn. apply good_write in Hw; [|exact Hn]. destruct Hw as [Hw _].
  pose proof (banks_again b verbose conv m Ls sss r r' HB Hr HLs HI Hw) as H2.
  unfold rom_write. rewrite H2, overwrite_same. reflexivity.
Qed.
(** A write cut short after [n] bytes leaves such a file. *)
Lemma cut_short b verbose conv m addrs r r' n k : rom_write b verbose m r true addrs conv (Wrote k) = (Ok tt, r') -> (length r <= k)%nat ->
  exists q, rom_write b verbose m r true addrs conv (Wrote n) = (Ok tt, q) /\ half_written r r' q.
Proof.
  intros Hw Hk. apply good_write in Hw; [|exact Hk]. destruct Hw as [Hw HL]. unfold rom_write. rewrite Hw.
  eexists. split; [reflexivity|]. unfold file_overwrite. split.
  - rewrite app_length, skipn_length, firstn_length. lia.
  - intros i. destruct (Nat.lt_ge_cases i (length (firstn n r'))) as [Hi|Hi].
    + right. rewrite nth_error_app1 by exact Hi. rewrite <- (firstn_skipn n r') at 2. rewrite nth_error_app1 by exact Hi. reflexivity.
    + left. rewrite nth_error_app2 by exact Hi. rewrite nth_error_skip. f_equal. lia.
Qed.

(** ** Without the layout condition it is false: each build moves the overflow block further. *)
From Verif Require Import RomExamples.
Lemma header_again : exists r2, write_bank Debug false header_bank header_out 0x8000 0xd036 0 ex_conv = Ok r2 /\ byte r2 197 <> byte header_out 197.
Proof. eexists. split; [vm_compute; reflexivity|vm_compute; discriminate]. Qed.
Lemma refute_again : exists r L bk r' r2, layout_ok r L /\ write_bank Debug false bk r (lo_addr L) 0xd036 0 ex_conv = Ok r' /\
  write_bank Debug false bk r' (lo_addr L) 0xd036 0 ex_conv = Ok r2 /\ r2 <> r'.
Proof.
  destruct header_again as (r2 & H & Hd). exists header_rom, (one_bank_layout 145 184), header_bank, header_out, r2.
  split; [exact header_layout|]. split; [exact header_written|]. split; [exact H|]. intros E. apply Hd. rewrite E. reflexivity.
Qed.
Lemma ex_again : exists r', rom_write Debug true ex_banks ex_rom true (map lo_addr ex_layouts) ex_conv (Wrote (length ex_rom)) = (Ok tt, r') /\ r' <> ex_rom.
Proof. eexists. split; [vm_compute; reflexivity|]. vm_compute. discriminate. Qed.

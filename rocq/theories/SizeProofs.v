(** SizeProofs.v: the sizes printed in verbose mode (C81). *)
From Coq Require Import ZArith List Bool Lia ZifyBool ZifyNat.
From Verif Require Import Base ProofLib F32 Command Track Song Paths Manifest Rom SpecRom RomLib Report SpecReport SpecSize ReportProofs ReportTrue.
Import ListNotations.
Open Scope Z_scope.
Open Scope list_scope.

Lemma sizes_told_app l1 l2 : sizes_told (l1 ++ l2) = sizes_told l1 ++ sizes_told l2.
Proof. induction l1 as [|[] l1 IH]; cbn [sizes_told app]; congruence. Qed.
Lemma switches_told_app l1 l2 : switches_told (l1 ++ l2) = switches_told l1 ++ switches_told l2.
Proof. induction l1 as [|[] l1 IH]; cbn [switches_told app]; congruence. Qed.
Lemma switches_in k l : In (Switching k) l <-> In k (switches_told l).
Proof.
  induction l as [|m l IH]; [reflexivity|]. cbn [In]. destruct m; cbn [switches_told In]; rewrite <- IH;
  (split; [intros [H|H]; [try discriminate; injection H as ->; auto|auto] | intros H; try (destruct H as [->|H]); auto]).
Qed.
Lemma sum_app l1 l2 : fold_right Z.add 0 (l1 ++ l2) = fold_right Z.add 0 l1 + fold_right Z.add 0 l2.
Proof. induction l1 as [|x l1 IH]; cbn [fold_right app]; [reflexivity|rewrite IH; lia]. Qed.

Lemma arith_mod b x n : arith b 64 x = Ok n -> n = x mod 2 ^ 64.
Proof.
  unfold arith. destruct ((0 <=? x) && (x <? 2 ^ 64)) eqn:E.
  - intros [= <-]. symmetry. apply Z.mod_small. lia.
  - destruct b; [discriminate|]. intros [= <-]. reflexivity.
Qed.
Lemma switch_sized b x y : snd (say_switch b true x y) = Ok tt -> said (fst (say_switch b true x y)) = [Switching ((x - y) mod 2 ^ 64)].
Proof.
  unfold say_switch. intros H. apply sb_ok in H. destruct H as (n & H1 & H2 & ->). rewrite said_app.
  cbn [silent fst snd say said app] in *. now rewrite (arith_mod _ _ _ H1).
Qed.

Lemma track_sized b bl o s st i st' : snd (show_track b true bl o s st i) = Ok st' ->
  exists d pre, write_track s [] i [] = Ok d /\
    said (fst (show_track b true bl o s st i)) = pre ++ [TrackData (ks_rom_addr st' + track_data_offset st' - data_len d) (ks_aram_base st' + track_data_offset st' - data_len d)] /\
    (pre = [] /\ ks_rom_addr st' = ks_rom_addr st /\ ks_aram_base st' = ks_aram_base st /\ ks_chunk_length st' = ks_chunk_length st /\
       track_data_offset st' = track_data_offset st + data_len d \/
     pre = [Switching ((ks_chunk_length st - o) mod 2 ^ 64)] /\ ks_aram_base st <> aram_overflow_base bl /\ ks_aram_base st' = aram_overflow_base bl).
Proof.
  unfold show_track. cbv zeta. intros H. split_show H. cbn [silent fst snd said app] in *. destruct a as [data refs]. exists (data, refs).
  unfold data_len. cbn [fst]. set (len := Z.of_nat (length data)) in *. assert (HL : 0 <= len) by lia.
  split_show H. destruct a as [[st1 p1] c1].
  match type of Hm0 with snd ?X = _ => set (X0 := X) in * end.
  assert (Hs : exists pre, said (fst X0) = pre /\
    (pre = [] /\ st1 = st \/
     pre = [Switching ((ks_chunk_length st - o) mod 2 ^ 64)] /\ ks_aram_base st <> aram_overflow_base bl /\ ks_aram_base st1 = aram_overflow_base bl)).
  { clear H. revert Hm0. unfold X0. clear X0. destruct (ks_chunk_length st <? track_data_offset st + len).
    - destruct (Z.eqb_spec (ks_aram_base st) (aram_overflow_base bl)) as [|Hne]; [discriminate|]. intros H.
      apply sb_ok in H. destruct H as ([] & H1 & H2 & ->). injection H2 as <- <- <-. rewrite said_app, (switch_sized _ _ _ H1).
      eexists. split; [reflexivity|]. right. auto.
    - intros [= <- _ _]. eexists. split; [reflexivity|]. left. auto. }
  destruct Hs as (pre & Es & Hp). rewrite Es. clearbody X0. exists pre. split; [exact Hm|].
  split_show H. cbn [say fst snd said app] in *. clear Hm1.
  cbv beta iota in H |- *. match type of H with snd ?Y = _ => set (Y0 := Y) in * end.
  assert (Ho : ks_rom_addr st' = ks_rom_addr st1 /\ ks_aram_base st' = ks_aram_base st1 /\ ks_chunk_length st' = ks_chunk_length st1 /\
    track_data_offset st' = track_data_offset st1 + len /\ said (fst Y0) = []).
  { revert H. unfold Y0. clear Y0. destruct (Z.ltb_spec 0 len) as [Hl|Hl]; intros H.
    - apply sb_ok in H. destruct H as (r & _ & H2 & ->). injection H2 as <-. cbn [ks_rom_addr ks_aram_base ks_chunk_length track_data_offset]. repeat split.
    - injection H as <-. cbn [ks_rom_addr ks_aram_base ks_chunk_length track_data_offset]. repeat split. lia. }
  destruct Ho as (O1 & O2 & O3 & O4 & O5). rewrite O5. cbn [app]. split.
  - f_equal. f_equal. f_equal; lia.
  - destruct Hp as [[-> ->]|(-> & Hp1 & Hp2)]; [left; auto|right]. split; [reflexivity|]. split; [exact Hp1|congruence].
Qed.

Lemma tracks_sized b bl o s : forall n i st st', snd (sfold (show_track b true bl o s) (seq i n) st) = Ok st' ->
  let log := said (fst (sfold (show_track b true bl o s) (seq i n) st)) in
  exists l, length l = n /\ (forall j d, nth_error l j = Some d -> write_track s [] (i + j) [] = Ok d) /\
    songs_told log = [] /\ sizes_told log = [] /\
    (switches_told log = [] /\ ks_rom_addr st' = ks_rom_addr st /\ ks_aram_base st' = ks_aram_base st /\ ks_chunk_length st' = ks_chunk_length st /\
       track_data_offset st' = track_data_offset st + fold_right Z.add 0 (map data_len l) /\
       tracks_told log = in_a_row (ks_rom_addr st + track_data_offset st) (ks_aram_base st + track_data_offset st) (map data_len l) \/
     switches_told log = [(ks_chunk_length st - o) mod 2 ^ 64] /\ ks_aram_base st <> aram_overflow_base bl /\ ks_aram_base st' = aram_overflow_base bl).
Proof.
  induction n as [|n IH]; intros i st st' H.
  - cbn [seq sfold] in *. injection H as <-. exists []. cbn. split; [reflexivity|]. split; [intros [|j] d; discriminate|]. split; [reflexivity|]. split; [reflexivity|].
    left. repeat split. lia.
  - cbn [seq sfold] in H |- *. apply sb_ok in H. destruct H as (st1 & H1 & H2 & ->). rewrite said_app.
    destruct (track_sized _ _ _ _ _ _ _ H1) as (d & pre & Hw & Es & Hp). destruct (IH _ _ _ H2) as (l & L1 & L2 & T1 & T2 & T3). rewrite Es. cbn zeta.
    exists (d :: l). split; [cbn [length]; lia|]. split.
    { intros [|j] d' Hj; cbn [nth_error] in Hj; [injection Hj as <-; now rewrite Nat.add_0_r|]. rewrite Nat.add_succ_r. exact (L2 _ _ Hj). }
    rewrite !songs_told_app, !sizes_told_app, !switches_told_app, !tracks_told_app, T1, T2. cbn [songs_told sizes_told switches_told tracks_told map fold_right in_a_row].
    destruct Hp as [(-> & P1 & P2 & P3 & P4)|(-> & P1 & P2)]; cbn [songs_told sizes_told switches_told tracks_told app]; (split; [reflexivity|]); (split; [reflexivity|]).
    + destruct T3 as [(-> & Q1 & Q2 & Q3 & Q4 & Q5)|(-> & Q1 & Q2)]; [left|right].
      * rewrite Q5. split; [reflexivity|]. split; [congruence|]. split; [congruence|]. split; [congruence|]. split; [lia|].
        rewrite P1, P2, P4. f_equal; [f_equal; lia|f_equal; lia].
      * rewrite P3. split; [reflexivity|]. split; [congruence|exact Q2].
    + right. destruct T3 as [(-> & Q1 & Q2 & _)|(_ & Q1 & _)]; [|congruence]. split; [reflexivity|]. split; [exact P1|congruence].
Qed.

Lemma part_quiet addrs part r a r' : snd (show_part true r a addrs part) = Ok r' ->
  let log := said (fst (show_part true r a addrs part)) in songs_told log = [] /\ tracks_told log = [] /\ sizes_told log = [] /\ switches_told log = [].
Proof.
  intros H. destruct (part_says _ _ _ _ _ H) as (F & S1 & S2 & _). cbn zeta. split; [exact S1|]. split; [exact S2|].
  clear - F. induction F as [|m l (k & ti & ta & _ & _ & ->) _ IH]; [auto|]. exact IH.
Qed.
Lemma patch_quiet addrs refs r r' : snd (sfold (show_patch true addrs) refs r) = Ok r' ->
  let log := said (fst (sfold (show_patch true addrs) refs r)) in songs_told log = [] /\ tracks_told log = [] /\ sizes_told log = [] /\ switches_told log = [].
Proof.
  intros H. destruct (patches_say _ _ _ _ H) as (F & S1 & S2 & _). cbn zeta. split; [exact S1|]. split; [exact S2|].
  clear - F. induction F as [|m l (x & ta & _ & _ & ->) _ IH]; [auto|]. exact IH.
Qed.

Lemma reserve_sized b bl lp st st1 : snd (show_reserve b true bl lp st) = Ok st1 ->
  let log := said (fst (show_reserve b true bl lp st)) in
  log = [] /\ st1 = st \/
  log = [Switching ((chunk_length st - song_offset st) mod 2 ^ 64)] /\ aram_base_addr st <> aram_overflow_base bl /\ aram_base_addr st1 = aram_overflow_base bl.
Proof.
  unfold show_reserve. destruct (chunk_length st <? _).
  - destruct (Z.eqb_spec (aram_base_addr st) (aram_overflow_base bl)) as [|Hne]; [discriminate|]. intros H.
    apply sb_ok in H. destruct H as ([] & H1 & H2 & ->). injection H2 as <-. rewrite said_app, (switch_sized _ _ _ H1). right. auto.
  - intros [= <-]. left. auto.
Qed.

Lemma song_logged b bl st lp s st' : snd (show_song b true bl st lp s) = Ok st' ->
  exists l rom ram table pre mid n, encodes s l /\
    said (fst (show_song b true bl st lp s)) = pre ++ SongAddress rom ram table :: mid ++ [SongSize n] /\
    (pre = [] \/ exists k, pre = [Switching k]) /\ songs_told mid = [] /\ sizes_told mid = [] /\
    (switches_told mid = [] -> let head := (if lp then 8 else 4) + 16 in
      n = head + fold_right Z.add 0 (map data_len l) /\
      tracks_told mid = in_a_row (rom + head) (ram + head) (map data_len l)) /\
    (switches_told (pre ++ mid) = [] /\ aram_base_addr st' = aram_base_addr st /\ chunk_length st' = chunk_length st /\ song_offset st' = song_offset st + n \/
     switches_told (pre ++ mid) = [(chunk_length st - song_offset st) mod 2 ^ 64] /\ aram_base_addr st <> aram_overflow_base bl /\ aram_base_addr st' = aram_overflow_base bl).
Proof.
  unfold show_song. cbv zeta. intros H.
  split_show H. rename a into st1. pose proof (reserve_sized _ _ _ _ _ Hm) as R; cbn zeta in R.
  set (pre := said (fst (show_reserve b true bl lp st))) in *.
  split_show H; cbn [say fst snd said app] in *; clear Hm0.
  split_show H; cbn [silent fst snd said app] in *; clear Hm0; rename a0 into r1.
  split_show H; rename a0 into ks; destruct (tracks_sized _ _ _ _ _ _ _ _ Hm0) as (l & L1 & L2 & T1 & T2 & T3); cbn [track_data_offset ks_rom_addr ks_chunk_length ks_aram_base] in T3.
  match goal with |- context [said (fst ?X)] => set (tl := said (fst X)) in * end.
  split_show H; cbn [say fst snd said app] in *.
  split_show H; cbn [silent fst snd said app] in *.
  split_show H; cbn [silent fst snd said app] in *.
  split_show H; destruct (part_quiet _ _ _ _ _ Hm4) as (P1 & P2 & P3 & P4).
  match goal with |- context [said (fst ?X)] => set (pl := said (fst X)) in * end.
  split_show H; destruct (patch_quiet _ _ _ _ Hm5) as (Q1 & Q2 & Q3 & Q4).
  match goal with |- context [said (fst ?X)] => set (ql := said (fst X)) in * end.
  split_show H; cbn [say silent fst snd said app] in *; injection H as <-; cbn [song_offset chunk_length aram_base_addr].
  match goal with |- context [SongAddress ?a ?b ?c] => set (rom := a); set (ram := b); set (table := c) end.
  match goal with |- context [PartData ?a ?b] => set (pd := PartData a b) end.
  match goal with |- context [SongSize ?a] => set (n := a) end.
  exists l, rom, ram, table, pre, (tl ++ pd :: pl ++ ql), n.
  assert (Em : songs_told (tl ++ pd :: pl ++ ql) = [] /\ sizes_told (tl ++ pd :: pl ++ ql) = [] /\
    switches_told (tl ++ pd :: pl ++ ql) = switches_told tl /\ tracks_told (tl ++ pd :: pl ++ ql) = tracks_told tl).
  { rewrite songs_told_app, sizes_told_app, switches_told_app, tracks_told_app. unfold pd. cbn [songs_told sizes_told switches_told tracks_told].
    rewrite songs_told_app, sizes_told_app, switches_told_app, tracks_told_app, T1, T2, P1, P2, P3, P4, Q1, Q2, Q3, Q4. cbn [app]. rewrite !app_nil_r. auto. }
  destruct Em as (M1 & M2 & M3 & M4). rewrite (switches_told_app pre), M1, M2, M3, M4.
  assert (Hs : 0 <= fold_right Z.add 0 (map data_len l)).
  { clear. induction l as [|d l IH]; cbn [map fold_right]; [lia|]. unfold data_len at 1. lia. }
  assert (Hn : track_data_offset ks = song_offset st1 + (if lp then 8 else 4) + 16 + fold_right Z.add 0 (map data_len l) ->
     n = (if lp then 8 else 4) + 16 + fold_right Z.add 0 (map data_len l) /\ track_data_offset ks = song_offset st1 + n).
  { intros E. unfold n. destruct (Z.ltb_spec (song_offset st1) (track_data_offset ks)) as [Hlt|Hge]; [destruct lp; lia|destruct lp; lia]. }
  split; [split; [exact L1|intros j d Hj; exact (L2 j d Hj)]|]. split; [rewrite <- !app_assoc; cbn [app]; rewrite <- !app_assoc; reflexivity|].
  split; [destruct R as [[R _]|[R _]]; [left; exact R|right; eexists; exact R]|]. split; [reflexivity|]. split; [reflexivity|]. split.
  - intros E. destruct T3 as [(_ & _ & _ & _ & T4 & T5)|(T3 & _)]; [|rewrite T3 in E; discriminate].
    destruct (Hn T4) as [N1 _]. split; [exact N1|]. rewrite T5. unfold rom, ram. f_equal; destruct lp; lia.
  - destruct R as [[-> ->]|(-> & R1 & R2)]; cbn [switches_told app].
    + destruct T3 as [(-> & _ & T3 & T4 & T5 & _)|(-> & T3 & T4)]; [left|right; auto]. destruct (Hn T5) as [_ N2]. auto.
    + right. destruct T3 as [(-> & _ & T3 & _)|(_ & T3 & _)]; [|congruence]. cbn [app]. split; [reflexivity|]. split; [exact R1|congruence].
Qed.

Lemma songs_sized b bar bl conv sds : forall st st', snd (sfold (show_song_def b true bar bl conv) sds st) = Ok st' ->
  exists segs, said (fst (sfold (show_song_def b true bar bl conv) sds st)) = concat segs /\ Forall2 (song_sized b conv) sds segs /\
    (length (switches_told (concat segs)) <= 1)%nat /\ (aram_base_addr st = aram_overflow_base bl -> switches_told (concat segs) = []) /\
    forall before seg after k, segs = before ++ seg :: after -> In (Switching k) seg ->
      k = (chunk_length st - song_offset st - fold_right Z.add 0 (sizes_told (concat before))) mod 2 ^ 64.
Proof.
  induction sds as [|sd sds IH]; intros st st' H.
  - exists []. split; [reflexivity|]. split; [constructor|]. split; [cbn; lia|]. split; [reflexivity|]. intros [|x before] seg after k E; discriminate.
  - cbn [sfold] in H |- *. apply sb_ok in H. destruct H as (st1 & H1 & H2 & ->). rewrite said_app.
    destruct (IH _ _ H2) as (segs & E1 & F & N & Q & K). rewrite E1. clear IH H2 E1.
    revert H1. unfold show_song_def at 1 2. intros H1. split_show H1. cbn [silent fst snd said app] in *.
    split_show H1. cbn [show fst snd said app] in *. split_show H1. cbn [silent fst snd said app] in *.
    split_show H1. split_show H1. cbn [show silent fst snd said app] in *. injection H1 as ->. rewrite !app_nil_r.
    destruct (song_logged _ _ _ _ _ _ Hm2) as (l & rom & ram & table & pre & mid & n & S1 & S2 & S3 & S4 & S5 & S6 & S7). rewrite S2.
    set (seg := pre ++ SongAddress rom ram table :: mid ++ [SongSize n]).
    assert (W : switches_told seg = switches_told (pre ++ mid) /\ sizes_told seg = [n]).
    { unfold seg. rewrite !switches_told_app, !sizes_told_app. cbn [switches_told sizes_told]. rewrite switches_told_app, sizes_told_app, S5. cbn [switches_told sizes_told app].
      rewrite app_nil_r. split; [reflexivity|]. destruct S3 as [->|[k ->]]; reflexivity. }
    destruct W as [W1 W2]. exists (seg :: segs). split; [reflexivity|]. split.
    { constructor; [|exact F]. exists a1, l, rom, ram, table, pre, mid, n. split; [|exact (conj S1 (conj eq_refl (conj S3 (conj S4 (conj S5 S6)))))].
      unfold load_song in Hm1. destruct (input sd); exact Hm1. }
    cbn [concat]. rewrite switches_told_app, W1. destruct S7 as [(A0 & A1 & A2 & A3)|(A0 & A1 & A2)]; rewrite A0 in W1 |- *; cbn [app].
    + split; [exact N|]. split; [intros A; apply Q; congruence|]. intros [|x before] sg after k E Hin.
      * injection E as <- _. apply switches_in in Hin. rewrite W1 in Hin. destruct Hin.
      * injection E as <- E. rewrite (K _ _ _ _ E Hin). cbn [concat]. rewrite sizes_told_app, W2, sum_app. cbn [fold_right]. f_equal. lia.
    + rewrite (Q A2). split; [cbn; lia|]. split; [contradiction|]. intros [|x before] sg after k E Hin.
      * injection E as <- _. apply switches_in in Hin. rewrite W1 in Hin. cbn.
        destruct Hin as [<-|[]]. cbn. f_equal. lia.
      * injection E as <- E. exfalso. apply switches_in in Hin. pose proof (Q A2) as Hq. rewrite E, concat_app, switches_told_app in Hq. cbn [concat] in Hq.
        rewrite switches_told_app in Hq. destruct (switches_told sg); [exact Hin|]. destruct (switches_told (concat before)); discriminate.
Qed.

Lemma bank_logged b bar bk r ba fa first conv r' : snd (show_bank b true bar bk r ba fa first conv) = Ok r' ->
  bank_sized b conv bk fa (said (fst (show_bank b true bar bk r ba fa first conv))).
Proof.
  unfold show_bank. intros H. split_show H. cbn [silent fst snd said app] in *. split_show H. cbn [say fst snd said app] in *.
  split_show H. cbn [show fst snd said app] in *. split_show H. cbn [silent fst snd said app] in *. rewrite app_nil_r.
  destruct (songs_sized _ _ _ _ _ _ _ Hm2) as (segs & E & F & N & _ & K). rewrite E.
  exists (base_chunk_addr a), (Z.of_nat first), (base_chunk_len a), segs. split; [reflexivity|]. split; [exact F|]. split; [exact N|]. exact K.
Qed.

Lemma banks_logged b conv addrs bks : forall i first r r', snd (show_banks b true bks i first r addrs conv) = Ok r' ->
  exists logs, said (fst (show_banks b true bks i first r addrs conv)) = concat logs /\ length logs = length bks /\
  forall k bk fa log, nth_error bks k = Some bk -> nth_error BANK_FIRST_SONG_ADDRS (i + k) = Some fa -> nth_error logs k = Some log -> bank_sized b conv bk fa log.
Proof.
  induction bks as [|bk bks IH]; intros i first r r' H; cbn [show_banks] in *.
  - exists []. split; [reflexivity|]. split; [reflexivity|]. intros [|k] bk fa log; discriminate.
  - split_show H. cbn [silent fst snd said app] in *. split_show H. cbn [silent fst snd said app] in *. split_show H. split_show H. cbn [show fst snd said app] in *.
    apply or_panic_ok in Hm0. destruct (IH _ _ _ _ H) as (logs & E & L & K). rewrite E.
    exists (said (fst (show_bank b true (S i) bk r a a0 first conv)) :: logs). split; [reflexivity|]. split; [cbn [length]; lia|].
    intros [|k] bk' fa log Hk Hf Hl; cbn [nth_error] in Hk, Hl.
    + injection Hk as <-. injection Hl as <-. rewrite Nat.add_0_r, Hm0 in Hf. injection Hf as <-. eapply bank_logged. exact Hm1.
    + apply (K k bk' fa log Hk); [|exact Hl]. now rewrite Nat.add_succ_comm.
Qed.

Lemma write_sized b m file addrs conv os : snd (show_write b true m file true addrs conv os) = Ok tt ->
  exists logs, said (fst (show_write b true m file true addrs conv os)) = concat logs /\ length logs = length m /\
  forall k bk fa log, nth_error m k = Some bk -> nth_error BANK_FIRST_SONG_ADDRS k = Some fa -> nth_error logs k = Some log -> bank_sized b conv bk fa log.
Proof.
  unfold show_write. intros H. split_show H. cbn [show fst snd] in *. rewrite said_bars. split_show H. split_show H.
  destruct (banks_logged _ _ _ _ _ _ _ _ Hm0) as (logs & E & L & K). exists logs. split; [|split; [exact L|exact K]].
  rewrite E. cbn [silent show fst said app]. rewrite app_nil_r. reflexivity.
Qed.

(** Two songs, of which the second goes to the overflow block. *)
From Coq Require Import String.
From Verif Require Import RomExamples ReportMore.
Definition two_bank : bank := mk_bank "a"%string [ex_slot; ex_slot].
Definition two_write : shown unit := show_write Debug true [two_bank] (one_bank_rom 100 60) true [0x8000] (notes_conv 2) (Wrote 300).
Lemma two_sized : snd two_write = Ok tt /\ said (fst two_write) =
  [BankStart 50 0 100; SongAddress 104 0xd036 50; TrackData 128 0xd04e; PartData 112 0xd03e; TrackAddress 0xd04e 112; SongSize 35;
   Switching 11; SongAddress 154 0xe000 52; TrackData 178 0xe018; PartData 162 0xe008; TrackAddress 0xe018 162; SongSize 35].
Proof. split; lazy; reflexivity. Qed.

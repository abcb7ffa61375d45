(** ReportTrue.v: the addresses printed in verbose mode are those of the finished image (C81). *)
From Coq Require Import ZArith List Bool Lia ZifyBool ZifyNat Sorted.
From Verif Require Import Base ProofLib F32 Command Track Song Paths Manifest Rom SpecRom SpecBank RomLib RomProofs RomBank RomChain RomBanks Report SpecReport ReportProofs.
Import ListNotations.
Open Scope Z_scope.
Open Scope list_scope.

Lemma sb_ok {A B} (m : shown A) (f : A -> shown B) c : snd (sbind m f) = Ok c ->
  exists a, snd m = Ok a /\ snd (f a) = Ok c /\ fst (sbind m f) = fst m ++ fst (f a).
Proof. unfold sbind. destruct (snd m) as [a|e|p|] eqn:E; cbn [fst snd]; intros H; try discriminate. exists a. auto. Qed.
Lemma said_app l1 l2 : said (l1 ++ l2) = said l1 ++ said l2.
Proof. induction l1 as [|[] l1 IH]; cbn [said app]; congruence. Qed.
Lemma songs_told_app l1 l2 : songs_told (l1 ++ l2) = songs_told l1 ++ songs_told l2.
Proof. induction l1 as [|[] l1 IH]; cbn [songs_told app]; congruence. Qed.
Lemma tracks_told_app l1 l2 : tracks_told (l1 ++ l2) = tracks_told l1 ++ tracks_told l2.
Proof. induction l1 as [|[] l1 IH]; cbn [tracks_told app]; congruence. Qed.
Lemma parts_told_app l1 l2 : parts_told (l1 ++ l2) = parts_told l1 ++ parts_told l2.
Proof. induction l1 as [|[] l1 IH]; cbn [parts_told app]; congruence. Qed.
Lemma pointers_told_app l1 l2 : pointers_told (l1 ++ l2) = pointers_told l1 ++ pointers_told l2.
Proof. induction l1 as [|[] l1 IH]; cbn [pointers_told app]; congruence. Qed.
Lemma operands_told_app l1 l2 : operands_told (l1 ++ l2) = operands_told l1 ++ operands_told l2.
Proof. induction l1 as [|[] l1 IH]; cbn [operands_told app]; congruence. Qed.
Lemma combine_app_eq {A B} (a1 a2 : list A) (b1 b2 : list B) : length a1 = length b1 -> combine (a1 ++ a2) (b1 ++ b2) = combine a1 b1 ++ combine a2 b2.
Proof. revert b1. induction a1 as [|a a1 IH]; intros [|b b1] H; cbn in *; try discriminate; [reflexivity|]. f_equal. apply IH. lia. Qed.
Lemma all_told_app ss1 ss2 ls1 ls2 log1 log2 : length (songs_told log1) = length ls1 -> length (songs_told log1) = length ss1 ->
  length (tracks_told log1) = length (flat_map snd ls1) -> all_told ss1 ls1 log1 -> all_told ss2 ls2 log2 -> all_told (ss1 ++ ss2) (ls1 ++ ls2) (log1 ++ log2).
Proof.
  intros E1 E2 E3 (A1 & A2 & A3) (B1 & B2 & B3).
  assert (E4 : length (parts_told log1) = length ss1) by (rewrite A1, map_length, combine_length; lia).
  unfold all_told. rewrite songs_told_app, tracks_told_app, parts_told_app, pointers_told_app, operands_told_app, flat_map_app, !combine_app_eq by assumption.
  rewrite map_app, !flat_map_app. split; [|split]; congruence.
Qed.
Ltac split_show H := let a := fresh "a" in let H1 := fresh "Hm" in let E := fresh "E" in
  apply sb_ok in H; destruct H as (a & H1 & H & E); rewrite E; clear E; rewrite said_app.

Lemma switch_said b x y : snd (say_switch b true x y) = Ok tt -> exists n, said (fst (say_switch b true x y)) = [Switching n].
Proof. unfold say_switch. intros H. apply sb_ok in H. destruct H as (n & H1 & H2 & ->). exists n. rewrite said_app. reflexivity. Qed.

(** ** Tracks *)
Lemma track_says b base ovf n s o st i st' p data refs :
  good_blocks base ovf n -> kcursor base ovf p st -> size (ks_rom st) = n ->
  write_track s [] i [] = Ok (data, refs) ->
  (place base ovf p (Z.of_nat (length data)) = p \/ refs = [] /\ Z.of_nat (length data) <= tb_len ovf) ->
  snd (show_track b true (blocks_of base ovf) o s st i) = Ok st' ->
  let q := place base ovf p (Z.of_nat (length data)) in
  exists pre ram, said (fst (show_track b true (blocks_of base ovf) o s st i)) = pre ++ [TrackData q ram] /\
    (pre = [] \/ exists x, pre = [Switching x]) /\ goes_to base ovf q ram (Z.of_nat (length data)).
Proof.
  intros (G1 & G2 & G3 & G4 & G5 & G6 & G7) Hk Hn Hw Hstay H q. unfold show_track in *. cbv zeta in *. set (len := Z.of_nat (length data)) in *.
  split_show H. cbn [silent snd] in Hm. rewrite Hw in Hm. injection Hm as <-. cbn [silent fst said app]. cbv beta iota in H |- *. fold len in H |- *.
  assert (HL : 0 <= len) by lia.
  split_show H. destruct a as [[st1 pre] cur].
  match type of Hm with snd ?X = _ => set (X0 := X) in * end.
  assert (Hs : exists pre0, said (fst X0) = pre0 /\ (pre0 = [] \/ exists x, pre0 = [Switching x]) /\
      ks_rom_addr st1 + track_data_offset st1 = q /\ goes_to base ovf q (ks_aram_base st1 + track_data_offset st1) len).
  { clear H. revert Hm. unfold X0, q, kcursor in *. clear X0. inversion Hk as [p' Hp E0 E1 E2 E3 E4|p' Hp E0 E1 E2 E3 E4]; subst p'.
    - destruct (Z.ltb_spec (tb_len base) (p - payload base + len)) as [Hlt|Hle].
      + cbn [aram_overflow_base blocks_of]. rewrite G6. destruct (Z.eqb_spec 53248 (tb_aram ovf)); [congruence|]. intros Hm.
        rewrite (place_switch base ovf p len) in * by (unfold payload, payload_end in *; lia).
        assert (Hfit : len <= tb_len ovf) by (destruct Hstay as [Hstay|[_ Hfit]]; [unfold payload, payload_end in *; lia|exact Hfit]).
        apply sb_ok in Hm. destruct Hm as ([] & Hm1 & Hm2 & ->). injection Hm2 as <- <- <-.
        destruct (switch_said _ _ _ Hm1) as [x Hx]. rewrite said_app, Hx. cbn [silent fst said app].
        exists [Switching x]. split; [reflexivity|]. split; [right; eexists; reflexivity|]. cbn [ks_rom_addr track_data_offset ks_aram_base blocks_of overflow_chunk_addr].
        split; [lia|]. exists ovf. split; [auto|]. unfold payload, payload_end in *. lia.
      + intros [= <- _ _]. exists []. split; [reflexivity|]. split; [auto|]. rewrite (place_base base ovf p len) by (unfold payload, payload_end in *; lia).
        rewrite <- E1, <- E3, <- E4. split; [lia|]. exists base. split; [auto|]. unfold payload, payload_end in *. lia.
    - destruct (Z.ltb_spec (tb_len ovf) (p - payload ovf + len)) as [Hlt|Hle].
      + cbn [aram_overflow_base blocks_of]. rewrite Z.eqb_refl. discriminate.
      + intros [= <- _ _]. exists []. split; [reflexivity|]. split; [auto|]. rewrite (place_ovf base ovf p len) by (unfold payload, payload_end in *; lia).
        rewrite <- E1, <- E3, <- E4. split; [lia|]. exists ovf. split; [auto|]. unfold payload, payload_end in *. lia. }
  destruct Hs as (pre0 & Es & Hpre & Hq & Hg). rewrite Es. clearbody X0. exists pre0, (ks_aram_base st1 + track_data_offset st1). split; [|split; [exact Hpre|exact Hg]].
  split_show H. rewrite Hq in *. cbn [say fst said app]. f_equal. clear - H. destruct (0 <? len); [|reflexivity].
  apply sb_ok in H. destruct H as (r & _ & _ & ->). reflexivity.
Qed.

Lemma tracks_say b base ovf n s o l : forall i st st' p,
  good_blocks base ovf n -> kcursor base ovf p st -> size (ks_rom st) = n ->
  (forall k d, nth_error l k = Some d -> write_track s [] (i + k) [] = Ok d) -> tracks_stay base ovf p l ->
  snd (sfold (show_track b true (blocks_of base ovf) o s) (seq i (length l)) st) = Ok st' ->
  let log := said (fst (sfold (show_track b true (blocks_of base ovf) o s) (seq i (length l)) st)) in
  Forall (fun m => (exists x, m = Switching x) \/ exists q ram, m = TrackData q ram /\ goes_to base ovf q ram 0) log /\ songs_told log = [] /\
  Forall2 (fun x d => goes_to base ovf (fst x) (snd x) (data_len d)) (tracks_told log) l /\
  map fst (tracks_told log) = places base ovf p l /\ parts_told log = [] /\ pointers_told log = [] /\ operands_told log = [].
Proof.
  induction l as [|[data refs] l IH]; intros i st st' p HG Hk Hn Hw Hstay H; cbv zeta.
  - cbn. repeat split; constructor.
  - cbn [length seq sfold] in *. split_show H. rename a into st1. cbn [tracks_stay] in Hstay. destruct Hstay as [Hs1 Hstay].
    pose proof (Hw O _ eq_refl) as Hw0. rewrite Nat.add_0_r in Hw0. unfold data_len in Hs1. cbn [fst snd] in Hs1.
    destruct (track_says b base ovf n s o st i st1 p data refs HG Hk Hn Hw0 Hs1 Hm) as (pre & ram & E & Hpre & Hg). rewrite E.
    rewrite track_snd in Hm.
    pose proof (one_track b true base ovf n s o st i st1 p data refs HG Hk Hn Hw0 Hs1 Hm) as (H1 & H2 & H3 & H4 & _).
    set (q := place base ovf p (Z.of_nat (length data))) in *.
    destruct (IH (S i) st1 st' (q + Z.of_nat (length data)) HG H3) as (J1 & J2 & J3 & J4 & J5).
    { rewrite (same_size _ _ _ H4). exact Hn. }
    { intros k d Hd. replace (S i + k)%nat with (i + S k)%nat by lia. apply Hw. exact Hd. }
    { exact Hstay. }
    { exact H. }
    cbv zeta in J1, J2, J3, J4. rewrite songs_told_app, tracks_told_app, parts_told_app, pointers_told_app, operands_told_app, J2.
    cbn [places]. change (data_len (data, refs)) with (Z.of_nat (length data)). fold q. rewrite <- J4.
    assert (Hg0 : goes_to base ovf q ram 0) by (destruct Hg as (bb & B1 & B2 & B3 & B4); exists bb; repeat split; auto; lia).
    destruct Hpre as [-> | [x ->]]; cbn [app tracks_told songs_told parts_told pointers_told operands_told map].
    + split; [|split; [|split]].
      * constructor; [right; eauto|exact J1].
      * reflexivity.
      * constructor; [exact Hg|exact J3].
      * split; [reflexivity|exact J5].
    + split; [|split; [|split]].
      * constructor; [left; eauto|]. constructor; [right; eauto|exact J1].
      * reflexivity.
      * constructor; [exact Hg|exact J3].
      * split; [reflexivity|exact J5].
Qed.

(** ** Part table and loop operands *)
Lemma part_says addrs part : forall r a r', snd (show_part true r a addrs part) = Ok r' ->
  let log := said (fst (show_part true r a addrs part)) in
  Forall (fun m => exists k ti ta, nth_error part k = Some ti /\ nth_error addrs ti = Some ta /\ m = TrackAddress ta (a + 2 * Z.of_nat k)) log /\
  songs_told log = [] /\ tracks_told log = [] /\ parts_told log = [] /\ pointers_told log = map (fun k => a + 2 * Z.of_nat k) (seq 0 (length part)) /\ operands_told log = [].
Proof.
  induction part as [|ti part IH]; intros r a r' H; cbv zeta; cbn [show_part] in *; [repeat split; constructor|].
  split_show H. cbn [silent snd] in Hm. apply or_panic_ok in Hm. rename a0 into ta. cbn [silent fst said app].
  split_show H. cbn [say fst said app]. destruct (addr_to_bytes ta) as [h l]. split_show H. cbn [silent fst said app].
  destruct (IH _ _ _ H) as (J1 & J2 & J3 & J4 & J5 & J6). cbn [songs_told tracks_told parts_told pointers_told operands_told].
  split; [|split; [exact J2|split; [exact J3|split; [exact J4|split; [|exact J6]]]]]; [constructor|].
  - exists O, ti, ta. split; [reflexivity|]. split; [exact Hm|]. f_equal. lia.
  - eapply Forall_impl; [|exact J1]. intros m (k & ti' & ta' & K1 & K2 & ->). exists (S k), ti', ta'. split; [exact K1|]. split; [exact K2|]. f_equal. lia.
  - rewrite J5. cbn [length seq map]. f_equal; [lia|]. rewrite <- seq_shift, map_map. apply map_ext. intros k. lia.
Qed.
Lemma patches_say addrs refs : forall r r', snd (sfold (show_patch true addrs) refs r) = Ok r' ->
  let log := said (fst (sfold (show_patch true addrs) refs r)) in
  Forall (fun m => exists x ta, In x refs /\ nth_error addrs (rr_target x) = Some ta /\ m = LoopAddress ta (ref_addr x)) log /\
  songs_told log = [] /\ tracks_told log = [] /\ parts_told log = [] /\ pointers_told log = [] /\ operands_told log = map ref_addr refs.
Proof.
  induction refs as [|x refs IH]; intros r r' H; cbv zeta; cbn [sfold] in *; [repeat split; constructor|].
  split_show H. rename a into r1. destruct (IH _ _ H) as (J1 & J2 & J3 & J4 & J5 & J6). cbv zeta in J1, J2, J3, J4, J5, J6.
  assert (E : exists ta, nth_error addrs (rr_target x) = Some ta /\ said (fst (show_patch true addrs r x)) = [LoopAddress ta (ref_addr x)]).
  { unfold show_patch in *. cbv zeta in *. split_show Hm. cbn [silent snd] in Hm0. apply or_panic_ok in Hm0. exists a. split; [exact Hm0|].
    split_show Hm. cbn [say silent fst said app]. destruct (addr_to_bytes a). reflexivity. }
  destruct E as (ta & E1 & E2). rewrite E2. cbn [app songs_told tracks_told parts_told pointers_told operands_told map].
  split; [|split; [exact J2|split; [exact J3|split; [exact J4|split; [exact J5|rewrite J6; reflexivity]]]]]. constructor.
  - exists x, ta. split; [left; reflexivity|]. auto.
  - eapply Forall_impl; [|exact J1]. intros m (y & ta' & K1 & K2 & ->). exists y, ta'. split; [right; exact K1|]. auto.
Qed.

(** ** One song *)
Lemma hold_word r a w : 0 <= w < 65536 -> bytes_hold r a w -> word r a = w.
Proof. intros Hw [H1 H2]. unfold word. rewrite H1, H2. Z.div_mod_to_equations. lia. Qed.
Lemma holds_in base ovf n r a w : good_blocks base ovf n -> in_data base ovf a -> in_data base ovf (a + 1) -> 0 <= w < 65536 -> bytes_hold r a w -> holds_word base ovf r a w.
Proof.
  intros (G1 & G2 & G3 & G4 & G5 & G6 & G7) H1 H2 Hw H. split; [|apply hold_word; assumption]. unfold in_data, in_payload, payload, payload_end in *.
  destruct (Z.ltb_spec a (tb_start base + 4 + tb_len base)); [exists base|exists ovf]; (split; [auto|]); lia.
Qed.
Lemma addrs_u16 base ovf n r h e lp s at_ qs l : good_blocks base ovf n -> aram_fits base ovf -> song_at base ovf r h e lp s at_ qs l ->
  forall k ta, nth_error at_ k = Some ta -> 0 <= ta < 65536.
Proof.
  intros HG HA [A1 A2 A3 A4 [L1 L2] A6 A7 A8] k ta Hk.
  assert (Hlt : (k < length l)%nat) by (rewrite <- L2; apply nth_error_Some; congruence).
  destruct (nth_error l k) as [d|] eqn:Ed; [|apply nth_error_None in Ed; lia].
  destruct (nth_error qs k) as [q|] eqn:Eq; [|apply nth_error_None in Eq; lia].
  rewrite (A7 k q d Eq Ed) in Hk. injection Hk as <-. unfold addr_of. destruct (fst d) eqn:Ef; [lia|].
  apply (aram_of_range base ovf n); auto. destruct (A6 k q d Eq Ed) as (_ & _ & B). apply B. unfold data_len. rewrite Ef. cbn [length]. lia.
Qed.

Lemma song_says b base ovf n st lp s st' p l :
  good_blocks base ovf n -> aram_fits base ovf -> wcursor base ovf p st -> size (ws_rom st) = n ->
  24 <= tb_len ovf -> encodes s l ->
  (forall part, nth_error (parts s) 0 = Some part -> (length part <= 8)%nat) ->
  song_stays base ovf p lp l -> 0 <= song_table_addr st -> song_table_addr st + 2 <= p ->
  in_data base ovf (song_table_addr st) -> in_data base ovf (song_table_addr st + 1) ->
  snd (show_song b true (blocks_of base ovf) st lp s) = Ok st' ->
  let h := place base ovf p (header_size lp + 16) in let e := song_end base ovf p lp l in
  let qs := places base ovf (h + (header_size lp + 16)) l in
  let log := said (fst (show_song b true (blocks_of base ovf) st lp s)) in
  forall r, song_at base ovf r h e lp s (addrs_of base ovf qs l) qs l -> bytes_hold r (song_table_addr st) (aram_of base ovf h) ->
  Forall (report_true base ovf r) log /\ map snd (songs_told log) = [song_table_addr st] /\ Forall2 (track_told base ovf r) (tracks_told log) l /\ all_told [s] [(lp, l)] log.
Proof.
  intros HG HAF Hw Hn H24 [HeL He] Hpart Hstay Hta0 Hta Htd1 Htd2 H. cbv zeta. set (h := place base ovf p (header_size lp + 16)).
  set (e := song_end base ovf p lp l). intros r HS HT.
  assert (HU := addrs_u16 _ _ _ _ _ _ _ _ _ _ _ HG HAF HS).
  pose proof HS as [A1 A2 A3 A4 A5 A6 A7 A8].
  unfold show_song in *. cbv zeta in *. split_show H. rename a into st1.
  assert (Hres := Hm). rewrite reserve_snd in Hres.
  destruct (reserve_ok _ _ _ _ n _ _ _ _ HG Hw H24 Hres) as (R1 & R2 & R3 & R4 & R5 & R6 & R7 & R8). fold h in R1, R2, R5, R6, R7, R8.
  set (m := header_size lp + 16) in *. assert (Hhm : 20 <= m <= 24) by (unfold m, header_size; destruct lp; lia).
  change (if lp then 8 else 4) with (header_size lp) in *.
  destruct (HG) as (G1 & G2 & G3 & G4 & G5 & G6 & G7).
  assert (Hh : in_data base ovf h) by (apply R5; lia).
  assert (Hsa : 0 <= aram_of base ovf h < 65536) by (eapply aram_of_range; eauto).
  (* the header *)
  assert (Hr1 : exists pre, said (fst (show_reserve b true (blocks_of base ovf) lp st)) = pre /\ (pre = [] \/ exists x, pre = [Switching x])).
  { clear - Hm. unfold show_reserve in *. destruct (_ <? _); [|eexists; split; [reflexivity|auto]]. destruct (_ =? _); [discriminate|].
    apply sb_ok in Hm. destruct Hm as ([] & Hm1 & _ & ->). destruct (switch_said _ _ _ Hm1) as [x Hx]. rewrite said_app, Hx. eexists. split; [reflexivity|right; eexists; reflexivity]. }
  destruct Hr1 as (pre & -> & Hpre).
  split_show H. rewrite R7, R8, R4 in *. cbn [say fst said]. clear Hm0.
  split_show H. cbn [silent fst said app snd] in *. rename a0 into r1.
  assert (Hlt2 : song_table_addr st + 2 <= rom_addr st1 + song_offset st1) by lia.
  destruct (header_ok _ _ _ _ _ _ _ Hta0 Hlt2 ltac:(rewrite R8; lia) Hm0) as (S1 & _). 
  (* the tracks *)
  split_show H. rename a0 into ks.
  assert (Hlen : get_num_tracks s = length l) by (unfold get_num_tracks; symmetry; exact HeL).
  rewrite Hlen in *.
  set (ks0 := mk_kstate r1 (song_offset st1 + header_size lp + 16) (rom_addr st1) (chunk_length st1) (aram_base_addr st1) [] []) in *.
  assert (Hk0 : kcursor base ovf (h + m) ks0).
  { unfold kcursor, ks0. cbn. replace (song_offset st1 + header_size lp + 16) with (song_offset st1 + m) by (unfold m; lia). exact R6. }
  assert (Hn1 : size r1 = n) by (rewrite (same_size _ _ _ S1), R3; exact Hn).
  destruct (tracks_say b base ovf n s (song_offset st1) l O ks0 ks (h + m) HG Hk0 Hn1) as (T1 & T2 & T3 & T4 & T8 & T9 & T10); [intros k d Hd; apply He; exact Hd|exact Hstay|exact Hm1|].
  cbv zeta in T1, T2, T3, T4, T8, T9, T10.
  rewrite (sfold_snd _ _ (fun st i => track_snd b true (blocks_of base ovf) (song_offset st1) s st i)) in Hm1.
  destruct (all_tracks b true base ovf n s (song_offset st1) l O ks0 ks (h + m) HG Hk0 Hn1) as (_ & _ & _ & _ & _ & T6 & T7); [intros k d Hd; apply He; exact Hd|exact Hstay|exact Hm1|].
  set (qs := places base ovf (h + m) l) in *. cbn [ks0 track_addrs call_loops app] in T6, T7. set (at_ := addrs_of base ovf qs l) in *.
  set (tlog := said (fst (sfold _ _ _))) in *.
  (* the rest *)
  split_show H. cbn [say fst said]. split_show H. cbn [silent fst said app snd] in *. split_show H. cbn [silent fst said app snd] in *. rename a2 into part.
  unfold get_part_tracks in Hm4. apply or_panic_ok in Hm4.
  split_show H. rename a2 into r3. destruct (part_says _ _ _ _ _ Hm5) as (P1 & P2 & P3 & P4 & P5 & P6). cbv zeta in P1, P2, P3, P4, P5, P6. set (plog := said (fst (show_part _ _ _ _ _))) in *.
  split_show H. rename a2 into r4. destruct (patches_say _ _ _ _ Hm6) as (Q1 & Q2 & Q3 & Q4 & Q5 & Q6). cbv zeta in Q1, Q2, Q3, Q4, Q5, Q6. set (qlog := said (fst (sfold _ _ r3))) in *.
  split_show H. cbn [say silent fst said app]. rewrite T6, T7 in *.
  assert (Hpart_true : Forall (report_true base ovf r) plog).
  { eapply Forall_impl; [|exact P1]. intros y (k & ti & ta & K1 & K2 & ->). cbn [report_true].
    destruct A4 as (part' & E1 & E2). assert (part' = part) by congruence. subst part'. specialize (Hpart part E1).
    assert (Hk : (k < 8)%nat) by (assert (k < length part)%nat by (apply nth_error_Some; congruence); lia).
    specialize (E2 k Hk). rewrite K1, (nth_error_nth _ _ 0 K2) in E2. replace (rom_addr st1 + (song_offset st1 + header_size lp)) with (h + header_size lp) by lia.
    eapply holds_in; [exact HG| | |apply (HU ti ta K2)|exact E2]; apply R5; unfold m, header_size; destruct lp; lia. }
  assert (Hpatch_true : Forall (report_true base ovf r) qlog).
  { eapply Forall_impl; [|exact Q1]. intros y (x & ta & K1 & K2 & ->). cbn [report_true].
    destruct (loops_at_in l qs x K1) as (k & q & d & z & Hq & Hd & Hz & ->). cbn [rr_target] in K2. unfold ref_addr. cbn [rr_chunk_base rr_ref_pos].
    destruct (A8 k q d Hq Hd) as [_ E]. destruct (E z Hz) as (ta' & E1 & E2). assert (ta' = ta) by congruence. subst ta'.
    destruct (A6 k q d Hq Hd) as (D1 & D2 & D3). assert (HR : refs_ok d).
    { pose proof (encodes_refs s l (conj HeL He)) as HR. rewrite Forall_forall in HR. apply HR. eapply nth_error_In; exact Hd. }
    destruct HR as [HR _]. rewrite Forall_forall in HR. specialize (HR z Hz). unfold data_len in *.
    eapply holds_in; [exact HG| | |apply (HU _ ta K2)|exact E2]; apply D3; lia. }
  assert (Hgo : forall n0 k, 0 <= k -> k + n0 <= m -> 0 < n0 -> goes_to base ovf (h + k) (aram_of base ovf h + k) n0).
  { intros n0 k Hk1 Hk2 Hn0. pose proof (R5 h ltac:(lia)) as B1. pose proof (R5 (h + m - 1) ltac:(lia)) as B2. unfold in_data, in_payload, aram_of in *.
    destruct (Z.ltb_spec h (payload_end base)); [exists base|exists ovf]; (split; [auto|]); unfold payload, payload_end in *; [|lia].
    destruct (Z.leb_spec (h + m) (tb_start base + 4 + tb_len base)); [lia|]. exfalso.
    pose proof (R5 (tb_start base + 4 + tb_len base) ltac:(lia)) as B3. unfold in_data, in_payload, payload, payload_end in B3. lia. }
  split; [|split; [|split]].
  - apply Forall_app. split; [destruct Hpre as [-> | [x ->]]; repeat constructor|]. constructor.
    + cbn [report_true]. split; [|eapply holds_in; eauto]. replace h with (h + 0) at 1 by lia. replace (aram_of base ovf h) with (aram_of base ovf h + 0) by lia. apply Hgo; lia.
    + apply Forall_app. split.
      * eapply Forall_impl; [|exact T1]. intros y [[x ->]|(q & ram & -> & Hq)]; [exact I|exact Hq].
      * constructor.
        -- cbn [report_true]. replace (rom_addr st1 + (song_offset st1 + header_size lp)) with (h + header_size lp) by lia.
           replace (aram_base_addr st1 + (song_offset st1 + header_size lp)) with (aram_of base ovf h + header_size lp) by lia.
           apply Hgo; unfold m, header_size; destruct lp; lia.
        -- apply Forall_app. split; [exact Hpart_true|]. apply Forall_app. split; [exact Hpatch_true|]. repeat constructor.
  - rewrite songs_told_app. cbn [app songs_told]. rewrite songs_told_app, T2. cbn [app songs_told]. rewrite !songs_told_app, P2, Q2.
    destruct Hpre as [-> | [x ->]]; reflexivity.
  - rewrite tracks_told_app. cbn [app tracks_told]. rewrite tracks_told_app. cbn [tracks_told]. rewrite !tracks_told_app, P3, Q3. cbn [app tracks_told]. rewrite app_nil_r.
    assert (E : tracks_told pre = []) by (destruct Hpre as [-> | [x ->]]; reflexivity). rewrite E. cbn [app]. clear - T3 T4 A8.
    assert (A9 : forall k q d, nth_error qs k = Some q -> nth_error l k = Some d -> forall j, (j < length (fst d))%nat -> ~ operand (snd d) j -> byte r (q + Z.of_nat j) = nth j (fst d) 0)
      by (intros k q d Hq Hd; apply (A8 k q d Hq Hd)).
    rewrite <- T4 in A9. clear A8 T4 qs at_. induction T3 as [|x d xs l Hx _ IH]; constructor.
    + split; [exact Hx|]. apply (A9 O (fst x) d); reflexivity.
    + apply IH. intros k q d' Hq Hd. apply (A9 (S k) q d'); assumption.
  - assert (Eo : songs_told pre = [] /\ tracks_told pre = [] /\ parts_told pre = [] /\ pointers_told pre = [] /\ operands_told pre = []) by (destruct Hpre as [-> | [x ->]]; repeat split).
    destruct Eo as (O1 & O2 & O3 & O4 & O5). unfold all_told.
    rewrite !songs_told_app, !tracks_told_app, !parts_told_app, !pointers_told_app, !operands_told_app, O1, O2, O3, O4, O5.
    cbn [songs_told tracks_told parts_told pointers_told operands_told app].
    rewrite !songs_told_app, !tracks_told_app, !parts_told_app, !pointers_told_app, !operands_told_app, T2, T8, T9, T10.
    cbn [songs_told tracks_told parts_told pointers_told operands_told app].
    rewrite !songs_told_app, !tracks_told_app, !parts_told_app, !pointers_told_app, !operands_told_app, P2, P3, P4, P5, P6, Q2, Q3, Q4, Q5, Q6.
    cbn [songs_told tracks_told parts_told pointers_told operands_told app combine map flat_map fst snd]. rewrite !app_nil_r. split; [|split].
    + f_equal. unfold header_size in *. lia.
    + assert (Ep : first_part s = part) by (unfold first_part; destruct (parts s); cbn in Hm4; congruence). rewrite Ep. reflexivity.
    + rewrite <- T4. clear - T3. induction T3 as [|x d xs l _ _ IH]; [reflexivity|]. cbn [map loops_at combine flat_map fst snd]. rewrite map_app, map_map, IH. reflexivity.
Qed.

(** ** All songs of a bank *)
Lemma songs_say b bar base ovf n conv : good_blocks base ovf n -> aram_fits base ovf -> 24 <= tb_len ovf ->
  forall sds ss ls, loaded b conv sds ss ls -> forall st st' p,
  wcursor base ovf p st -> size (ws_rom st) = n -> songs_stay base ovf p ls ->
  0 <= song_table_addr st -> song_table_addr st + 2 * Z.of_nat (length sds) <= p ->
  payload base <= song_table_addr st -> song_table_addr st + 2 * Z.of_nat (length sds) <= payload_end base ->
  snd (sfold (show_song_def b true bar (blocks_of base ovf) conv) sds st) = Ok st' ->
  let log := said (fst (sfold (show_song_def b true bar (blocks_of base ovf) conv) sds st)) in
  forall r, same_outside (fun x => song_table_addr st' <= x < p) (ws_rom st') r ->
  Forall (report_true base ovf r) log /\
  map snd (songs_told log) = map (fun k => song_table_addr st + 2 * Z.of_nat k) (seq 0 (length sds)) /\
  Forall2 (track_told base ovf r) (tracks_told log) (flat_map snd ls) /\ all_told ss ls log.
Proof.
  intros HG HAF H24 sds ss ls HLd. pose proof HG as (_ & _ & G3 & _). pose proof (proj1 HAF) as Hov.
  induction HLd as [|sd s l sds ss ls Hld (Henc & Hpart & _) HLd IH]; intros st st' p Hw Hn Hstay Ht0 Ht Hb1 Hb2 H; cbv zeta; intros r Hr.
  - cbn. split; [constructor|]. split; [reflexivity|]. split; [constructor|]. repeat split.
  - cbn [sfold] in *. split_show H. rename a into st1.
    assert (E : said (fst (show_song_def b true bar (blocks_of base ovf) conv st sd)) = said (fst (show_song b true (blocks_of base ovf) st (loops sd) s)) /\
      snd (show_song b true (blocks_of base ovf) st (loops sd) s) = Ok st1).
    { clear H IH. unfold show_song_def in *. split_show Hm. cbn [silent fst said app] in *. split_show Hm. cbn [show fst said app] in *. split_show Hm.
      assert (Es : a1 = s) by (cbn [silent snd] in Hm2; unfold load_song in Hm2; destruct (input sd); rewrite Hld in Hm2; congruence). subst a1.
      cbn [silent fst said app] in *. split_show Hm. split_show Hm. cbn [show silent fst snd said app] in *. injection Hm as <-. rewrite app_nil_r. split; [reflexivity|exact Hm3]. }
    destruct E as [E Hs1]. rewrite E. clear E Hm.
    cbn [songs_stay] in Hstay. destruct Hstay as [Hst1 Hstay]. cbn [length] in Ht, Hb2.
    assert (Hws := Hs1). rewrite song_snd in Hws.
    pose proof (one_song_at b true base ovf n st (loops sd) s st1 p l HG Hw Hn Hov H24 Henc Hpart Hst1 Ht0 ltac:(lia) Hws) as (W1 & W2 & W3 & W4 & W5 & W6).
    cbv zeta in W6.
    set (h := place base ovf p (header_size (loops sd) + 16)) in *. set (e1 := song_end base ovf p (loops sd) l) in *.
    pose proof (song_end_ge base ovf p (loops sd) l G3) as He1. fold h e1 in He1.
    assert (Hn1 : size (ws_rom st1) = n) by (rewrite (same_size _ _ _ W4); exact Hn).
    assert (Hof := H). rewrite (sfold_snd _ _ (fun st sd => song_def_snd b true bar (blocks_of base ovf) conv st sd)) in Hof.
    destruct (all_songs b true base ovf n conv HG Hov H24 sds ss ls HLd st1 st' e1 W2 Hn1 Hstay) as (_ & X2 & X3 & _); [rewrite W3; lia|rewrite W3; lia|exact Hof|].
    destruct (IH st1 st' e1 W2 Hn1 Hstay) with (r := r) as (J1 & J2 & J3 & J4); [rewrite W3; lia|rewrite W3; lia|rewrite W3; lia|rewrite W3; lia|exact H| |].
    { eapply same_outside_weaken; [|exact Hr]. cbv beta. intros; lia. }
    cbv zeta in J1, J2, J3, J4.
    set (P := fun x => song_table_addr st + 2 <= x < p \/ e1 <= x).
    assert (HP : same_outside P (ws_rom st1) r).
    { eapply same_outside_trans; [eapply same_outside_weaken; [|exact X3]|eapply same_outside_weaken; [|exact Hr]]; cbv beta; unfold P, free; rewrite ?X2, ?W3 in *; lia. }
    destruct (song_says b base ovf n st (loops sd) s st1 p l HG HAF Hw Hn H24 Henc Hpart Hst1 Ht0 ltac:(lia) ltac:(left; unfold in_payload; lia) ltac:(left; unfold in_payload; lia) Hs1 r) as (K1 & K2 & K3 & K4).
    { eapply song_at_same; [exact HP| |apply (encodes_refs s); exact Henc|exact W6]. unfold P. fold h e1. intros x Hx. lia. }
    { fold h. eapply bytes_hold_same; [exact HP|exact Ht0| | |exact W5]; unfold P; lia. }
    assert (L1 := f_equal (@length _) K2). rewrite map_length in L1. cbn [length] in L1.
    assert (L2 : forall xs (ds : list (list Z * list call_loop_ref)), Forall2 (track_told base ovf r) xs ds -> length xs = length ds) by (clear; intros xs ds H; induction H; cbn; congruence).
    pose proof (all_told_app [s] ss [(loops sd, l)] ls _ _ L1 L1 ltac:(cbn [flat_map snd]; rewrite app_nil_r; exact (L2 _ _ K3)) K4 J4) as HA. cbn [app] in HA.
    split; [apply Forall_app; auto|]. split; [|split; [|exact HA]]; clear HA.
    all: rewrite ?songs_told_app, ?tracks_told_app, ?map_app, ?K2, ?J2, ?W3; cbn [length map flat_map seq app snd].
    + f_equal; [lia|]. rewrite <- seq_shift, map_map. apply map_ext. intros k. lia.
    + apply Forall2_app; assumption.
Qed.

Lemma loaded_len b conv sds ss ls : loaded b conv sds ss ls -> length sds = length ls.
Proof. intros H. induction H; cbn [length]; congruence. Qed.
Lemma bank_says b bar bk r L fa first conv r' ss ls : is_image r -> layout_ok r L -> 0xd000 <= fa ->
  bank_fits b conv L fa first (songs bk) ss ls ->
  write_bank b true bk r (lo_addr L) fa first conv = Ok r' ->
  let log := said (fst (show_bank b true bar bk r (lo_addr L) fa first conv)) in
  bank_told L r' first ss ls log.
Proof.
  intros Hr HL Hfa [F1 F2 F3 F4] H. cbv zeta. destruct (layout_fits r L Hr HL) as [HG HA]. pose proof (layout_pointers r L HL) as Hp.
  pose proof HL as [A1 A2 A3 A4 A5 A6]. pose proof (find_blocks_found b _ _ _ _ _ _ Hr Hp A3) as Hf.
  pose proof HG as (G1 & G2 & G3 & G4 & G5 & G6 & G7).
  set (base := lo_base L) in *. set (ovf := lo_ovf L) in *. set (p := payload base + (fa - 0xd000)) in *. assert (Hpp : p = payload base + (fa - 53248)) by reflexivity.
  rewrite <- (bank_snd b true bar) in H. unfold show_bank in *. split_show H. cbn [silent fst snd said app] in *. rewrite Hf in Hm. injection Hm as <-.
  split_show H. cbn [say fst said]. split_show H. cbn [show fst said app]. split_show H. rename a1 into st. rename Hm1 into Hso.
  set (st0 := wstate_init r (blocks_of base ovf) fa first) in *.
  assert (Hw : wcursor base ovf p st0).
  { unfold wcursor, st0, wstate_init. cbn [rom_addr chunk_length aram_base_addr song_offset blocks_of base_chunk_addr base_chunk_len]. unfold ARAM_BASE.
    replace (fa - 53248) with (p - payload base) by (unfold p; lia). clearbody p. rewrite <- G6. apply cursor_base. unfold payload, payload_end in *. lia. }
  assert (Hta : song_table_addr st0 = payload base + 2 * Z.of_nat first).
  { unfold st0, wstate_init. cbn [song_table_addr blocks_of base_chunk_addr]. lia. }
  assert (Hof := Hso). rewrite (sfold_snd _ _ (fun st sd => song_def_snd b true bar (blocks_of base ovf) conv st sd)) in Hof.
  destruct (all_songs b true base ovf (size r) conv HG (proj1 HA) A6 _ _ _ F1 st0 st p Hw eq_refl F4) as (_ & X2 & _ & _);
    [rewrite Hta; unfold payload in *; lia|rewrite Hta; unfold p; lia|exact Hof|].
  cbn [silent snd fst said app] in *. rewrite app_nil_r.
  unfold clear_table in H. set (from := song_table_addr st) in *. unfold blocks_of in H. cbn [base_chunk_addr] in H. unfold ARAM_BASE in H.
  replace (payload base + fa - 53248) with p in H by (unfold p; lia).
  assert (Hfrom : from = payload base + 2 * Z.of_nat (first + length (songs bk))) by (rewrite X2, Hta; lia).
  assert (HZ : Forall (fun av => 0 <= fst av) (zero_range from (Z.to_nat (p - from)))).
  { apply Forall_forall. intros x Hx. unfold zero_range in Hx. apply in_map_iff in Hx. destruct Hx as (i & <- & _). cbn. rewrite Hfrom. unfold payload in *. lia. }
  destruct (wr_all_ok _ _ _ HZ H) as (_ & ZL & ZB).
  assert (HS : same_outside (fun x => from <= x < p) (ws_rom st) r').
  { split; [exact ZL|]. intros x Hx Hout. rewrite ZB, zero_range_spec by exact Hx. destruct (_ && _) eqn:E; [lia|reflexivity]. }
  destruct (songs_say b bar base ovf (size r) conv HG HA A6 _ _ _ F1 st0 st p Hw eq_refl F4) with (r := r') as (J1 & J2 & J3 & J4);
    [rewrite Hta; unfold payload in *; lia|rewrite Hta; unfold p; lia|rewrite Hta; lia|rewrite Hta; unfold payload, payload_end in *; lia|exact Hso|exact HS|].
  cbv zeta in J1, J2, J3, J4. unfold bank_told. rewrite <- (loaded_len _ _ _ _ _ F1). fold base ovf. cbn [songs_told tracks_told app]. split; [reflexivity|]. split; [|split; [|split]].
  - constructor; [cbn; auto|exact J1].
  - rewrite J2, Hta. apply map_ext. intros k. lia.
  - exact J3.
  - exact J4.
Qed.

(** ** All banks *)
Lemma report_same base ovf n (P : Z -> Prop) r r' m : good_blocks base ovf n -> same_outside P r r' -> (forall x, payload base <= x < payload_end ovf -> ~ P x) ->
  report_true base ovf r m -> report_true base ovf r' m.
Proof.
  intros (G1 & G2 & G3 & G4 & G5 & G6 & G7) HS HP.
  assert (K : forall a w, holds_word base ovf r a w -> holds_word base ovf r' a w).
  { intros a w [(b & Hb & B1 & B2) H]. split; [exists b; auto|]. rewrite <- H. unfold word.
    assert (Hin : payload base <= a /\ a + 2 <= payload_end ovf) by (destruct Hb as [-> | ->]; unfold payload, payload_end in *; lia).
    assert (0 <= a) by (unfold payload in *; lia). rewrite !(proj2 HS) by (try lia; apply HP; lia). reflexivity. }
  destruct m; cbn [report_true]; auto. intros [H1 H2]. auto.
Qed.
Lemma told_same (P : Z -> Prop) r r' L n first ss ls log : same_outside P r r' -> good_blocks (lo_base L) (lo_ovf L) n -> (forall x, P x -> ~ lo_frame L x /\ ~ lo_data L x) ->
  bank_told L r first ss ls log -> bank_told L r' first ss ls log.
Proof.
  intros HS HG HP (B0 & B1 & B2 & B3 & B4). pose proof HG as (G1 & G2 & G3 & G4 & G5 & G6 & G7).
  assert (Hall : forall x, payload (lo_base L) <= x < payload_end (lo_ovf L) -> ~ P x).
  { intros x Hx Hpx. destruct (HP x Hpx) as [P1 P2]. destruct (Z.lt_ge_cases x (payload_end (lo_base L))).
    - apply P2. left. unfold in_payload. lia.
    - destruct (Z.lt_ge_cases x (payload (lo_ovf L))).
      + apply P1. right. exists (lo_ovf L). split; [unfold lo_blocks; apply in_or_app; right; right; left; reflexivity|lia].
      + apply P2. right. unfold in_payload. lia. }
  split; [exact B0|]. split; [|split; [exact B2|split; [|exact B4]]].
  - eapply Forall_impl; [|exact B1]. intros m Hm. eapply report_same; eauto.
  - clear - B3 HS Hall G1 G2 G3 G4. induction B3 as [|x d xs ds [H1 H2] _ IH]; constructor; [|exact IH]. split; [exact H1|]. intros j Hj Hno. rewrite <- (H2 j Hj Hno).
    destruct H1 as (b & Hb & K1 & K2 & _). unfold data_len in K2.
    assert (payload (lo_base L) <= fst x + Z.of_nat j < payload_end (lo_ovf L)) by (destruct Hb as [-> | ->]; unfold payload, payload_end in *; lia).
    apply (proj2 HS); [unfold payload in *; lia|apply Hall; assumption].
Qed.

Lemma banks_say b conv addrs : forall i first bks Ls sss, banks_fit b conv i first bks Ls sss ->
  forall r r' pa, addrs = pa ++ map lo_addr Ls -> length pa = i -> is_image r -> Forall (layout_ok r) Ls -> ForallOrdPairs independent Ls ->
  snd (show_banks b true bks i first r addrs conv) = Ok r' ->
  exists logs, said (fst (show_banks b true bks i first r addrs conv)) = concat logs /\ length logs = length bks /\
  forall k bk L ss log, nth_error bks k = Some bk -> nth_error Ls k = Some L -> nth_error sss k = Some ss -> nth_error logs k = Some log ->
    exists ls, loaded b conv (songs bk) ss ls /\ bank_told L r' (first + count_songs (firstn k bks)) ss ls log.
Proof.
  intros i first bks Ls sss HB. induction HB as [i first|i first fa bk L ss ls bks Ls sss Hfa HF HB IH]; intros r r' pa Ea Epa Hr HLs HI H.
  - exists []. split; [reflexivity|]. split; [reflexivity|]. intros [|k] bk L ss log Hk; discriminate.
  - cbn [show_banks] in *. split_show H. cbn [silent fst snd said app] in *. split_show H. cbn [silent fst snd said app] in *. apply or_panic_ok in Hm, Hm0.
    assert (Ead : a = lo_addr L).
    { subst addrs. rewrite nth_error_app2 in Hm by lia. replace (i - length pa)%nat with 0%nat in Hm by lia. cbn in Hm. congruence. }
    subst a. assert (a0 = fa) by (change BANK_FIRST_SONG_ADDRS with first_songs in Hm0; congruence). subst a0.
    assert (Hfa0 : 0xd000 <= fa).
    { clear -Hfa. destruct i as [|[|[|i]]]; cbn in Hfa; try (injection Hfa as <-; lia). destruct i; discriminate. }
    apply Forall_cons_iff in HLs. destruct HLs as [HL HLs]. inversion HI as [|? ? HI1 HI2]; subst.
    split_show H. rename a into r1. split_show H. cbn [show fst said app]. rewrite bank_snd in Hm1.
    pose proof (bank_says b (S (length pa)) bk r L fa first conv r1 ss ls Hr HL Hfa0 HF Hm1) as T. cbv zeta in T. set (log0 := said (fst (show_bank _ _ _ _ _ _ _ _ _))) in *. clearbody log0.
    destruct (one_bank b true bk r L fa first conv r1 ss ls Hr HL Hfa0 HF Hm1) as (W1 & W2 & W3 & _).
    assert (HLs1 : Forall (layout_ok r1) Ls).
    { rewrite Forall_forall in *. intros L' HL'. eapply layout_same; [exact Hr|exact W3| |apply HLs; exact HL'].
      cbv beta. intros x [Hx _]. apply (proj1 (HI1 L' HL' x) Hx). }
    assert (Ea' : pa ++ map lo_addr (L :: Ls) = (pa ++ [lo_addr L]) ++ map lo_addr Ls) by (cbn [map]; rewrite <- app_assoc; reflexivity).
    assert (El : length (pa ++ [lo_addr L]) = S (length pa)) by (rewrite app_length; cbn; lia).
    destruct (IH r1 r' (pa ++ [lo_addr L]) Ea' El W1 HLs1 HI2 H) as (logs & J1 & J2 & J3).
    rewrite banks_snd in H.
    destruct (all_banks b true conv _ _ _ _ _ _ HB r1 r' (pa ++ [lo_addr L]) Ea' El W1 HLs1 HI2 H) as (_ & _ & X3 & _).
    exists (log0 :: logs). cbn [concat length]. rewrite J1, J2. split; [reflexivity|]. split; [reflexivity|].
    intros [|k] bk' L' ss' log H1 H2 H3 H4; cbn [nth_error] in H1, H2, H3, H4.
    + injection H1 as <-. injection H2 as <-. injection H3 as <-. injection H4 as <-. exists ls. split; [apply HF|]. cbn [firstn]. replace (first + count_songs [])%nat with first by (cbn; lia).
      destruct (layout_fits r1 L W1 W2) as [HG _]. eapply told_same; [exact X3|exact HG| |exact T].
      intros x (L' & HL' & Hx). rewrite Forall_forall in HI1. destruct (proj2 (HI1 L' HL' x) Hx). auto.
    + destruct (J3 k bk' L' ss' log H1 H2 H3 H4) as (ls' & K1 & K2). exists ls'. split; [exact K1|]. cbn [firstn].
      assert (Ec : count_songs (bk :: firstn k bks) = (length (songs bk) + count_songs (firstn k bks))%nat) by reflexivity.
      rewrite Ec, Nat.add_assoc. exact K2.
Qed.
Lemma said_bars m : said (new_bars m) = [].
Proof. unfold new_bars. cbn [said]. generalize (seq 0 (length m)). induction l as [|i l IH]; [reflexivity|exact IH]. Qed.
Lemma write_says b m Ls sss r conv n r' : banks_fit b conv 0 0 m Ls sss -> is_image r -> Forall (layout_ok r) Ls -> ForallOrdPairs independent Ls ->
  rom_write b true m r true (map lo_addr Ls) conv (Wrote n) = (Ok tt, r') -> (length r <= n)%nat ->
  exists logs, said (fst (show_write b true m r true (map lo_addr Ls) conv (Wrote n))) = concat logs /\ length logs = length m /\
  forall k bk L ss log, nth_error m k = Some bk -> nth_error Ls k = Some L -> nth_error sss k = Some ss -> nth_error logs k = Some log ->
    exists ls, loaded b conv (songs bk) ss ls /\ bank_told L r' (count_songs (firstn k m)) ss ls log.
Proof.
  intros HB Hr HL HI H Hn.
  assert (Hw : write_banks b true m 0 0 r (map lo_addr Ls) conv = Ok r').
  { unfold rom_write in H. destruct (write_banks _ _ _ _ _ _ _ _) as [r1|e|p|] eqn:E; cbn in H; try discriminate. injection H as <-. f_equal.
    assert (EL : length r1 = length r) by (destruct (all_banks b true conv _ _ _ _ _ _ HB r r1 [] eq_refl eq_refl Hr HL HI E) as (_ & _ & X & _); apply X).
    unfold file_overwrite. rewrite firstn_all2 by lia. rewrite skipn_all2 by lia. symmetry. apply app_nil_r. }
  destruct (banks_say b conv (map lo_addr Ls) _ _ _ _ _ HB r r' [] eq_refl eq_refl Hr HL HI) as (logs & J1 & J2 & J3); [rewrite banks_snd; exact Hw|].
  exists logs. split; [|split; [exact J2|exact J3]]. rewrite <- J1. unfold show_write.
  assert (Hs : snd (show_write b true m r true (map lo_addr Ls) conv (Wrote n)) = Ok tt).
  { rewrite write_snd, H. reflexivity. }
  unfold show_write in Hs. split_show Hs. cbn [show fst]. rewrite said_bars. cbn [app]. split_show Hs. split_show Hs. cbn [silent show fst said app]. apply app_nil_r.
Qed.

(** ** Without the verbose flag nothing is printed. *)
Lemma quiet_sbind {A B} (m : shown A) (f : A -> shown B) : said (fst m) = [] -> (forall a, said (fst (f a)) = []) -> said (fst (sbind m f)) = [].
Proof. intros H1 H2. unfold sbind. destruct (snd m); cbn [fst]; auto. rewrite said_app, H1, H2. reflexivity. Qed.
Lemma quiet_sfold {A S} (f : S -> A -> shown S) : (forall s a, said (fst (f s a)) = []) -> forall l s, said (fst (sfold f l s)) = [].
Proof. intros H. induction l as [|x l IH]; intros s; cbn [sfold]; [reflexivity|]. apply quiet_sbind; auto. Qed.
Ltac quiet := repeat first [reflexivity | apply quiet_sbind; [|intros ?] | apply quiet_sfold; intros ? ?].
Lemma quiet_reserve b bl lp st : said (fst (show_reserve b false bl lp st)) = [].
Proof. unfold show_reserve, say_switch. destruct (_ <? _); [|reflexivity]. destruct (_ =? _); quiet. Qed.
Lemma quiet_track b bl so s st i : said (fst (show_track b false bl so s st i)) = [].
Proof.
  unfold show_track, say_switch. cbv zeta. apply quiet_sbind; [reflexivity|]. intros [data refs]. apply quiet_sbind.
  - destruct (_ <? _); [|reflexivity]. destruct (_ =? _); quiet.
  - intros [[st1 pre] cur]. apply quiet_sbind; [reflexivity|]. intros _. destruct (0 <? _); quiet.
Qed.
Lemma quiet_part addrs part : forall r a, said (fst (show_part false r a addrs part)) = [].
Proof.
  induction part as [|ti part IH]; intros r a; cbn [show_part]; [reflexivity|]. apply quiet_sbind; [reflexivity|]. intros ta. apply quiet_sbind; [reflexivity|]. intros _.
  destruct (addr_to_bytes ta). apply quiet_sbind; [reflexivity|]. intros r'. apply IH.
Qed.
Lemma silent_song b bl st lp s : said (fst (show_song b false bl st lp s)) = [].
Proof.
  unfold show_song. cbv zeta. apply quiet_sbind; [apply quiet_reserve|]. intros st1. apply quiet_sbind; [reflexivity|]. intros _. apply quiet_sbind; [reflexivity|]. intros r1.
  apply quiet_sbind; [apply quiet_sfold; intros; apply quiet_track|]. intros ks. apply quiet_sbind; [reflexivity|]. intros _. apply quiet_sbind; [reflexivity|]. intros r2.
  apply quiet_sbind; [reflexivity|]. intros part. apply quiet_sbind; [apply quiet_part|]. intros r3. apply quiet_sbind; [|intros; quiet].
  apply quiet_sfold. intros r x. unfold show_patch. cbv zeta. apply quiet_sbind; [reflexivity|]. intros ta. apply quiet_sbind; [reflexivity|]. intros _. destruct (addr_to_bytes ta). reflexivity.
Qed.
Lemma quiet_bank b bar bk r ba fa first conv : said (fst (show_bank b false bar bk r ba fa first conv)) = [].
Proof.
  unfold show_bank. apply quiet_sbind; [reflexivity|]. intros bl. apply quiet_sbind; [reflexivity|]. intros _. apply quiet_sbind; [reflexivity|]. intros _.
  apply quiet_sbind; [|intros; reflexivity]. apply quiet_sfold. intros st sd. unfold show_song_def.
  apply quiet_sbind; [reflexivity|]. intros _. apply quiet_sbind; [reflexivity|]. intros _. apply quiet_sbind; [reflexivity|]. intros s. apply quiet_sbind; [apply silent_song|]. intros st'. quiet.
Qed.
Lemma quiet_banks b addrs conv bks : forall i first r, said (fst (show_banks b false bks i first r addrs conv)) = [].
Proof.
  induction bks as [|bk bks IH]; intros i first r; cbn [show_banks]; [reflexivity|]. apply quiet_sbind; [reflexivity|]. intros ba. apply quiet_sbind; [reflexivity|]. intros fa.
  apply quiet_sbind; [apply quiet_bank|]. intros r'. apply quiet_sbind; [reflexivity|]. intros _. apply IH.
Qed.
Lemma quiet_write b m file op addrs conv os : said (fst (show_write b false m file op addrs conv os)) = [].
Proof.
  unfold show_write. destruct op; [|reflexivity]. apply quiet_sbind; [apply said_bars|]. intros _. apply quiet_sbind; [apply quiet_banks|]. intros r. quiet.
Qed.

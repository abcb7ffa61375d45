(** RomFinal.v: the last steps from RomBanks.v, RomTotal.v and RomMore.v to the theorems of PropRom.v. *)
From Coq Require Import ZArith List Bool Lia ZifyBool ZifyNat String.
From Verif Require Import SpecPath PathProofs.
From Verif Require Import Base F32 Command Track Song Paths Manifest Rom SpecNspc SpecRom SpecBank ProofLib RomLib RomProofs RomBank RomChain RomBanks RomTotal RomMore.
Import ListNotations.
Open Scope Z_scope.
Open Scope list_scope.

(** ** C30 *)
Lemma lorom_bijection :
  (forall bank addr, 0 <= bank <= 255 -> 0 <= addr <= 0xffff -> snes_to_pc_addr (bank * 65536 + addr) = bank * 0x8000 + addr mod 0x8000) /\
  (forall bank high low, u8 bank -> u8 high -> u8 low -> snes_bytes_to_pc_addr bank high low = snes_to_pc_addr (bank * 65536 + high * 256 + low)) /\
  (forall o, 0 <= o < 0x800000 -> exists bank addr, 0 <= bank <= 255 /\ 0x8000 <= addr <= 0xffff /\ snes_to_pc_addr (bank * 65536 + addr) = o /\
     forall bank' addr', 0 <= bank' <= 255 -> 0x8000 <= addr' <= 0xffff -> snes_to_pc_addr (bank' * 65536 + addr') = o -> bank' = bank /\ addr' = addr) /\
  (forall a, 0 <= a < 0x1000000 -> 0 <= snes_to_pc_addr a < 0x800000).
Proof.
  split; [|split; [|split]].
  - intros bank addr H1 H2. rewrite snes_to_pc_lorom by lia. unfold lorom24, lorom. lia.
  - intros bank high low H1 H2 H3. unfold u8 in *. rewrite snes_bytes_lorom by (unfold u8; lia). rewrite snes_to_pc_lorom by lia. unfold lorom24, lorom. lia.
  - intros o Ho. destruct (lorom_onto o Ho) as (bank & addr & H1 & H2 & H3). exists bank, addr. split; [exact H1|]. split; [exact H2|].
    assert (E : forall b a, 0 <= b <= 255 -> 0x8000 <= a <= 0xffff -> snes_to_pc_addr (b * 65536 + a) = lorom b a).
    { intros b a Hb Ha. rewrite snes_to_pc_lorom by lia. unfold lorom24, lorom. lia. }
    split; [rewrite E by assumption; exact H3|]. intros b' a' Hb' Ha' He. rewrite E in He by assumption. apply (lorom_inj b' a' bank addr); lia.
  - intros a Ha. rewrite snes_to_pc_lorom by lia. unfold lorom24, lorom. lia.
Qed.

(** ** C31 *)
Lemma header_roundtrip r a len ad : 0 <= a -> a + 4 <= size r -> 0 <= len < 65536 -> 0 <= ad < 65536 ->
  exists r', write_header (mk_chunk (a + 4) len ad) r a = Ok r' /\ chunk_load r' a = Ok (mk_chunk (a + 4) len ad) /\
    same_outside (fun x => a <= x < a + 4) r r'.
Proof.
  intros Ha Hs Hl Hd.
  assert (E : exists r', write_header (mk_chunk (a + 4) len ad) r a = Ok r').
  { unfold write_header. cbn [c_length aram_addr].
    destruct (wr_total r a (Z.land len 0xff)) as [r1 E1]; [lia|lia|]. rewrite E1. cbn [bind]. apply wr_length in E1.
    destruct (wr_total r1 (a + 1) (Z.land (Z.shiftr len 8) 0xff)) as [r2 E2]; [lia|unfold size in *; lia|]. rewrite E2. cbn [bind]. apply wr_length in E2.
    destruct (wr_total r2 (a + 2) (Z.land ad 0xff)) as [r3 E3]; [lia|unfold size in *; lia|]. rewrite E3. cbn [bind]. apply wr_length in E3.
    destruct (wr_total r3 (a + 3) (Z.land (Z.shiftr ad 8) 0xff)) as [r4 E4]; [lia|unfold size in *; lia|]. eauto. }
  destruct E as [r' E]. exists r'. split; [exact E|]. destruct (write_header_ok _ _ _ _ Ha E) as (_ & HS & W1 & W2). cbn [c_length aram_addr] in *.
  split; [|exact HS]. apply chunk_load_ok; [exact Ha|]. unfold size in *. rewrite (proj1 HS). split; [exact Hs|]. rewrite W1, W2. f_equal; lia.
Qed.
Lemma header_outside r a c : 0 <= a -> size r < a + 4 -> chunk_load r a = Panic PIndex /\ forall r', write_header c r a <> Ok r'.
Proof. intros Ha Hs. split; [apply chunk_load_panic; lia|]. intros r' H. apply write_header_ok in H; [|exact Ha]. lia. Qed.
Lemma address_bytes a : 0 <= a < 65536 -> exists h l, addr_to_bytes a = (h, l) /\ 0 <= h < 256 /\ 0 <= l < 256 /\ 256 * h + l = a.
Proof. intros Ha. rewrite addr_to_bytes_eq by lia. eexists; eexists. split; [reflexivity|]. lia. Qed.

(** ** C32 *)
Lemma scan_found b r base_addr pre base ovf post : is_image r -> pointers_in r base_addr -> song_blocks r base_addr pre base ovf post ->
  exists bl, find_blocks b r base_addr = Ok bl /\ base_chunk_addr bl = payload base /\ base_chunk_len bl = tb_len base /\
    overflow_chunk_addr bl = payload ovf /\ overflow_chunk_len bl = tb_len ovf /\ aram_overflow_base bl = tb_aram ovf.
Proof. intros Hr Hp Hs. exists (blocks_of base ovf). split; [exact (find_blocks_found b r base_addr pre base ovf post Hr Hp Hs)|]. repeat split. Qed.

(** ** C33 *)
Lemma frame_weaken b verbose bk r L fa first conv r' ss ls : is_image r -> layout_ok r L -> 0xd000 <= fa ->
  bank_fits b conv L fa first (songs bk) ss ls -> write_bank b verbose bk r (lo_addr L) fa first conv = Ok r' ->
  same_outside (fun x => in_payload (lo_base L) x \/ in_payload (lo_ovf L) x) r r'.
Proof.
  intros Hr HL Hfa HF H. destruct (bank_write_frame b verbose bk r L fa first conv r' ss ls Hr HL Hfa HF H) as [S1 S2].
  split; [exact S1|]. intros a Ha Hn. apply S2; [exact Ha|]. intros [Hd _]. apply Hn. exact Hd.
Qed.

(** ** C35 *)
Lemma operands_patched b verbose bk r L fa first conv r' ss ls : is_image r -> layout_ok r L -> 0xd000 <= fa ->
  bank_fits b conv L fa first (songs bk) ss ls -> write_bank b verbose bk r (lo_addr L) fa first conv = Ok r' ->
  forall k s, nth_error ss k = Some s -> exists at_ : nat -> Z,
  (forall i data refs j, (i < length (tracks s))%nat -> write_track s [] i [] = Ok (data, refs) -> (j < length data)%nat -> ~ operand refs j ->
     aram r' (lo_blocks L) (at_ i + Z.of_nat j) = Some (nth j data 0)) /\
  (forall i data refs x, (i < length (tracks s))%nat -> write_track s [] i [] = Ok (data, refs) -> In x refs ->
     (target_track x < length (tracks s))%nat /\ holds (aram r' (lo_blocks L)) (at_ i + Z.of_nat (ref_pos x)) (at_ (target_track x))).
Proof.
  intros Hr HL Hfa HF H k s Hk. pose proof (bank_write_in b verbose bk r L fa first conv r' ss ls Hr HL Hfa HF H) as [_ HB _].
  assert (Hsd : exists sd, nth_error (songs bk) k = Some sd).
  { destruct HF as [F1 _ _ _]. clear -F1 Hk. revert k Hk. induction F1 as [|sd s' l sds ss ls H1 H2 H3 IH]; intros k Hk; [destruct k; discriminate|].
    destruct k as [|k]; [exists sd; reflexivity|]. apply (IH k). exact Hk. }
  destruct Hsd as [sd Hsd]. destruct (HB k sd s Hsd Hk) as (a & at_ & _ & _ & [_ _ S3 _ S5]). exists (fun i => nth i at_ 0). split.
  - intros i data refs j Hi Hw Hj Hn. destruct (S5 i Hi) as (data' & refs' & Hw' & (ta & T1 & T2 & T3 & T4)). rewrite Hw in Hw'. injection Hw' as <- <-.
    rewrite (nth_error_nth _ _ 0 T1). apply T3; assumption.
  - intros i data refs x Hi Hw Hx. destruct (S5 i Hi) as (data' & refs' & Hw' & (ta & T1 & T2 & T3 & T4)). rewrite Hw in Hw'. injection Hw' as <- <-.
    destruct (T4 x Hx) as (tb & U1 & U2). rewrite (nth_error_nth _ _ 0 T1). rewrite (nth_error_nth _ _ 0 U1). split; [|exact U2].
    rewrite <- S3. apply nth_error_Some. rewrite U1. discriminate.
Qed.

(** ** C36 *)
Lemma omap_length {A B} (f : A -> outcome B) l : forall r, omap f l = Ok r -> length r = length l.
Proof.
  induction l as [|x l IH]; intros r H; cbn [omap] in H; [injection H as <-; reflexivity|]. inv_bind H. inv_bind H. injection H as <-. cbn [length]. rewrite (IH _ Ha0). reflexivity.
Qed.
Lemma program_counts m : program_manifest m -> map (fun bk => length (songs bk)) m = [15; 16; 3]%nat.
Proof.
  intros [v parent m' H|p|p]; [|reflexivity|reflexivity]. unfold manifest_new in H. inv_bind H. inv_bind H. inv_bind H. injection H as <-.
  unfold bank_new in *. inv_bind Ha. inv_bind Ha0. inv_bind Ha1. injection Ha as <-. injection Ha0 as <-. injection Ha1 as <-.
  cbn [map songs]. rewrite (omap_length _ _ _ Ha2), (omap_length _ _ _ Ha3), (omap_length _ _ _ Ha4). reflexivity.
Qed.
Lemma table_room m k bk fa : program_manifest m -> nth_error m k = Some bk -> nth_error first_songs k = Some fa ->
  0xd000 + 2 * Z.of_nat (count_songs (firstn k m) + length (songs bk)) <= fa.
Proof.
  intros Hm Hk Hf. apply program_counts in Hm. destruct m as [|b0 [|b1 [|b2 [|b3 m]]]]; try discriminate. cbn [map] in Hm. injection Hm as H0 H1 H2.
  destruct k as [|[|[|k]]]; [| | |destruct k; discriminate]; injection Hk as <-; injection Hf as <-; unfold count_songs; cbn [firstn map]; rewrite ?H0, ?H1, ?H2; cbn; lia.
Qed.
Lemma banks_fit_ss b conv : forall i first m Ls sss, banks_fit b conv i first m Ls sss -> forall k bk, nth_error m k = Some bk ->
  exists ss, nth_error sss k = Some ss /\ length ss = length (songs bk).
Proof.
  intros i first m Ls sss H. induction H as [|i first fa bk0 L ss ls bks Ls sss Hf HF HB IH]; intros k bk Hk; [destruct k; discriminate|].
  destruct k as [|k]; [|apply (IH k bk Hk)]. injection Hk as <-. exists ss. split; [reflexivity|]. destruct HF as [F1 _ _ _].
  clear -F1. induction F1; cbn [length]; congruence.
Qed.
Lemma tables b verbose conv m Ls sss r r' : program_manifest m -> banks_fit b conv 0 0 m Ls sss -> is_image r -> Forall (layout_ok r) Ls -> ForallOrdPairs independent Ls ->
  write_banks b verbose m 0 0 r (map lo_addr Ls) conv = Ok r' ->
  forall k bk L, nth_error m k = Some bk -> nth_error Ls k = Some L -> exists fa,
    nth_error first_songs k = Some fa /\
    0xd000 + 2 * Z.of_nat (count_songs (firstn k m) + length (songs bk)) <= fa /\
    (forall i, (i < length (songs bk))%nat -> exists a, holds (aram r' (lo_blocks L)) (0xd000 + 2 * Z.of_nat (count_songs (firstn k m) + i)) a /\
       (fa <= a \/ tb_aram (lo_ovf L) <= a < tb_aram (lo_ovf L) + tb_len (lo_ovf L))) /\
    (forall x, 0xd000 + 2 * Z.of_nat (count_songs (firstn k m) + length (songs bk)) <= x < fa -> aram r' (lo_blocks L) x = Some 0).
Proof.
  intros Hm HB Hr HL HI H k bk L Hk HLk. destruct (banks_fit_ss _ _ _ _ _ _ _ HB k bk Hk) as (ss & Hss & Hlen).
  destruct (banks_read b verbose conv m Ls sss r r' HB Hr HL HI H) as [_ X]. destruct (X k bk L ss Hk HLk Hss) as (fa & Hfa & [_ B2 B3]).
  exists fa. split; [exact Hfa|]. split; [exact (table_room m k bk fa Hm Hk Hfa)|]. split; [|exact B3].
  intros i Hi. destruct (nth_error (songs bk) i) as [sd|] eqn:Esd; [|apply nth_error_None in Esd; lia].
  destruct (nth_error ss i) as [s|] eqn:Es; [|apply nth_error_None in Es; lia].
  destruct (B2 i sd s Esd Es) as (a & at_ & A1 & A2 & _). exists a. split; assumption.
Qed.

(** ** C37, C38 *)
Lemma failed_write b v m file op addrs conv os : fst (rom_write b v m file op addrs conv os) <> Ok tt -> snd (rom_write b v m file op addrs conv os) = file.
Proof.
  unfold rom_write. destruct op; [|reflexivity]. destruct (write_banks b v m 0 0 file addrs conv); try reflexivity. destruct os; [|reflexivity]. intros H. contradiction H. reflexivity.
Qed.
Lemma good_write b v m file op addrs conv n file' : rom_write b v m file op addrs conv (Wrote n) = (Ok tt, file') -> (length file <= n)%nat ->
  write_banks b v m 0 0 file addrs conv = Ok file' /\ length file' = length file.
Proof.
  unfold rom_write. destruct op; [|discriminate]. destruct (write_banks b v m 0 0 file addrs conv) as [r| | |] eqn:E; try discriminate. intros H Hn. injection H as <-.
  pose proof (banks_length _ _ _ _ _ _ _ _ _ E) as HL.
  assert (Ef : file_overwrite file r n = r) by (unfold file_overwrite; rewrite firstn_all2 by lia; rewrite HL, skipn_all, app_nil_r; reflexivity).
  rewrite Ef. auto.
Qed.
Lemma any_write_length b v m file op addrs conv os : length (snd (rom_write b v m file op addrs conv os)) = length file.
Proof.
  unfold rom_write. destruct op; [|reflexivity]. destruct (write_banks b v m 0 0 file addrs conv) as [r| | |] eqn:E; try reflexivity. destruct os as [n|]; [|reflexivity].
  pose proof (banks_length _ _ _ _ _ _ _ _ _ E) as HL. cbn [snd]. unfold file_overwrite. rewrite app_length, skipn_length, firstn_length. lia.
Qed.

(** ** C40 *)
Lemma dummy b r addrs out : is_image r -> Forall addr_ok addrs -> fake_image b r addrs = Ok out ->
  length out = length r /\
  (forall a, In a addrs -> bank_chain out a = bank_chain r a /\ exists bs t, chain r (bank_chain r a) bs t /\ chain out (bank_chain out a) bs t) /\
  (forall x, 0 <= x -> ~ (exists a, In a addrs /\ bank_kept r a x) -> byte out x = 0) /\
  (forall x, 0 <= x -> (exists a, In a addrs /\ bank_kept r a x) -> byte out x = byte r x) /\
  fake_image b out addrs = Ok out.
Proof.
  intros Hr HF H. destruct (fake_image_ok b r addrs out Hr HF H) as (P & L & K). destruct (fake_structure b r addrs out Hr HF H) as (S1 & S2 & S3).
  split; [exact L|]. split; [|split; [|split; [|exact S3]]].
  - intros a Ha. destruct (S2 a Ha) as [C1 C2]. split; [exact C1|]. rewrite Forall_forall in P. destruct (P a Ha) as [_ (bs & t & Hc)]. exists bs, t. split; [exact Hc|apply C2; exact Hc].
  - intros x Hx Hn. apply K; assumption.
  - intros x Hx Hk. apply K; assumption.
Qed.
Lemma dummy_file b r addrs old n file' : gen_fake_rom b r addrs old (Wrote n) = (Ok tt, file') -> (length r <= n)%nat -> (length old <= length r)%nat ->
  is_image r -> Forall addr_ok addrs -> fake_image b r addrs = Ok file'.
Proof.
  unfold gen_fake_rom. destruct (fake_image b r addrs) as [out| | |] eqn:E; try discriminate. intros H Hn Ho Hr HF. injection H as <-.
  destruct (fake_image_ok b r addrs out Hr HF E) as (_ & L & _). f_equal. unfold file_overwrite. rewrite firstn_all2 by lia. rewrite skipn_all2 by lia. symmetry. apply app_nil_r.
Qed.

(** ** C45 *)
Lemma verbose_debug_bank b v bk r L fa first conv : is_image r -> layout_ok r L -> 0xd000 <= fa -> fa - 0xd000 <= tb_len (lo_base L) ->
  write_bank b v bk r (lo_addr L) fa first conv = write_bank b false bk r (lo_addr L) fa first conv.
Proof.
  intros Hr HL Hfa Hlen. apply bank_verbose; [exact Hr|destruct HL as [[A _] _ _ _ _ _]; exact A|exact Hfa|]. right. intros bl Hf.
  pose proof HL as [A1 A2 A3 A4 A5 A6]. rewrite (find_blocks_found b _ _ _ _ _ _ Hr (layout_pointers r L HL) A3) in Hf. injection Hf as <-. exact Hlen.
Qed.

(** Verbose mode can only add a panic. *)
Definition or_panics {A} (x y : outcome A) : Prop := x = y \/ exists p, x = Panic p.
Lemma or_panics_refl {A} (x : outcome A) : or_panics x x. Proof. left. reflexivity. Qed.
Lemma or_panics_bind {A B} (x y : outcome A) (f g : A -> outcome B) : or_panics x y -> (forall a, or_panics (f a) (g a)) -> or_panics (bind x f) (bind y g).
Proof. intros [->|[p ->]] H; [|right; exists p; reflexivity]. destruct y as [a| | |]; cbn [bind]; [apply H|left; reflexivity..]. Qed.
Lemma or_panics_fold {A S} (f g : S -> A -> outcome S) l : (forall s a, or_panics (f s a) (g s a)) -> forall s, or_panics (ofold f l s) (ofold g l s).
Proof. intros H. induction l as [|a l IH]; intros s; cbn [ofold]; [apply or_panics_refl|]. apply or_panics_bind; [apply H|exact IH]. Qed.
Lemma verbose_sub_panics b v x y : or_panics (verbose_sub b v x y) (Ok tt).
Proof. unfold verbose_sub. destruct v; [|left; reflexivity]. unfold arith. destruct (_ && _); [left; reflexivity|]. destruct b; [right; eexists; reflexivity|left; reflexivity]. Qed.
Lemma verbose_track b v bl so sd st i : or_panics (write_one_track b v bl so sd st i) (write_one_track b false bl so sd st i).
Proof.
  unfold write_one_track. apply or_panics_bind; [apply or_panics_refl|]. intros [data refs]. apply or_panics_bind; [|intros [[? ?] ?]; apply or_panics_refl].
  destruct (_ <? _); [|apply or_panics_refl]. destruct (_ =? _); [apply or_panics_refl|]. apply or_panics_bind; [apply verbose_sub_panics|intros; apply or_panics_refl].
Qed.
Lemma verbose_song b v bl st lp s : or_panics (write_song b v bl st lp s) (write_song b false bl st lp s).
Proof.
  unfold write_song. apply or_panics_bind.
  - unfold reserve_header. destruct (_ <? _); [|apply or_panics_refl]. destruct (_ =? _); [apply or_panics_refl|]. apply or_panics_bind; [apply verbose_sub_panics|intros; apply or_panics_refl].
  - intros st1. apply or_panics_bind; [apply or_panics_refl|]. intros r1. cbv zeta. apply or_panics_bind; [apply or_panics_fold; intros; apply verbose_track|intros; apply or_panics_refl].
Qed.
Lemma verbose_bank b v bk r ba fa first conv : or_panics (write_bank b v bk r ba fa first conv) (write_bank b false bk r ba fa first conv).
Proof.
  unfold write_bank. apply or_panics_bind; [apply or_panics_refl|]. intros bl. apply or_panics_bind; [|intros; apply or_panics_refl].
  apply or_panics_fold. intros st sd. unfold write_song_def. apply or_panics_bind; [apply or_panics_refl|]. intros _. apply or_panics_bind; [apply or_panics_refl|]. intros s. apply verbose_song.
Qed.
Lemma verbose_banks b v conv addrs bks : forall i first r, or_panics (write_banks b v bks i first r addrs conv) (write_banks b false bks i first r addrs conv).
Proof.
  induction bks as [|bk bks IH]; intros i first r; cbn [write_banks]; [apply or_panics_refl|]. apply or_panics_bind; [apply or_panics_refl|]. intros ba.
  apply or_panics_bind; [apply or_panics_refl|]. intros fa. apply or_panics_bind; [apply verbose_bank|]. intros r'. apply IH.
Qed.
Lemma verbose_rom b m file op addrs conv os :
  rom_write b true m file op addrs conv os = rom_write b false m file op addrs conv os \/
  exists p, rom_write b true m file op addrs conv os = (Panic p, file).
Proof.
  unfold rom_write. destruct op; [|left; reflexivity]. destruct (verbose_banks b true conv addrs m 0 0 file) as [->|[p ->]]; [left; reflexivity|right; exists p; reflexivity].
Qed.

(** With independent banks, each large enough for its song table, verbose mode changes nothing. *)
Lemma verbose_all b conv bks : forall i first Ls sss, banks_fit b conv i first bks Ls sss -> forall r pre, length pre = i ->
  is_image r -> Forall (layout_ok r) Ls -> ForallOrdPairs independent Ls ->
  write_banks b true bks i first r (map lo_addr (pre ++ Ls)) conv = write_banks b false bks i first r (map lo_addr (pre ++ Ls)) conv.
Proof.
  intros i first Ls sss H. induction H as [|i first fa bk L ss ls bks Ls sss Hf HF HB IH]; intros r pre Hpre Hr HL HI; cbn [write_banks]; [reflexivity|].
  rewrite map_app, nth_error_app2 by (rewrite map_length; lia). rewrite map_length, Hpre, Nat.sub_diag. cbn [map nth_error or_panic bind].
  change BANK_FIRST_SONG_ADDRS with first_songs. rewrite Hf. cbn [or_panic bind].
  apply Forall_cons_iff in HL. destruct HL as [HL0 HL]. inversion HI as [|? ? HI0 HI']; subst.
  assert (Hfa : 0xd000 <= fa).
  { clear -Hf. unfold first_songs in Hf. destruct (length pre) as [|[|[|n]]]; [injection Hf as <-; lia..|]. destruct n; discriminate. }
  rewrite (verbose_debug_bank b true bk r L fa first conv Hr HL0 Hfa (bf_first _ _ _ _ _ _ _ _ HF)).
  apply bind_ext. intros r' Hw.
  change (map lo_addr pre ++ lo_addr L :: map lo_addr Ls) with (map lo_addr pre ++ map lo_addr (L :: Ls)). rewrite <- map_app.
  replace (pre ++ L :: Ls) with ((pre ++ [L]) ++ Ls) by (rewrite <- app_assoc; reflexivity).
  pose proof (bank_write_frame b false bk r L fa first conv r' ss ls Hr HL0 Hfa HF Hw) as HS.
  apply IH.
  - rewrite app_length. cbn [length]. lia.
  - eapply image_bank; [exact Hr|apply HF|exact Hw].
  - rewrite Forall_forall in *. intros L' HL'. eapply layout_same; [exact Hr|exact HS| |apply HL; exact HL'].
    intros x [Hd _]. apply (HI0 L' HL'). exact Hd.
  - exact HI'.
Qed.

(** ** Refutations *)
From Verif Require Import RomExamples.
Lemma refute_header :
  exists r L bk r', layout_ok r L /\ write_bank Debug false bk r (lo_addr L) 0xd036 0 ex_conv = Ok r' /\
  exists x, byte r' x <> byte r x /\ tb_start (lo_ovf L) <= x < payload (lo_ovf L).
Proof.
  exists header_rom, (one_bank_layout 145 184), header_bank, header_out. split; [exact header_layout|]. split; [exact header_written|].
  exists 197. split; [apply header_changed|]. cbn. lia.
Qed.
Lemma refute_terminator :
  exists r base ovf bk r', is_image r /\ pointers_in r 0x8000 /\ song_blocks r 0x8000 [] base ovf [] /\
  write_bank Debug false bk r 0x8000 0xd036 0 ex_conv = Ok r' /\
  exists x, byte r' x <> byte r x /\ ~ in_payload base x /\ ~ in_payload ovf x.
Proof.
  destruct bad_write as (r' & Hw & H1 & H2 & H3).
  exists bad_rom, (mk_tblock 40 107 0xd000), (mk_tblock 151 0 0xe000), (mk_bank "a"%string [ex_slot]), r'.
  split; [apply image_dec; vm_compute; reflexivity|]. split.
  { split; [lia|]. split; [lia|]. intros a [->|[->| ->]]; vm_compute; reflexivity. }
  split; [exact bad_blocks|]. split; [exact Hw|]. exists 156. auto.
Qed.
Lemma refute_part :
  exists r L bk r' s, layout_ok r L /\ write_bank Debug false bk r (lo_addr L) 0xd036 0 (fun _ _ => Ok s) = Ok r' /\
  length (songs bk) = 1%nat /\ ~ bank_in r' L 0xd036 0 (songs bk) [s].
Proof. exists nine_rom, nine_layout, nine_bank, nine_out, nine_song. split; [exact nine_layout_ok|]. split; [exact nine_written|]. split; [reflexivity|exact nine_not_in]. Qed.
Lemma refute_operand :
  exists r L bk r' s, layout_ok r L /\ write_bank Debug false bk r (lo_addr L) 0xd036 0 (fun _ _ => Ok s) = Ok r' /\
  Forall (fun part => (length part <= 8)%nat) (parts s) /\ length (songs bk) = 2%nat /\ lo_in r' L /\ ~ bank_in r' L 0xd036 0 (songs bk) [s; s].
Proof.
  exists moved_rom, moved_layout, header_bank, moved_out, ex_song. split; [exact moved_layout_ok|]. split; [exact moved_written|].
  split; [constructor; [cbn; lia|constructor]|]. split; [reflexivity|]. split; [|exact moved_not_in].
  eexists; eexists. split; [apply (chain_of_ok 10); vm_compute; reflexivity|]. split; [reflexivity|]. split; [reflexivity|].
  apply Forall_cons; [cbn; lia|]. apply Forall_cons; [cbn; lia|]. apply Forall_nil.
Qed.
Lemma refute_short :
  exists m file addrs conv n file' new, rom_write Release false m file true addrs conv (Wrote n) = (Ok tt, file') /\
  write_banks Release false m 0 0 file addrs conv = Ok new /\ file' <> new /\ file' <> file.
Proof.
  exists [nine_bank], nine_rom, [0x8000], nine_conv, 102%nat. eexists. eexists. split; [vm_compute; reflexivity|]. split; [vm_compute; reflexivity|].
  split; vm_compute; discriminate.
Qed.
Lemma refute_dummy :
  exists r addrs old file' out, fake_image Debug r addrs = Ok out /\ gen_fake_rom Debug r addrs old (Wrote (length out)) = (Ok tt, file') /\ file' <> out.
Proof.
  exists nine_rom, [0x8000], (nine_rom ++ [1; 2; 3]). eexists. eexists. split; [vm_compute; reflexivity|]. split; [vm_compute; reflexivity|]. vm_compute. discriminate.
Qed.
Lemma refute_verbose :
  exists r bk r', write_bank Debug true bk r 0x8000 0xd036 0 ex_conv = Panic POverflow /\ write_bank Debug false bk r 0x8000 0xd036 0 ex_conv = Ok r'.
Proof. destruct short_verbose as [H1 [r' H2]]. exists short_rom, header_bank, r'. auto. Qed.

(** Example cases. *)
Lemma example_written : exists r', rom_write Debug true ex_banks ex_rom true (map lo_addr ex_layouts) ex_conv (Wrote (length ex_rom)) = (Ok tt, r') /\ r' <> ex_rom.
Proof. eexists. split; [vm_compute; reflexivity|]. vm_compute. discriminate. Qed.
Lemma example_failed : exists e, rom_write Debug true ex_banks ex_rom true (map lo_addr ex_layouts) (fun _ _ => Err EIo) (Wrote 3000) = (Err e, ex_rom).
Proof. eexists. vm_compute. reflexivity. Qed.
Lemma example_dummy : exists out, fake_image Debug ex_rom (map lo_addr ex_layouts) = Ok out /\ byte out 4 = 0x80 /\ byte out 41 = byte ex_rom 41 /\ byte out 44 = 0 /\ byte ex_rom 44 <> 0.
Proof. eexists. split; [vm_compute; reflexivity|]. split; [reflexivity|]. split; [reflexivity|]. split; [reflexivity|]. vm_compute. discriminate. Qed.
Lemma example_total : closed_all [ex_slot; ex_slot; ex_quiet] [ex_song; ex_song; quiet_song] place_table /\
  songs_end (lo_base (ex_layout 0x8000 40)) (lo_ovf (ex_layout 0x8000 40)) (payload (lo_base (ex_layout 0x8000 40)) + (0xd036 - 0xd000)) place_table <= payload_end (lo_ovf (ex_layout 0x8000 40)).
Proof.
  split; [|vm_compute; discriminate]. unfold place_table.
  assert (Hc : song_closed ex_song ex_enc).
  { split; [exists [0%nat; 1%nat]; split; [reflexivity|]; repeat constructor|]. repeat constructor. }
  assert (Hq : song_closed quiet_song quiet_enc).
  { split; [exists [0%nat]; split; [reflexivity|]; repeat constructor|]. repeat constructor. }
  apply closed_cons; [intros f [= <-]; apply has_name_iff; vm_compute; discriminate|exact Hc|]. apply closed_cons; [intros f [= <-]; apply has_name_iff; vm_compute; discriminate|exact Hc|].
  apply closed_cons; [intros f [=]|exact Hq|apply closed_nil].
Qed.
(** A whole manifest: the file-select mode on an image with blocks of 800 bytes. *)
Definition big_rom : list Z := ex_pointer 40 ++ ex_pointer 1042 ++ ex_pointer 2044 ++ [1; 1; 1; 1] ++ ex_chain 800 184 ++ ex_chain 800 184 ++ ex_chain 800 184.
Definition big_layout (addr start : Z) : layout :=
  mk_layout addr [mk_tblock start 2 0x3000] (mk_tblock (start + 6) 800 0xd000) (mk_tblock (start + 810) 184 0xe000) [mk_tblock (start + 998) 0 0x800].
Definition big_layouts : list layout := [big_layout 0x8000 40; big_layout 0x800c 1042; big_layout 0x8018 2044].
Lemma big_image : is_image big_rom.
Proof. apply image_dec. vm_compute. reflexivity. Qed.
Lemma big_layout_in addr start : (addr, start) = (0x8000, 40) \/ (addr, start) = (0x800c, 1042) \/ (addr, start) = (0x8018, 2044) -> layout_ok big_rom (big_layout addr start).
Proof.
  intros H.
  assert (Hs : size big_rom = 3046) by (vm_compute; reflexivity).
  assert (Hc : exists bs t, chain_is big_rom addr bs t /\ (bs ++ [t])%list = lo_blocks (big_layout addr start)).
  { destruct H as [[= -> ->]|[[= -> ->]|[= -> ->]]]; eexists; eexists; (split; [vm_compute; reflexivity|reflexivity]). }
  constructor.
  - destruct H as [[= -> ->]|[[= -> ->]|[= -> ->]]]; cbn [lo_addr big_layout]; lia.
  - intros a Ha. unfold pointer_bytes, lo_data, in_payload, payload, payload_end, big_layout in *. cbn [lo_addr lo_base lo_ovf tb_start tb_len] in *.
    assert (a = lorom24 (addr + 8) \/ a = lorom24 (addr + 4) \/ a = lorom24 addr) as Ha' by exact Ha.
    rewrite Hs. destruct H as [[= -> ->]|[[= -> ->]|[= -> ->]]]; destruct Ha' as [->|[->| ->]];
      match goal with |- context [lorom24 ?x] => let v := eval vm_compute in (lorom24 x) in change (lorom24 x) with v end; lia.
  - destruct Hc as (bs & t & Hc & E). exists bs, t. split; [eapply chain_of_ok; exact Hc|]. split; [exact E|]. cbn [big_layout lo_base lo_ovf lo_post tb_aram].
    split; [reflexivity|]. repeat constructor; cbn; lia.
  - cbn [big_layout lo_base lo_ovf lo_post]. unfold apart. split; repeat (apply Forall_cons; [cbn [tb_aram tb_len]; lia|]); apply Forall_nil.
  - cbn. lia.
  - cbn. lia.
Qed.
Lemma big_layouts_ok : Forall (layout_ok big_rom) big_layouts.
Proof. apply Forall_cons; [|apply Forall_cons; [|apply Forall_cons; [|apply Forall_nil]]]; apply big_layout_in; auto. Qed.
Lemma big_independent : ForallOrdPairs independent big_layouts.
Proof.
  assert (HF : forall addr start x, lo_frame (big_layout addr start) x -> pointer_bytes addr x \/ start <= x < start + 1002).
  { intros addr start x [H|(b & Hb & Hx)]; [left; exact H|right]. cbn in Hb. unfold payload in Hx. destruct Hb as [<-|[<-|[<-|[<-|[]]]]]; cbn [tb_start] in Hx; lia. }
  assert (HD : forall addr start x, lo_data (big_layout addr start) x -> start <= x < start + 1002).
  { intros addr start x. unfold lo_data, in_payload, payload, payload_end, big_layout. cbn [lo_base lo_ovf tb_start tb_len]. lia. }
  assert (H : forall a1 s1 a2 s2, (a1 = 0x8000 \/ a1 = 0x800c \/ a1 = 0x8018) -> (a2 = 0x8000 \/ a2 = 0x800c \/ a2 = 0x8018) -> 40 <= s1 -> s1 + 1002 <= s2 ->
     independent (big_layout a1 s1) (big_layout a2 s2)).
  { intros a1 s1 a2 s2 H1 H2 H3 H4 x. split; intros Hx; apply HD in Hx; (split; [intros Hd; apply HD in Hd; lia|]);
      intros Hf; apply HF in Hf; (destruct Hf as [Hf|Hf]; [|lia]); apply ex_pointers in Hf; auto; lia. }
  apply FOP_cons; [apply Forall_cons; [|apply Forall_cons; [|apply Forall_nil]]; apply H; auto; lia|].
  apply FOP_cons; [apply Forall_cons; [|apply Forall_nil]; apply H; auto; lia|].
  apply FOP_cons; [apply Forall_nil|apply FOP_nil].
Qed.
Lemma quiet_repeat b conv n sds ss ls : loaded b conv sds ss ls ->
  loaded b conv (repeat song_def_empty n ++ sds) (repeat quiet_song n ++ ss) (repeat (false, quiet_enc) n ++ ls).
Proof.
  intros H. induction n as [|n IH]; cbn [repeat app]; [exact H|]. apply (loaded_cons _ _ song_def_empty); [destruct b; vm_compute; reflexivity|exact quiet_ready|exact IH].
Qed.
Definition select_songs : list (list song) := [repeat quiet_song 10 ++ [ex_song] ++ repeat quiet_song 4 ++ []; repeat quiet_song 16 ++ []; repeat quiet_song 3 ++ []].
Lemma big_fit : banks_fit Debug ex_conv 0 0 (manifest_file_select "x.mid"%string) big_layouts select_songs.
Proof.
  eapply (banks_fit_cons _ _ _ _ 0xd036 _ _ _ (repeat (false, quiet_enc) 10 ++ [(true, ex_enc)] ++ repeat (false, quiet_enc) 4 ++ [])); [reflexivity| |].
  - constructor; [|cbn; lia|cbn; lia|apply songs_stayb_ok; vm_compute; reflexivity]. cbn [songs].
    apply quiet_repeat. apply (loaded_cons _ _ (song_def_default "x.mid"%string)); [reflexivity|exact ex_ready|].
    change (repeat song_def_empty 4) with (repeat song_def_empty 4 ++ []). apply quiet_repeat. constructor.
  - eapply (banks_fit_cons _ _ _ _ 0xd046 _ _ _ (repeat (false, quiet_enc) 16 ++ [])); [reflexivity| |].
    + constructor; [|cbn; lia|cbn; lia|apply songs_stayb_ok; vm_compute; reflexivity]. cbn [songs].
      change (repeat song_def_empty 16) with (repeat song_def_empty 16 ++ []). apply quiet_repeat. constructor.
    + eapply (banks_fit_cons _ _ _ _ 0xd046 _ _ _ (repeat (false, quiet_enc) 3 ++ [])); [reflexivity| |].
      * constructor; [|cbn; lia|cbn; lia|apply songs_stayb_ok; vm_compute; reflexivity]. cbn [songs].
        change (repeat song_def_empty 3) with (repeat song_def_empty 3 ++ []). apply quiet_repeat. constructor.
      * constructor.
Qed.
Lemma big_written : exists r', write_banks Debug true (manifest_file_select "x.mid"%string) 0 0 big_rom (map lo_addr big_layouts) ex_conv = Ok r'.
Proof. eexists. vm_compute. reflexivity. Qed.

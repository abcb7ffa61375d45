(** RomMore.v: file length, the dummy ROM and verbose mode (C37, C38, C40, C45). *)
From Coq Require Import ZArith List Bool Lia ZifyBool ZifyNat Sorted.
From Verif Require Import Base F32 Command Track Song Paths Manifest Rom SpecNspc SpecRom SpecBank ProofLib CodecProofs RomLib RomProofs RomChain.
Ltac Zify.zify_post_hook ::= Z.div_mod_to_equations.
Open Scope Z_scope.

(** ** Length *)
Lemma wr_length r a v r' : wr r a v = Ok r' -> length r' = length r.
Proof. unfold wr. intros H. apply or_panic_ok in H. eapply set_nth_length. exact H. Qed.
Lemma wr_all_length l : forall r r', wr_all r l = Ok r' -> length r' = length r.
Proof.
  unfold wr_all. induction l as [|[a v] l IH]; intros r r' H; cbn [ofold] in H; [injection H as <-; reflexivity|]. inv_bind H.
  apply wr_length in Ha. rewrite (IH _ _ H). exact Ha.
Qed.
Lemma splice_length r a data r' : splice r a data = Ok r' -> length r' = length r.
Proof.
  unfold splice. cbv zeta. destruct (Nat.leb_spec (Z.to_nat a + length data) (length r)); [|discriminate]. intros [= <-].
  rewrite !app_length, firstn_length, skipn_length. lia.
Qed.
Lemma ofold_length {A S} (f : S -> A -> outcome S) (g : S -> image) l : (forall s a s', f s a = Ok s' -> length (g s') = length (g s)) ->
  forall s s', ofold f l s = Ok s' -> length (g s') = length (g s).
Proof. intros Hf. induction l as [|a l IH]; intros s s' H; cbn [ofold] in H; [injection H as <-; reflexivity|]. inv_bind H. rewrite (IH _ _ H). eapply Hf. exact Ha. Qed.
Lemma track_length b v bl so s st i st' : write_one_track b v bl so s st i = Ok st' -> length (ks_rom st') = length (ks_rom st).
Proof.
  unfold write_one_track. intros H. cbv zeta in H. inv_bind H. destruct a as [data refs]. inv_bind H. destruct a as [[st1 p1] p2].
  assert (Hst1 : ks_rom st1 = ks_rom st).
  { destruct (_ <? _); [|injection Ha0 as <- <- <-; reflexivity]. destruct (_ =? _); [discriminate|]. inv_bind Ha0. injection Ha0 as <- <- <-. reflexivity. }
  destruct (0 <? _); [inv_bind H|]; injection H as <-; cbn [ks_rom]; [apply splice_length in Ha1|]; congruence.
Qed.
Lemma part_length part : forall r a addrs r', write_part r a addrs part = Ok r' -> length r' = length r.
Proof.
  induction part as [|ti part IH]; intros r a addrs r' H; cbn [write_part] in H; [injection H as <-; reflexivity|].
  inv_bind H. destruct (addr_to_bytes a0). inv_bind H. apply wr_all_length in Ha0. rewrite (IH _ _ _ _ H). exact Ha0.
Qed.
Lemma song_length b v bl st lp s st' : write_song b v bl st lp s = Ok st' -> length (ws_rom st') = length (ws_rom st).
Proof.
  unfold write_song. intros H. cbv zeta in H. inv_bind H. rename a into st1.
  assert (Hst1 : ws_rom st1 = ws_rom st).
  { unfold reserve_header in Ha. destruct (_ <? _); [|injection Ha as <-; reflexivity]. destruct (_ =? _); [discriminate|]. inv_bind Ha. injection Ha as <-. reflexivity. }
  inv_bind H. inv_bind H. inv_bind H. inv_bind H. inv_bind H. inv_bind H. injection H as <-. cbn [ws_rom].
  assert (E1 : length a = length (ws_rom st1)).
  { unfold write_song_header in Ha0. cbv zeta in Ha0. destruct (addr_to_bytes (_ + song_offset st1)). destruct (addr_to_bytes _). inv_bind Ha0. inv_bind Ha0.
    destruct lp; apply wr_all_length in Ha0, Ha6, Ha7; congruence. }
  apply (ofold_length _ ks_rom) in Ha1; [|intros; eapply track_length; eassumption]. cbn [ks_rom] in Ha1.
  apply wr_all_length in Ha2. apply part_length in Ha4.
  apply (ofold_length _ (fun r => r)) in Ha5.
  2:{ intros r x r1 Hx. unfold patch_loop in Hx. cbv zeta in Hx. inv_bind Hx. destruct (addr_to_bytes _). apply wr_all_length in Hx. exact Hx. }
  congruence.
Qed.
Lemma bank_length b v bk r ba fa first conv r' : write_bank b v bk r ba fa first conv = Ok r' -> length r' = length r.
Proof.
  unfold write_bank. intros H. inv_bind H. inv_bind H. unfold clear_table in H. apply wr_all_length in H. rewrite H.
  apply (ofold_length _ ws_rom) in Ha0; [exact Ha0|]. intros s sd s' Hs. unfold write_song_def in Hs. inv_bind Hs. inv_bind Hs. eapply song_length. exact Hs.
Qed.
Lemma banks_length b v conv addrs bks : forall i first r r', write_banks b v bks i first r addrs conv = Ok r' -> length r' = length r.
Proof.
  induction bks as [|bk bks IH]; intros i first r r' H; cbn [write_banks] in H; [injection H as <-; reflexivity|].
  inv_bind H. inv_bind H. inv_bind H. rewrite (IH _ _ _ _ H). eapply bank_length. exact Ha1.
Qed.

Lemma overwrite_same content data : length data = length content -> file_overwrite content data (length data) = data.
Proof. intros H. unfold file_overwrite. rewrite firstn_all, H, skipn_all, app_nil_r. reflexivity. Qed.
Lemma overwrite_longer content data : (length content <= length data)%nat -> file_overwrite content data (length data) = data.
Proof. intros H. unfold file_overwrite. rewrite firstn_all, skipn_all2 by exact H. apply app_nil_r. Qed.

(** ** The dummy ROM *)
Lemma byte_ext r r' : length r = length r' -> (forall x, 0 <= x < size r -> byte r x = byte r' x) -> r = r'.
Proof.
  intros HL H. apply (nth_ext _ _ 0 0 HL). intros n Hn. specialize (H (Z.of_nat n)). unfold byte, size in H. rewrite Nat2Z.id in H. apply H. lia.
Qed.
Lemma header_copy r out a out' : is_image r -> 0 <= a -> a + 4 <= size r -> length out = length r ->
  write_header (mk_chunk (a + 4) (word r a) (word r (a + 2))) out a = Ok out' ->
  length out' = length r /\ forall x, 0 <= x -> byte out' x = if (a <=? x) && (x <? a + 4) then byte r x else byte out x.
Proof.
  intros Hr Ha Hs HL H. destruct (write_header_ok _ _ _ _ Ha H) as (_ & HS & W1 & W2). cbn [c_length aram_addr] in *.
  split; [destruct HS; congruence|].
  assert (Hi : is_image r) by exact Hr. pose proof (byte_u8 r a Hr). pose proof (byte_u8 r (a + 1) Hr). pose proof (byte_u8 r (a + 2) Hr). pose proof (byte_u8 r (a + 3) Hr).
  unfold write_header in H. cbv zeta in H.
  intros x Hx. destruct ((a <=? x) && (x <? a + 4)) eqn:E.
  - assert (HB : byte out' a = byte r a /\ byte out' (a + 1) = byte r (a + 1) /\ byte out' (a + 2) = byte r (a + 2) /\ byte out' (a + 3) = byte r (a + 3)).
    { assert (Ew : wr_all out [(a, Z.land (word r a) 0xff); (a + 1, Z.land (Z.shiftr (word r a) 8) 0xff);
         (a + 2, Z.land (word r (a + 2)) 0xff); (a + 3, Z.land (Z.shiftr (word r (a + 2)) 8) 0xff)] = Ok out').
      { unfold wr_all. cbn [ofold fst snd]. cbn [c_length aram_addr] in H. 
        inv_bind H. rewrite Ha0. cbn [bind]. inv_bind H. rewrite Ha1. cbn [bind]. inv_bind H. rewrite Ha2. cbn [bind]. rewrite H. reflexivity. }
      apply wr_all_ok in Ew; [|repeat constructor; cbn; lia]. destruct Ew as (_ & _ & Hb).
      rewrite !Hb by lia. unfold last_write. cbn [fold_left fst snd]. rewrite !land_byte, !Z.shiftr_div_pow2 by lia. unfold word in *.
      replace (a + 2 + 1) with (a + 3) in * by lia. change (2 ^ 8) with 256.
      repeat split; eqb_cases; lia. }
    destruct HB as (B0 & B1 & B2 & B3). assert (Hc : x = a \/ x = a + 1 \/ x = a + 2 \/ x = a + 3) by lia. destruct Hc as [->|[->|[->| ->]]]; assumption.
  - apply (proj2 HS); [exact Hx|]. lia.
Qed.
Lemma header_copy_total r out a : length out = length r -> 0 <= a -> a + 4 <= size r -> forall c, exists out', write_header c out a = Ok out'.
Proof.
  intros HL Ha Hs c. unfold write_header.
  assert (Hw : forall o i v, length o = length r -> 0 <= i < 4 -> exists o', wr o (a + i) v = Ok o' /\ length o' = length r).
  { intros o i v Ho Hi. destruct (wr_total o (a + i) v) as [o' E]; [lia|unfold size in *; rewrite Ho; lia|]. exists o'. split; [exact E|]. rewrite (wr_length _ _ _ _ E). exact Ho. }
  destruct (Hw out 0 (Z.land (c_length c) 0xff) HL ltac:(lia)) as (o1 & E1 & L1). replace (a + 0) with a in E1 by lia. rewrite E1. cbn [bind].
  destruct (Hw o1 1 (Z.land (Z.shiftr (c_length c) 8) 0xff) L1 ltac:(lia)) as (o2 & E2 & L2). rewrite E2. cbn [bind].
  destruct (Hw o2 2 (Z.land (aram_addr c) 0xff) L2 ltac:(lia)) as (o3 & E3 & L3). rewrite E3. cbn [bind].
  destruct (Hw o3 3 (Z.land (Z.shiftr (aram_addr c) 8) 0xff) L3 ltac:(lia)) as (o4 & E4 & L4). rewrite E4. eauto.
Qed.

(** [keeps r K out out']: [out'] is [out] with the bytes of [r] at the addresses in [K]. *)
Definition keeps (r : list Z) (K : Z -> Prop) (out out' : list Z) : Prop :=
  length out' = length r /\ forall x, 0 <= x -> (K x -> byte out' x = byte r x) /\ (~ K x -> byte out' x = byte out x).
Lemma keeps_trans r (K1 K2 : Z -> Prop) o1 o2 o3 : (forall x, K2 x \/ ~ K2 x) -> keeps r K1 o1 o2 -> keeps r K2 o2 o3 -> keeps r (fun x => K1 x \/ K2 x) o1 o3.
Proof.
  intros Hd [L1 H1] [L2 H2]. split; [exact L2|]. intros x Hx. destruct (H1 x Hx) as [A1 A2]. destruct (H2 x Hx) as [B1 B2]. split.
  - intros [H|H]; [|apply B1; exact H]. destruct (Hd x) as [Hk|Hk]; [apply B1; exact Hk|]. rewrite B2 by exact Hk. apply A1. exact H.
  - intros Hn. rewrite B2 by tauto. apply A2. tauto.
Qed.
Lemma keeps_iff r (K1 K2 : Z -> Prop) o1 o2 : (forall x, K1 x <-> K2 x) -> keeps r K1 o1 o2 -> keeps r K2 o1 o2.
Proof. intros Hi [L H]. split; [exact L|]. intros x Hx. destruct (H x Hx) as [A B]. split; intros Hk; [apply A|apply B]; rewrite Hi; exact Hk. Qed.
Lemma headers_dec bs x : headers bs x \/ ~ headers bs x.
Proof.
  unfold headers. induction bs as [|b bs [IH|IH]].
  - right. intros (b & [] & _).
  - left. destruct IH as (b' & H1 & H2). exists b'. split; [right; exact H1|exact H2].
  - destruct (Z.le_gt_cases (tb_start b) x); [destruct (Z.lt_ge_cases x (payload b))|].
    + left. exists b. split; [left; reflexivity|split; assumption].
    + right. intros (b' & [<-|Hb] & Hx); [unfold in_header in Hx; lia|apply IH; eauto].
    + right. intros (b' & [<-|Hb] & Hx); [unfold in_header in Hx; lia|apply IH; eauto].
Qed.

Lemma copy_headers_ok r : is_image r -> forall fuel out a ll out', 0 <= a -> ll <> 0 -> length out = length r ->
  copy_headers fuel r out a ll = Ok out' ->
  exists bs t, chain r a bs t /\ keeps r (headers (bs ++ [t])) out out'.
Proof.
  intros Hr. induction fuel as [|fuel IH]; intros out a ll out' Ha Hll HL H; cbn [copy_headers] in H; (destruct (Z.eqb_spec ll 0); [contradiction|]); [discriminate|].
  inv_bind H. apply chunk_load_ok in Ha0; [|exact Ha]. destruct Ha0 as [Hs ->]. inv_bind H. rename a0 into out1.
  destruct (header_copy r out a out1 Hr Ha Hs HL Ha0) as [L1 H1]. cbn [offset_addr c_length] in H.
  assert (K1 : keeps r (in_header (block_at r a)) out out1).
  { split; [exact L1|]. intros x Hx. rewrite H1 by exact Hx. unfold in_header, payload, block_at. cbn [tb_start]. destruct ((a <=? x) && (x <? a + 4)) eqn:E; split; intros; try reflexivity; lia. }
  pose proof (word_u16 r a Hr) as Hw. destruct (Z.eqb_spec (word r a) 0) as [Hz|Hz].
  - assert (E : out1 = out') by (rewrite Hz in H; destruct fuel; cbn in H; injection H as <-; reflexivity). subst out'.
    exists [], (block_at r a). split; [apply chain_end; assumption|]. eapply keeps_iff; [|exact K1]. intros x. unfold headers. cbn [app In]. split.
    + intros Hx. exists (block_at r a). split; [left; reflexivity|exact Hx].
    + intros (b & [<-|[]] & Hx). exact Hx.
  - destruct (IH out1 (a + 4 + word r a) (word r a) out' ltac:(lia) Hz L1 H) as (bs & t & Hc & K2).
    exists (block_at r a :: bs), t. split; [apply chain_block; assumption|].
    eapply keeps_iff; [|eapply keeps_trans; [|exact K1|exact K2]; intros x; apply headers_dec].
    intros x. unfold headers. cbn [app In]. split.
    + intros [Hx|(b & Hb & Hx)]; [exists (block_at r a); auto|exists b; auto].
    + intros (b & [<-|Hb] & Hx); [left; exact Hx|right; exists b; auto].
Qed.
Lemma copy_headers_total r a bs t : is_image r -> chain r a bs t -> forall fuel out ll, ll <> 0 -> Z.of_nat fuel * 4 + a > size r -> length out = length r ->
  exists out', copy_headers fuel r out a ll = Ok out'.
Proof.
  intros Hr Hc. induction Hc as [a H0 H1 Hw|a bs t H0 H1 Hw Hc IH]; intros fuel out ll Hll Hf HL; (destruct fuel as [|fuel]; [lia|]); cbn [copy_headers];
    (destruct (Z.eqb_spec ll 0); [contradiction|]); rewrite (proj2 (chunk_load_ok r a _ H0) (conj H1 eq_refl)); cbn [bind];
    destruct (header_copy_total r out a HL H0 H1 (mk_chunk (a + 4) (word r a) (word r (a + 2)))) as [out1 E]; rewrite E; cbn [bind offset_addr c_length].
  - rewrite Hw. destruct fuel; cbn; eauto.
  - pose proof (word_u16 r a Hr). apply IH; [exact Hw|lia|]. destruct (header_copy r out a out1 Hr H0 H1 HL E) as [L1 _]. exact L1.
Qed.
Lemma copy_headers_stops r : is_image r -> forall fuel out a ll, 0 <= a -> (1 <= fuel)%nat -> Z.of_nat fuel * 4 + Z.min a (size r) > size r -> copy_headers fuel r out a ll <> Diverge.
Proof.
  intros Hr. induction fuel as [|fuel IH]; intros out a ll Ha H1 Hf; [lia|]. cbn [copy_headers]. destruct (ll =? 0); [discriminate|].
  pose proof (word_u16 r a Hr). destruct (chunk_load_cases r a Ha) as [[p ->]|[Hs ->]]; cbn [bind]; [discriminate|].
  unfold write_header, wr. repeat (destruct (set_nth _ _ _); cbn [or_panic bind]; [|discriminate]). cbn [offset_addr c_length]. apply IH; lia.
Qed.
Lemma chain_fun r a bs t : chain r a bs t -> forall bs' t', chain r a bs' t' -> bs = bs' /\ t = t'.
Proof.
  intros H. induction H as [a H0 H1 Hw|a bs t H0 H1 Hw Hc IH]; intros bs' t' H'; inversion H'; subst; try contradiction; [auto|].
  destruct (IH _ _ H4) as [-> ->]. auto.
Qed.

Lemma pointer_dec base_addr x : pointer_bytes base_addr x \/ ~ pointer_bytes base_addr x.
Proof. unfold pointer_bytes. lia. Qed.

Lemma fake_bank_ok b r out base_addr out' : is_image r -> 0 <= base_addr -> base_addr + 8 < 2 ^ 32 -> length out = length r ->
  fake_bank b r out base_addr = Ok out' ->
  pointers_in r base_addr /\ (exists bs t, chain r (bank_chain r base_addr) bs t) /\ keeps r (bank_kept r base_addr) out out'.
Proof.
  intros Hr H0 H1 HL H. unfold fake_bank in H. rewrite !arith_exact in H by lia. cbn [bind] in H. rewrite !snes_to_pc_lorom in H by lia.
  inv_bind H. inv_bind H. inv_bind H. apply rd_ok in Ha, Ha0, Ha1; try apply lorom24_nonneg. destruct Ha as [P1 ->], Ha0 as [P2 ->], Ha1 as [P3 ->].
  inv_bind H. inv_bind H. inv_bind H. rename a into o1, a0 into o2, a1 into o3.
  apply wr_ok in Ha, Ha0, Ha1; try apply lorom24_nonneg. destruct Ha as (_ & L1 & B1), Ha0 as (_ & L2 & B2), Ha1 as (_ & L3 & B3).
  rewrite snes_bytes_lorom in H by (apply byte_u8; exact Hr). fold (bank_chain r base_addr) in H.
  apply copy_headers_ok in H; [|exact Hr|apply bank_chain_nonneg; exact Hr|lia|congruence]. destruct H as (bs & t & Hc & K).
  split; [|split].
  - split; [exact H0|]. split; [exact H1|]. intros a [->|[->| ->]]; assumption.
  - eauto.
  - assert (K0 : keeps r (pointer_bytes base_addr) out o3).
    { split; [congruence|]. intros x Hx. rewrite B3, B2, B1 by exact Hx. unfold pointer_bytes. split.
      - intros [->|[->| ->]]; eqb_cases; congruence.
      - intros Hn. eqb_cases; reflexivity. }
    eapply keeps_iff; [|eapply keeps_trans; [|exact K0|exact K]; intros x; apply headers_dec].
    intros x. unfold bank_kept. split; (intros [Hx|Hx]; [left; exact Hx|right]).
    + eauto.
    + destruct Hx as (bs' & t' & Hc' & Hx). destruct (chain_fun _ _ _ _ Hc _ _ Hc') as [-> ->]. exact Hx.
Qed.
Lemma fake_bank_total b r out base_addr bs t : is_image r -> pointers_in r base_addr -> chain r (bank_chain r base_addr) bs t -> length out = length r ->
  exists out', fake_bank b r out base_addr = Ok out'.
Proof.
  intros Hr (H0 & H1 & Hp) Hc HL. unfold fake_bank. rewrite !arith_exact by lia. cbn [bind]. rewrite !snes_to_pc_lorom by lia.
  rewrite !rd_get by (first [apply lorom24_nonneg | apply Hp; unfold pointer_bytes; auto]). cbn [bind].
  assert (P1 : lorom24 (base_addr + 8) < size r) by (apply Hp; unfold pointer_bytes; auto).
  assert (P2 : lorom24 (base_addr + 4) < size r) by (apply Hp; unfold pointer_bytes; auto).
  assert (P3 : lorom24 base_addr < size r) by (apply Hp; unfold pointer_bytes; auto).
  destruct (wr_total out (lorom24 (base_addr + 8)) (byte r (lorom24 (base_addr + 8)))) as [o1 E1]; [apply lorom24_nonneg|unfold size in *; lia|]. rewrite E1. cbn [bind]. apply wr_length in E1.
  destruct (wr_total o1 (lorom24 (base_addr + 4)) (byte r (lorom24 (base_addr + 4)))) as [o2 E2]; [apply lorom24_nonneg|unfold size in *; lia|]. rewrite E2. cbn [bind]. apply wr_length in E2.
  destruct (wr_total o2 (lorom24 base_addr) (byte r (lorom24 base_addr))) as [o3 E3]; [apply lorom24_nonneg|unfold size in *; lia|]. rewrite E3. cbn [bind]. apply wr_length in E3.
  rewrite snes_bytes_lorom by (apply byte_u8; exact Hr). fold (bank_chain r base_addr).
  eapply copy_headers_total; [exact Hr|exact Hc|lia| |congruence]. pose proof (bank_chain_nonneg r base_addr Hr). unfold size. lia.
Qed.

Lemma fake_fold b r : is_image r -> forall addrs out out', Forall addr_ok addrs -> length out = length r -> ofold (fake_bank b r) addrs out = Ok out' ->
  Forall (fun a => pointers_in r a /\ exists bs t, chain r (bank_chain r a) bs t) addrs /\
  keeps r (fun x => exists a, In a addrs /\ bank_kept r a x) out out'.
Proof.
  intros Hr. induction addrs as [|a addrs IH]; intros out out' HF HL H; cbn [ofold] in H.
  - injection H as <-. split; [constructor|]. split; [exact HL|]. intros x Hx. split; [intros (a & [] & _)|reflexivity].
  - apply Forall_cons_iff in HF. destruct HF as [[Ha1 Ha2] HF]. inv_bind H. destruct (fake_bank_ok b r out a a0 Hr Ha1 Ha2 HL Ha) as (P1 & P2 & P3).
    destruct (IH a0 out' HF (proj1 P3) H) as [I1 I2]. split; [constructor; [auto|exact I1]|].
    eapply keeps_iff; [|eapply keeps_trans; [|exact P3|exact I2]].
    + intros x. cbn [In]. split.
      * intros [Hx|(a' & Ha' & Hx)]; [exists a; auto|exists a'; auto].
      * intros (a' & [<-|Ha'] & Hx); [left; exact Hx|right; exists a'; auto].
    + intros x. clear -I1. induction I1 as [|a addrs [_ (bs & t & Hc)] _ [IH|IH]].
      * right. intros (a & [] & _).
      * left. destruct IH as (a' & Ha' & Hx). exists a'. split; [right; exact Ha'|exact Hx].
      * assert (Hd : bank_kept r a x \/ ~ bank_kept r a x).
        { destruct (pointer_dec a x) as [Hp|Hp]; [left; left; exact Hp|]. destruct (headers_dec (bs ++ [t]) x) as [Hh|Hh]; [left; right; eauto|].
          right. intros [Hx|(bs' & t' & Hc' & Hx)]; [contradiction|]. destruct (chain_fun _ _ _ _ Hc _ _ Hc') as [-> ->]. contradiction. }
        destruct Hd as [Hk|Hk]; [left; exists a; cbn; auto|]. right. intros (a' & [<-|Ha'] & Hx); [contradiction|]. apply IH. eauto.
Qed.
Lemma fake_fold_total b r : is_image r -> forall addrs out, Forall (fun a => pointers_in r a /\ exists bs t, chain r (bank_chain r a) bs t) addrs -> length out = length r ->
  exists out', ofold (fake_bank b r) addrs out = Ok out'.
Proof.
  intros Hr. induction addrs as [|a addrs IH]; intros out HF HL; cbn [ofold]; [eauto|]. apply Forall_cons_iff in HF. destruct HF as [(P1 & bs & t & Hc) HF].
  destruct (fake_bank_total b r out a bs t Hr P1 Hc HL) as [o1 E]. rewrite E. cbn [bind]. apply IH; [exact HF|].
  destruct P1 as (P1 & P2 & _). destruct (fake_bank_ok b r out a o1 Hr P1 P2 HL E) as (_ & _ & [L _]). exact L.
Qed.

Lemma byte_repeat n x : byte (repeat 0 n) x = 0.
Proof.
  unfold byte. destruct (nth_in_or_default (Z.to_nat x) (repeat 0 n) 0) as [H|H]; [apply repeat_spec in H; exact H|exact H].
Qed.
Lemma fake_image_ok b r addrs out : is_image r -> Forall addr_ok addrs -> fake_image b r addrs = Ok out ->
  Forall (fun a => pointers_in r a /\ exists bs t, chain r (bank_chain r a) bs t) addrs /\
  length out = length r /\ forall x, 0 <= x ->
    ((exists a, In a addrs /\ bank_kept r a x) -> byte out x = byte r x) /\ (~ (exists a, In a addrs /\ bank_kept r a x) -> byte out x = 0).
Proof.
  intros Hr HF H. unfold fake_image in H. destruct (fake_fold b r Hr _ _ _ HF (repeat_length 0 _) H) as (P & L & K). split; [exact P|]. split; [exact L|].
  intros x Hx. destruct (K x Hx) as [K1 K2]. split; [exact K1|]. intros Hn. rewrite K2 by exact Hn. apply byte_repeat.
Qed.

Lemma image_of_bytes out : (forall x, 0 <= x < size out -> 0 <= byte out x < 256) -> is_image out.
Proof.
  intros H. unfold is_image. apply Forall_forall. intros v Hv. apply (In_nth _ _ 0) in Hv. destruct Hv as (n & Hn & <-). specialize (H (Z.of_nat n)).
  unfold byte, size, u8 in *. rewrite Nat2Z.id in H. lia.
Qed.
Lemma kept_dec r addrs x : Forall (fun a => pointers_in r a /\ exists bs t, chain r (bank_chain r a) bs t) addrs ->
  (exists a, In a addrs /\ bank_kept r a x) \/ ~ exists a, In a addrs /\ bank_kept r a x.
Proof.
  intros I1. induction I1 as [|a addrs [_ (bs & t & Hc)] _ [IH|IH]].
  - right. intros (a & [] & _).
  - left. destruct IH as (a' & Ha' & Hx). exists a'. split; [right; exact Ha'|exact Hx].
  - assert (Hd : bank_kept r a x \/ ~ bank_kept r a x).
    { destruct (pointer_dec a x) as [Hp|Hp]; [left; left; exact Hp|]. destruct (headers_dec (bs ++ [t]) x) as [Hh|Hh]; [left; right; eauto|].
      right. intros [Hx|(bs' & t' & Hc' & Hx)]; [contradiction|]. destruct (chain_fun _ _ _ _ Hc _ _ Hc') as [-> ->]. contradiction. }
    destruct Hd as [Hk|Hk]; [left; exists a; cbn; auto|]. right. intros (a' & [<-|Ha'] & Hx); [contradiction|]. apply IH. eauto.
Qed.

(** The dummy has the banks' structure and is its own dummy. *)
Lemma fake_structure b r addrs out : is_image r -> Forall addr_ok addrs -> fake_image b r addrs = Ok out ->
  is_image out /\
  (forall a, In a addrs -> bank_chain out a = bank_chain r a /\ forall bs t, chain r (bank_chain r a) bs t -> chain out (bank_chain out a) bs t) /\
  fake_image b out addrs = Ok out.
Proof.
  intros Hr HF H. destruct (fake_image_ok b r addrs out Hr HF H) as (P & L & K).
  assert (Hsz : size out = size r) by (unfold size; congruence).
  assert (Hi : is_image out).
  { apply image_of_bytes. intros x Hx. destruct (K x ltac:(lia)) as [K1 K2]. destruct (kept_dec r addrs x P) as [Hk|Hk].
    - rewrite K1 by exact Hk. apply byte_u8. exact Hr.
    - rewrite K2 by exact Hk. lia. }
  assert (Hch : forall a, In a addrs -> bank_chain out a = bank_chain r a).
  { intros a Ha. unfold bank_chain.
    rewrite !(fun x Hx => proj1 (K x Hx)); auto; try apply lorom24_nonneg; exists a; split; auto; left; unfold pointer_bytes; auto. }
  assert (Hc : forall a, In a addrs -> forall bs t, chain r (bank_chain r a) bs t -> chain out (bank_chain r a) bs t).
  { intros a Ha bs t Hc. assert (HS : same_outside (fun x => ~ exists a, In a addrs /\ bank_kept r a x) r out).
    { split; [exact L|]. intros x Hx Hn. apply K; [exact Hx|]. destruct (kept_dec r addrs x P) as [Hk|Hk]; [exact Hk|]. contradiction. }
    eapply chain_same; [exact HS|exact Hc|]. apply Forall_forall. intros b0 Hb0 x Hx Hn. apply Hn. exists a. split; [exact Ha|]. right. exists bs, t. split; [exact Hc|].
    exists b0. split; [exact Hb0|exact Hx]. }
  split; [exact Hi|]. split.
  - intros a Ha. rewrite (Hch a Ha). split; [reflexivity|]. intros bs t Hbt. apply (Hc a Ha). exact Hbt.
  - assert (P' : Forall (fun a => pointers_in out a /\ exists bs t, chain out (bank_chain out a) bs t) addrs).
    { rewrite Forall_forall in *. intros a Ha. destruct (P a Ha) as ((P1 & P2 & P3) & bs & t & Hbt). split.
      - split; [exact P1|]. split; [exact P2|]. intros y Hy. rewrite Hsz. apply P3. exact Hy.
      - exists bs, t. rewrite (Hch a Ha). apply (Hc a Ha). exact Hbt. }
    destruct (fake_fold_total b out Hi addrs (repeat 0 (length out)) P' (repeat_length 0 _)) as [out2 E].
    assert (E' : fake_image b out addrs = Ok out2) by exact E. rewrite E'. f_equal.
    destruct (fake_image_ok b out addrs out2 Hi HF E') as (_ & L2 & K2). apply byte_ext; [congruence|]. intros x Hx. destruct (K2 x ltac:(lia)) as [A1 A2].
    destruct (kept_dec out addrs x P') as [Hk|Hk]; [apply A1; exact Hk|]. rewrite A2 by exact Hk. symmetry. apply K; [lia|].
    intros (a & Ha & Hx'). apply Hk. exists a. split; [exact Ha|]. destruct Hx' as [Hx'|(bs & t & Hbt & Hx')]; [left; exact Hx'|]. right. exists bs, t. split; [|exact Hx'].
    rewrite (Hch a Ha). apply (Hc a Ha). exact Hbt.
Qed.
Lemma fake_total b r addrs : is_image r -> Forall (fun a => pointers_in r a /\ exists bs t, chain r (bank_chain r a) bs t) addrs -> exists out, fake_image b r addrs = Ok out.
Proof. intros Hr HF. unfold fake_image. apply fake_fold_total; [exact Hr|exact HF|apply repeat_length]. Qed.
Lemma fake_stops b r addrs : is_image r -> Forall addr_ok addrs -> fake_image b r addrs <> Diverge.
Proof.
  intros Hr HF. unfold fake_image. generalize (repeat 0 (length r)). induction HF as [|a addrs [H0 H1] _ IH]; intros out; cbn [ofold]; [discriminate|].
  destruct (fake_bank b r out a) as [o| | |] eqn:E; cbn [bind]; try discriminate; [apply IH|]. exfalso. revert E. unfold fake_bank. rewrite !arith_exact by lia. cbn [bind].
  assert (Hrd : forall x, (exists y, rd r x = Ok y /\ 0 <= y < 256) \/ exists p, rd r x = Panic p).
  { intros x. unfold rd. destruct (nth_error r (Z.to_nat x)) as [v|] eqn:Ex; cbn [or_panic]; [left|right; eauto]. exists v. split; [reflexivity|].
    unfold is_image in Hr. rewrite Forall_forall in Hr. apply (Hr v (nth_error_In _ _ Ex)). }
  assert (Hwr : forall o x v, (exists o', wr o x v = Ok o') \/ exists p, wr o x v = Panic p).
  { intros o x v. unfold wr. destruct (set_nth o (Z.to_nat x) v); cbn [or_panic]; eauto. }
  destruct (Hrd (snes_to_pc_addr (a + 8))) as [(y1 & -> & B1)|[p ->]]; cbn [bind]; [|discriminate].
  destruct (Hrd (snes_to_pc_addr (a + 4))) as [(y2 & -> & B2)|[p ->]]; cbn [bind]; [|discriminate].
  destruct (Hrd (snes_to_pc_addr a)) as [(y3 & -> & B3)|[p ->]]; cbn [bind]; [|discriminate].
  destruct (Hwr out (snes_to_pc_addr (a + 8)) y1) as [[o1 ->]|[p ->]]; cbn [bind]; [|discriminate].
  destruct (Hwr o1 (snes_to_pc_addr (a + 4)) y2) as [[o2 ->]|[p ->]]; cbn [bind]; [|discriminate].
  destruct (Hwr o2 (snes_to_pc_addr a) y3) as [[o3 ->]|[p ->]]; cbn [bind]; [|discriminate].
  assert (Hge : 0 <= snes_bytes_to_pc_addr y1 y2 y3) by (rewrite snes_bytes_lorom by (unfold u8; lia); apply lorom_nonneg; lia).
  apply copy_headers_stops; [exact Hr|exact Hge|lia|unfold size; lia].
Qed.

(** ** Verbose mode *)
Lemma verbose_release v x y : verbose_sub Release v x y = Ok tt.
Proof. unfold verbose_sub. destruct v; [|reflexivity]. unfold arith. destruct (_ && _); reflexivity. Qed.
Lemma verbose_small b v x y : 0 <= x - y < 2 ^ 64 -> verbose_sub b v x y = Ok tt.
Proof. intros H. unfold verbose_sub. destruct v; [|reflexivity]. rewrite arith_exact by lia. reflexivity. Qed.
Lemma bind_ext {A B} (o : outcome A) (f g : A -> outcome B) : (forall a, o = Ok a -> f a = g a) -> bind o f = bind o g.
Proof. intros H. destruct o; cbn; auto. Qed.
Definition vsafe (b : build) (bl : blocks) (ab cl o : Z) : Prop := b = Release \/ (ab <> aram_overflow_base bl -> 0 <= o <= cl /\ cl < 2 ^ 64).
Lemma verbose_safe b bl ab cl o v : vsafe b bl ab cl o -> ab <> aram_overflow_base bl -> verbose_sub b v cl o = Ok tt.
Proof. intros [->|H] Hne; [apply verbose_release|]. apply verbose_small. specialize (H Hne). lia. Qed.

Lemma reserve_verbose b bl lp st v : vsafe b bl (aram_base_addr st) (chunk_length st) (song_offset st) ->
  reserve_header b v bl lp st = reserve_header b false bl lp st.
Proof.
  intros H. unfold reserve_header. destruct (_ <? _); [|reflexivity]. destruct (Z.eqb_spec (aram_base_addr st) (aram_overflow_base bl)) as [|Hne]; [reflexivity|].
  rewrite !(verbose_safe _ _ _ _ _ _ H Hne). reflexivity.
Qed.
Lemma reserve_vsafe b bl lp st v st' : vsafe b bl (aram_base_addr st) (chunk_length st) (song_offset st) -> reserve_header b v bl lp st = Ok st' ->
  vsafe b bl (aram_base_addr st') (chunk_length st') (song_offset st' + header_size lp + 16) /\
  vsafe b bl (aram_base_addr st') (chunk_length st') (song_offset st').
Proof.
  intros H E. unfold reserve_header in E. change (if lp then 8 else 4) with (header_size lp) in E.
  assert (0 <= header_size lp) by (unfold header_size; destruct lp; lia).
  destruct (Z.ltb_spec (chunk_length st) (song_offset st + header_size lp + 16)).
  - destruct (_ =? _); [discriminate|]. inv_bind E. injection E as <-. cbn [aram_base_addr chunk_length song_offset]. split; right; congruence.
  - injection E as <-. split; [|exact H]. destruct H as [->|H]; [left; reflexivity|]. right. intros Hne. specialize (H Hne). lia.
Qed.
Lemma track_verbose b bl o s st i v : vsafe b bl (ks_aram_base st) (ks_chunk_length st) o ->
  write_one_track b v bl o s st i = write_one_track b false bl o s st i.
Proof.
  intros H. unfold write_one_track. cbv zeta. apply bind_ext. intros [data refs] _. f_equal. destruct (_ <? _); [|reflexivity].
  destruct (Z.eqb_spec (ks_aram_base st) (aram_overflow_base bl)) as [|Hne]; [reflexivity|]. rewrite !(verbose_safe _ _ _ _ _ _ H Hne). reflexivity.
Qed.
Lemma track_vsafe b bl o s st i v st' : vsafe b bl (ks_aram_base st) (ks_chunk_length st) o -> vsafe b bl (ks_aram_base st) (ks_chunk_length st) (track_data_offset st) ->
  write_one_track b v bl o s st i = Ok st' ->
  vsafe b bl (ks_aram_base st') (ks_chunk_length st') o /\ vsafe b bl (ks_aram_base st') (ks_chunk_length st') (track_data_offset st').
Proof.
  intros H1 H2 E. unfold write_one_track in E. cbv zeta in E. inv_bind E. destruct a as [data refs]. inv_bind E. destruct a as [[st1 p1] p2].
  set (len := Z.of_nat (length data)) in *.
  assert (Hst1 : vsafe b bl (ks_aram_base st1) (ks_chunk_length st1) o /\ vsafe b bl (ks_aram_base st1) (ks_chunk_length st1) (track_data_offset st1) /\
     vsafe b bl (ks_aram_base st1) (ks_chunk_length st1) (track_data_offset st1 + len)).
  { destruct (Z.ltb_spec (ks_chunk_length st) (track_data_offset st + len)).
    - destruct (_ =? _); [discriminate|]. inv_bind Ha0. injection Ha0 as <- <- <-. cbn. repeat split; right; congruence.
    - injection Ha0 as <- <- <-. split; [exact H1|]. split; [exact H2|]. destruct H2 as [->|H2]; [left; reflexivity|]. right. intros Hne. specialize (H2 Hne). lia. }
  destruct Hst1 as (S1 & S2 & S3). destruct (0 <? len); [inv_bind E|]; injection E as <-; cbn [ks_aram_base ks_chunk_length track_data_offset]; auto.
Qed.
Lemma tracks_verbose b bl o s v is : forall st, vsafe b bl (ks_aram_base st) (ks_chunk_length st) o -> vsafe b bl (ks_aram_base st) (ks_chunk_length st) (track_data_offset st) ->
  ofold (write_one_track b v bl o s) is st = ofold (write_one_track b false bl o s) is st /\
  forall st', ofold (write_one_track b v bl o s) is st = Ok st' -> vsafe b bl (ks_aram_base st') (ks_chunk_length st') (track_data_offset st').
Proof.
  induction is as [|i is IH]; intros st H1 H2; cbn [ofold].
  - split; [reflexivity|]. intros st' [= <-]. exact H2.
  - rewrite (track_verbose b bl o s st i v H1). split.
    + apply bind_ext. intros st1 E. destruct (track_vsafe b bl o s st i false st1 H1 H2 E) as [V1 V2]. apply IH; assumption.
    + intros st' E. inv_bind E. destruct (track_vsafe b bl o s st i false a H1 H2 Ha) as [V1 V2]. apply (IH a V1 V2). exact E.
Qed.
Definition wsafe (b : build) (bl : blocks) (st : wstate) : Prop := vsafe b bl (aram_base_addr st) (chunk_length st) (song_offset st).
Lemma song_verbose b bl st lp s v : wsafe b bl st -> write_song b v bl st lp s = write_song b false bl st lp s /\
  forall st', write_song b v bl st lp s = Ok st' -> wsafe b bl st'.
Proof.
  intros H. unfold wsafe in H. unfold write_song. cbv zeta. rewrite (reserve_verbose b bl lp st v H).
  change (if lp then 8 else 4) with (header_size lp). split.
  - apply bind_ext. intros st1 E1. apply bind_ext. intros r1 E2. destruct (reserve_vsafe b bl lp st false st1 H E1) as [V1 V2].
    match goal with |- context [ofold (write_one_track b v bl ?o s) ?is ?ks] => destruct (tracks_verbose b bl o s v is ks) as [T _]; [exact V2|exact V1|rewrite T; reflexivity] end.
  - intros st' E. inv_bind E. inv_bind E. destruct (reserve_vsafe b bl lp st false a H Ha) as [V1 V2].
    match type of E with context [ofold (write_one_track b v bl ?o s) ?is ?ks] => destruct (tracks_verbose b bl o s v is ks) as [_ T]; [exact V2|exact V1|] end.
    inv_bind E. specialize (T _ Ha1). inv_bind E. inv_bind E. inv_bind E. inv_bind E. injection E as <-. exact T.
Qed.
Lemma songs_verbose b bl conv v sds : forall st, wsafe b bl st ->
  ofold (write_song_def b v bl conv) sds st = ofold (write_song_def b false bl conv) sds st.
Proof.
  induction sds as [|sd sds IH]; intros st H; cbn [ofold]; [reflexivity|].
  assert (E : write_song_def b v bl conv st sd = write_song_def b false bl conv st sd).
  { unfold write_song_def. apply bind_ext. intros _ _. apply bind_ext. intros s _. apply song_verbose. exact H. }
  rewrite E. apply bind_ext. intros st1 E1. apply IH. rewrite <- E in E1. unfold write_song_def in E1. inv_bind E1. inv_bind E1. eapply song_verbose; eassumption.
Qed.
Lemma scan_len r : is_image r -> forall fuel a ll st st', 0 <= a -> scan_blocks fuel r a ll st = Ok st' -> 0 <= base_chunk_len st < 65536 -> 0 <= base_chunk_len st' < 65536.
Proof.
  intros Hr. induction fuel as [|fuel IH]; intros a ll st st' Ha H Hst; cbn [scan_blocks] in H; destruct (ll =? 0); try (injection H as <-; exact Hst); [discriminate|].
  inv_bind H. apply chunk_load_ok in Ha0; [|exact Ha]. destruct Ha0 as [_ ->]. cbn [aram_addr c_length offset_addr] in H. pose proof (word_u16 r a Hr).
  destruct (_ =? ARAM_BASE).
  - inv_bind H. eapply IH; [|exact H|]; [lia|]. cbn [base_chunk_len]. lia.
  - eapply IH; [|exact H|exact Hst]. lia.
Qed.
Lemma find_len b r ba bl : is_image r -> 0 <= ba -> find_blocks b r ba = Ok bl -> 0 <= base_chunk_len bl < 65536.
Proof.
  intros Hr Hb H. unfold find_blocks in H. inv_bind H. destruct (bank_start_cases b r ba Hr Hb) as [(a' & E & Ha')|[p E]]; [|congruence]. assert (a' = a) by congruence. subst a'.
  inv_bind H. destruct (base_chunk_addr a0 =? 0); [discriminate|]. destruct (overflow_chunk_addr a0 =? 0); [discriminate|]. injection H as <-.
  eapply scan_len; [exact Hr|exact Ha'|exact Ha0|]. cbn. lia.
Qed.
Lemma bank_verbose b v bk r ba fa first conv : is_image r -> 0 <= ba -> 0xd000 <= fa ->
  (b = Release \/ forall bl, find_blocks b r ba = Ok bl -> fa - 0xd000 <= base_chunk_len bl) ->
  write_bank b v bk r ba fa first conv = write_bank b false bk r ba fa first conv.
Proof.
  intros Hr Hba Hfa Hlen. unfold write_bank. apply bind_ext. intros bl Ebl. rewrite (songs_verbose b bl conv v); [reflexivity|].
  unfold wsafe, vsafe, wstate_init. cbn [aram_base_addr chunk_length song_offset]. unfold ARAM_BASE. destruct Hlen as [->|Hlen]; [left; reflexivity|].
  right. intros _. specialize (Hlen bl Ebl). pose proof (find_len b r ba bl Hr Hba Ebl). lia.
Qed.
Lemma bank_verbose_release v bk r ba fa first conv : write_bank Release v bk r ba fa first conv = write_bank Release false bk r ba fa first conv.
Proof. unfold write_bank. apply bind_ext. intros bl Ebl. rewrite (songs_verbose Release bl conv v); [reflexivity|]. left. reflexivity. Qed.
Lemma banks_verbose_release v conv addrs bks : forall i first r, write_banks Release v bks i first r addrs conv = write_banks Release false bks i first r addrs conv.
Proof.
  induction bks as [|bk bks IH]; intros i first r; cbn [write_banks]; [reflexivity|]. apply bind_ext. intros ba _. apply bind_ext. intros fa _.
  rewrite bank_verbose_release. apply bind_ext. intros r' _. apply IH.
Qed.
Lemma rom_verbose_release v m file op addrs conv os : rom_write Release v m file op addrs conv os = rom_write Release false m file op addrs conv os.
Proof. unfold rom_write. rewrite banks_verbose_release. reflexivity. Qed.

(** RomLib.v: byte-level lemmas about images, addresses and block headers (C30-C32). *)
From Coq Require Import ZArith List Bool Lia ZifyBool ZifyNat.
From Verif Require Import Base Command Track Song Rom SpecRom ProofLib.
Ltac Zify.zify_post_hook ::= Z.div_mod_to_equations.
Open Scope Z_scope.

(** ** Reading and writing bytes *)
Lemma rd_ok r a v : 0 <= a -> rd r a = Ok v <-> a < size r /\ v = byte r a.
Proof.
  intros Ha. unfold rd, byte, size. destruct (nth_error r (Z.to_nat a)) as [x|] eqn:E; cbn [or_panic].
  - rewrite (nth_error_nth _ _ 0 E). apply nth_error_lt in E. split; [intros [= <-]; split; [lia|reflexivity]|intros [_ ->]; reflexivity].
  - apply nth_error_None in E. split; [discriminate|lia].
Qed.
Lemma rd_get r a : 0 <= a -> a < size r -> rd r a = Ok (byte r a).
Proof. intros. apply rd_ok; auto. Qed.
Lemma rd_never_err r a e : rd r a <> Err e. Proof. unfold rd. destruct (nth_error _ _); discriminate. Qed.

Lemma wr_ok r a v r' : 0 <= a -> wr r a v = Ok r' ->
  a < size r /\ length r' = length r /\ forall x, 0 <= x -> byte r' x = if x =? a then v else byte r x.
Proof.
  intros Ha H. unfold wr in H. apply or_panic_ok in H. pose proof (set_nth_length _ _ _ _ H) as HL.
  assert (Hlt : (Z.to_nat a < length r)%nat).
  { destruct (Nat.le_gt_cases (length r) (Z.to_nat a)) as [Hle|]; [|lia]. apply (set_nth_none r _ v) in Hle. congruence. }
  split; [unfold size; lia|]. split; [exact HL|]. intros x Hx. unfold byte.
  pose proof (set_nth_spec _ _ _ _ H (Z.to_nat x)) as Hs.
  destruct (Z.eqb_spec x a) as [He|He].
  - subst x. rewrite Nat.eqb_refl in Hs. apply nth_error_nth with (d := 0) in Hs. exact Hs.
  - destruct (Nat.eqb_spec (Z.to_nat x) (Z.to_nat a)); [lia|]. rewrite !nth_default_eq || idtac.
    destruct (nth_error r (Z.to_nat x)) as [y|] eqn:E.
    + rewrite (nth_error_nth _ _ 0 Hs), (nth_error_nth _ _ 0 E). reflexivity.
    + apply nth_error_None in E. rewrite !nth_overflow; auto; lia.
Qed.
Lemma wr_total r a v : 0 <= a -> a < size r -> exists r', wr r a v = Ok r'.
Proof. intros H1 H2. unfold wr. destruct (set_nth_some r (Z.to_nat a) v) as [r' ->]; [unfold size in *; lia|]. exists r'. reflexivity. Qed.

Definition last_write (l : list (Z * Z)) (x d : Z) : Z := fold_left (fun acc av => if x =? fst av then snd av else acc) l d.
Lemma wr_all_ok l : forall r r', Forall (fun av => 0 <= fst av) l -> wr_all r l = Ok r' ->
  Forall (fun av => fst av < size r) l /\ length r' = length r /\
  forall x, 0 <= x -> byte r' x = last_write l x (byte r x).
Proof.
  induction l as [|[a v] l IH]; intros r r' HF H; unfold wr_all in H; cbn [ofold fst snd] in H.
  - injection H as <-. split; [constructor|]. split; [reflexivity|]. intros; reflexivity.
  - apply Forall_cons_iff in HF. cbn [fst] in HF. destruct HF as [Ha HF]. inv_bind H. rename a0 into r1.
    destruct (wr_ok _ _ _ _ Ha Ha0) as (Hlt & HL & Hb). destruct (IH r1 r' HF H) as (Hlts & HL' & Hb').
    split.
    { constructor; [exact Hlt|]. unfold size in *. rewrite HL in Hlts. exact Hlts. }
    split; [congruence|]. intros x Hx. rewrite Hb', Hb by auto. unfold last_write. cbn [fold_left fst snd]. reflexivity.
Qed.
Lemma wr_all_app r l1 l2 : wr_all r (l1 ++ l2) = bind (wr_all r l1) (fun r1 => wr_all r1 l2).
Proof. unfold wr_all. apply ofold_app. Qed.
Lemma last_write_none l x d : Forall (fun av => x <> fst av) l -> last_write l x d = d.
Proof.
  unfold last_write. intros HF. revert d; induction HF as [|[a v] l Hx _ IH]; intros d; cbn [fold_left fst snd] in *; [reflexivity|].
  rewrite IH. destruct (Z.eqb_spec x a); [contradiction|reflexivity].
Qed.

Lemma zero_range_spec a n x d : last_write (zero_range a n) x d = if (a <=? x) && (x <? a + Z.of_nat n) then 0 else d.
Proof.
  unfold zero_range. revert d. induction n as [|n IH]; intros d.
  - cbn. destruct (_ && _) eqn:E; [lia|reflexivity].
  - rewrite seq_S, map_app. unfold last_write in *. rewrite fold_left_app. cbn [fold_left map fst snd plus].
    rewrite IH. destruct (Z.eqb_spec x (a + Z.of_nat n)).
    + destruct ((a <=? x) && (x <? a + Z.of_nat (S n))) eqn:E; [reflexivity|lia].
    + destruct ((a <=? x) && (x <? a + Z.of_nat n)) eqn:E1; destruct ((a <=? x) && (x <? a + Z.of_nat (S n))) eqn:E2; lia.
Qed.

Lemma nth_skip {A} n (l : list A) k d : nth k (skipn n l) d = nth (n + k) l d.
Proof. revert n; induction l as [|x l IH]; intros [|n]; cbn [skipn nth plus]; auto; destruct k; reflexivity. Qed.
Lemma nth_first {A} n (l : list A) k d : (k < n)%nat -> nth k (firstn n l) d = nth k l d.
Proof. revert n k; induction l as [|x l IH]; intros [|n] k H; cbn [firstn]; try lia; auto. destruct k; cbn [nth]; [reflexivity|]. apply IH. lia. Qed.
Lemma splice_ok r a data r' : 0 <= a -> splice r a data = Ok r' ->
  a + Z.of_nat (length data) <= size r /\ length r' = length r /\
  (forall x, 0 <= x -> ~ (a <= x < a + Z.of_nat (length data)) -> byte r' x = byte r x) /\
  (forall j, (j < length data)%nat -> byte r' (a + Z.of_nat j) = nth j data 0).
Proof.
  intros Ha H. unfold splice in H. cbv zeta in H. destruct (Nat.leb_spec (Z.to_nat a + length data) (length r)) as [Hle|]; [|discriminate].
  injection H as <-. unfold size. split; [lia|]. split.
  { rewrite !app_length, firstn_length, skipn_length. lia. }
  assert (HL : length (firstn (Z.to_nat a) r) = Z.to_nat a) by (rewrite firstn_length; lia).
  split.
  - intros x Hx Hout. unfold byte. destruct (Z.lt_ge_cases x a).
    + rewrite app_nth1 by lia. apply nth_first. lia.
    + rewrite app_nth2 by lia. rewrite app_nth2 by lia.
      rewrite nth_skip. f_equal. lia.
  - intros j Hj. unfold byte. rewrite app_nth2 by lia. rewrite app_nth1 by lia. f_equal. lia.
Qed.
Lemma splice_total r a data : 0 <= a -> a + Z.of_nat (length data) <= size r -> exists r', splice r a data = Ok r'.
Proof. intros H1 H2. unfold splice. destruct (Nat.leb_spec (Z.to_nat a + length data) (length r)); [eauto|unfold size in *; lia]. Qed.

Lemma same_outside_refl P r : same_outside P r r. Proof. split; auto. Qed.
Lemma same_outside_trans P r1 r2 r3 : same_outside P r1 r2 -> same_outside P r2 r3 -> same_outside P r1 r3.
Proof. intros [H1 H2] [H3 H4]. split; [congruence|]. intros. rewrite H4, H2; auto. Qed.
Lemma same_outside_weaken (P Q : Z -> Prop) r r' : (forall x, 0 <= x -> P x -> Q x) -> same_outside P r r' -> same_outside Q r r'.
Proof. intros HPQ [H1 H2]. split; [exact H1|]. intros a Ha Hq. apply H2; auto. Qed.
Lemma same_size P r r' : same_outside P r r' -> size r' = size r.
Proof. intros [H _]. unfold size. congruence. Qed.
Lemma same_word P r r' a : same_outside P r r' -> 0 <= a -> ~ P a -> ~ P (a + 1) -> word r' a = word r a.
Proof. intros [_ H] Ha H1 H2. unfold word. rewrite !H; auto; lia. Qed.

Lemma byte_u8 r a : is_image r -> 0 <= byte r a < 256.
Proof.
  intros H. unfold byte. destruct (nth_in_or_default (Z.to_nat a) r 0) as [Hi| ->]; [|lia].
  unfold is_image in H. rewrite Forall_forall in H. apply (H _ Hi).
Qed.
Lemma word_u16 r a : is_image r -> 0 <= word r a < 65536.
Proof. intros H. unfold word. pose proof (byte_u8 r a H). pose proof (byte_u8 r (a + 1) H). lia. Qed.

(** ** C30: addresses *)
Lemma land_ones_mod x n : 0 <= n -> Z.land x (2 ^ n - 1) = x mod 2 ^ n.
Proof. intros Hn. rewrite <- Z.land_ones by lia. f_equal. rewrite Z.ones_equiv. lia. Qed.
Lemma land_byte x : Z.land x 0xFF = x mod 256.
Proof. change 0xFF with (2 ^ 8 - 1). rewrite land_ones_mod by lia. reflexivity. Qed.
Lemma land_15 x : Z.land x 0x7FFF = x mod 0x8000.
Proof. change 0x7FFF with (2 ^ 15 - 1). rewrite land_ones_mod by lia. reflexivity. Qed.
Lemma land_mid x : 0 <= x -> Z.land x 0xFF8000 = x / 0x8000 mod 512 * 0x8000.
Proof.
  intros Hx. replace 0xFF8000 with (Z.shiftl (Z.ones 9) 15) by reflexivity.
  apply Z.bits_inj'. intros n Hn. rewrite Z.land_spec, Z.shiftl_spec by lia.
  replace (x / 32768 mod 512 * 32768) with (Z.shiftl (Z.land (Z.shiftr x 15) (Z.ones 9)) 15).
  2:{ rewrite Z.shiftl_mul_pow2, Z.land_ones, Z.shiftr_div_pow2 by lia. reflexivity. }
  rewrite Z.shiftl_spec by lia.
  destruct (Z.lt_ge_cases n 15).
  - rewrite !(Z.testbit_neg_r _ (n - 15)) by lia. apply andb_false_r.
  - rewrite Z.land_spec, Z.shiftr_spec by lia. do 2 f_equal. lia.
Qed.
Lemma snes_to_pc_lorom a : 0 <= a -> snes_to_pc_addr a = lorom24 a.
Proof.
  intros Ha. unfold snes_to_pc_addr, lorom24, lorom. rewrite land_15, land_mid by lia. lia.
Qed.
Lemma shl_mul x n : 0 <= n -> Z.shiftl x n = x * 2 ^ n. Proof. intros. apply Z.shiftl_mul_pow2. lia. Qed.
Lemma snes_bytes_lorom bank high low : u8 bank -> u8 high -> u8 low ->
  snes_bytes_to_pc_addr bank high low = lorom bank (256 * high + low).
Proof.
  unfold u8. intros H1 H2 H3. unfold snes_bytes_to_pc_addr. rewrite !shl_mul by lia. rewrite snes_to_pc_lorom by lia.
  unfold lorom24, lorom. lia.
Qed.
Lemma lorom_nonneg bank addr : 0 <= bank -> 0 <= lorom bank addr.
Proof. intros. unfold lorom. lia. Qed.
Lemma lorom24_nonneg a : 0 <= lorom24 a.
Proof. apply lorom_nonneg. lia. Qed.

Lemma lorom_onto o : 0 <= o < 0x800000 -> exists bank addr, 0 <= bank <= 255 /\ 0x8000 <= addr <= 0xffff /\ lorom bank addr = o.
Proof. intros H. exists (o / 0x8000), (0x8000 + o mod 0x8000). unfold lorom. lia. Qed.
Lemma lorom_inj b1 a1 b2 a2 : 0 <= b1 -> 0 <= b2 -> 0x8000 <= a1 <= 0xffff -> 0x8000 <= a2 <= 0xffff ->
  lorom b1 a1 = lorom b2 a2 -> b1 = b2 /\ a1 = a2.
Proof. unfold lorom. intros. lia. Qed.

(** ** C31: bytes of addresses and block headers *)
Lemma addr_to_bytes_eq a : 0 <= a -> addr_to_bytes a = (a / 256 mod 256, a mod 256).
Proof. intros Ha. unfold addr_to_bytes. rewrite !land_byte, Z.shiftr_div_pow2 by lia. reflexivity. Qed.

Lemma chunk_load_ok r a c : 0 <= a -> chunk_load r a = Ok c <-> a + 4 <= size r /\ c = mk_chunk (a + 4) (word r a) (word r (a + 2)).
Proof.
  intros Ha. unfold chunk_load. split.
  - intros H. inv_bind H. inv_bind H. inv_bind H. inv_bind H. apply rd_ok in Ha0, Ha1, Ha2, Ha3; try lia.
    match type of H with Ok ?x = Ok c => assert (E : c = x) by congruence end. clear H. subst c. destruct Ha0 as [? ->], Ha1 as [? ->], Ha2 as [? ->], Ha3 as [? ->]. split; [lia|].
    rewrite !shl_mul by lia. unfold word. replace (a + 2 + 1) with (a + 3) by lia. f_equal; lia.
  - intros [Hs ->]. rewrite !rd_get by lia. cbn [bind]. rewrite !shl_mul by lia. unfold word.
    replace (a + 2 + 1) with (a + 3) by lia. f_equal. f_equal; lia.
Qed.
Lemma chunk_load_panic r a : 0 <= a -> size r < a + 4 -> chunk_load r a = Panic PIndex.
Proof.
  intros Ha Hs. unfold chunk_load, rd. unfold size in Hs.
  destruct (nth_error r (Z.to_nat (a + 1))) as [?|]; cbn [or_panic bind]; [|reflexivity].
  destruct (nth_error r (Z.to_nat a)) as [?|]; cbn [or_panic bind]; [|reflexivity].
  destruct (nth_error r (Z.to_nat (a + 3))) as [?|] eqn:E; cbn [or_panic bind]; [|reflexivity].
  apply nth_error_lt in E. lia.
Qed.

Lemma write_header_ok c r a r' : 0 <= a -> write_header c r a = Ok r' ->
  a + 4 <= size r /\ same_outside (fun x => a <= x < a + 4) r r' /\
  word r' a = c_length c mod 65536 /\ word r' (a + 2) = aram_addr c mod 65536.
Proof.
  intros Ha H. unfold write_header in H.
  assert (E : wr_all r [(a, Z.land (c_length c) 0xff); (a + 1, Z.land (Z.shiftr (c_length c) 8) 0xff);
     (a + 2, Z.land (aram_addr c) 0xff); (a + 3, Z.land (Z.shiftr (aram_addr c) 8) 0xff)] = Ok r').
  { unfold wr_all. cbn [ofold fst snd]. inv_bind H. rewrite Ha0. cbn [bind]. inv_bind H. rewrite Ha1. cbn [bind].
    inv_bind H. rewrite Ha2. cbn [bind]. rewrite H. reflexivity. }
  clear H. apply wr_all_ok in E; [|repeat constructor; cbn; lia]. destruct E as (Hlt & HL & Hb).
  apply Forall_cons_iff in Hlt. destruct Hlt as [_ Hlt]. apply Forall_cons_iff in Hlt. destruct Hlt as [_ Hlt].
  apply Forall_cons_iff in Hlt. destruct Hlt as [_ Hlt]. apply Forall_cons_iff in Hlt. destruct Hlt as [Hlt _]. cbn [fst] in Hlt.
  split; [lia|]. split.
  - split; [exact HL|]. intros x Hx Hout. rewrite Hb by auto. apply last_write_none. repeat constructor; cbn; lia.
  - unfold word. rewrite !Hb by lia. unfold last_write. cbn [fold_left fst snd].
    rewrite !land_byte, !Z.shiftr_div_pow2 by lia.
    repeat match goal with |- context [?p =? ?q] => destruct (Z.eqb_spec p q); try lia end.
Qed.

(** ** C32: the scan *)
Lemma wr_all_never_err l : forall r e, wr_all r l <> Err e.
Proof.
  unfold wr_all. induction l as [|av l IH]; intros r e; cbn [ofold]; [discriminate|].
  unfold wr. destruct (set_nth _ _ _); cbn [or_panic bind]; [apply IH|discriminate].
Qed.
Definition blocks_of (base ovf : tblock) : blocks :=
  mk_blocks (payload base) (tb_len base) (payload ovf) (tb_len ovf) (tb_aram ovf).

(** From a state [st], scanning a chain whose terminator is not loaded at D000. *)
Fixpoint scanned (bs : list tblock) (t : tblock) (st : blocks) : blocks :=
  match bs with
  | [] => st
  | b :: bs' =>
      scanned bs' t (if tb_aram b =? 0xd000 then blocks_of b (match bs' with [] => t | b' :: _ => b' end) else st)
  end.
Lemma chain_head r a bs t : chain r a bs t -> exists b0, (match bs with [] => t | b' :: _ => b' end) = b0 /\ b0 = block_at r a /\ 0 <= a /\ a + 4 <= size r.
Proof. intros H. destruct H; eauto 6. Qed.
Lemma scan_chain r bs t a : is_image r -> chain r a bs t -> tb_aram t <> 0xd000 ->
  forall fuel st ll, ll <> 0 -> Z.of_nat fuel * 4 + a > size r -> scan_blocks fuel r a ll st = Ok (scanned bs t st).
Proof.
  intros Hr Hc Ht. induction Hc as [a H0 H1 Hw|a bs t H0 H1 Hw Hc IH]; intros fuel st ll Hll Hf.
  - destruct fuel as [|fuel]; [lia|]. cbn [scan_blocks]. destruct (Z.eqb_spec ll 0); [lia|].
    rewrite (proj2 (chunk_load_ok r a _ H0) (conj H1 eq_refl)). cbn [bind aram_addr c_length offset_addr].
    unfold ARAM_BASE. cbn [block_at tb_aram] in Ht. destruct (Z.eqb_spec (word r (a + 2)) 53248); [contradiction|].
    rewrite Hw. cbn [scanned]. destruct fuel; reflexivity.
  - destruct fuel as [|fuel]; [lia|]. cbn [scan_blocks]. destruct (Z.eqb_spec ll 0); [lia|].
    rewrite (proj2 (chunk_load_ok r a _ H0) (conj H1 eq_refl)). cbn [bind aram_addr c_length offset_addr].
    destruct (chain_head _ _ _ _ Hc) as (b0 & Hb0 & Eb0 & Hn0 & Hn1).
    cbn [scanned block_at tb_aram]. rewrite Hb0. unfold ARAM_BASE.
    pose proof (word_u16 r a Hr).
    destruct (Z.eqb_spec (word r (a + 2)) 53248) as [He|He].
    + rewrite (proj2 (chunk_load_ok r _ _ Hn0) (conj Hn1 eq_refl)). cbn [bind aram_addr c_length offset_addr].
      destruct (Z.eq_dec (word r (a + 4 + word r a)) 0) as [Hz|Hz].
      * (* the following block is the terminator *)
        inversion Hc; subst; [|contradiction]. cbn [scanned].
        unfold blocks_of, payload, block_at; cbn [tb_start tb_len tb_aram]. rewrite Hz. destruct fuel; reflexivity.
      * rewrite (IH Ht) by lia. f_equal. f_equal. rewrite <- Hb0 in Eb0. rewrite <- Hb0, Eb0. reflexivity.
    + apply (IH Ht); lia.
Qed.

Lemma scanned_none bs t st : Forall (fun b => tb_aram b <> 0xd000) bs -> scanned bs t st = st.
Proof.
  intros H. revert st; induction H as [|b bs Hb _ IH]; intros st; cbn [scanned]; [reflexivity|].
  destruct (Z.eqb_spec (tb_aram b) 0xd000); [contradiction|apply IH].
Qed.
Lemma scanned_last pre base rest t st : tb_aram base = 0xd000 -> Forall (fun b => tb_aram b <> 0xd000) rest ->
  scanned (pre ++ base :: rest) t st = blocks_of base (match rest with [] => t | b' :: _ => b' end).
Proof.
  intros Hb HF. revert st; induction pre as [|p pre IH]; intros st; cbn [app scanned].
  - rewrite Hb. cbn. apply scanned_none. exact HF.
  - apply IH.
Qed.

(** Without any assumption on the image's chain, the scan terminates. *)
Lemma chunk_load_cases r a : 0 <= a -> (exists p, chunk_load r a = Panic p) \/ (a + 4 <= size r /\ chunk_load r a = Ok (mk_chunk (a + 4) (word r a) (word r (a + 2)))).
Proof.
  intros Ha. destruct (Z.le_gt_cases (a + 4) (size r)).
  - right. split; [assumption|]. apply chunk_load_ok; auto.
  - left. exists PIndex. apply chunk_load_panic; lia.
Qed.
Lemma scan_terminates r : is_image r -> forall fuel a ll st, 0 <= a -> (1 <= fuel)%nat -> Z.of_nat fuel * 4 + Z.min a (size r) > size r ->
  (exists st', scan_blocks fuel r a ll st = Ok st') \/ (exists p, scan_blocks fuel r a ll st = Panic p).
Proof.
  intros Hr. induction fuel as [|fuel IH]; intros a ll st Ha H1 Hf; [lia|]. cbn [scan_blocks].
  destruct (Z.eqb_spec ll 0); [eauto|]. pose proof (word_u16 r a Hr).
  destruct (chunk_load_cases r a Ha) as [[p ->]|[Hs ->]]; cbn [bind]; [eauto|]. cbn [aram_addr c_length offset_addr].
  destruct (_ =? ARAM_BASE); [|apply IH; lia].
  destruct (chunk_load_cases r (a + 4 + word r a)) as [[p ->]|[Hs' ->]]; cbn [bind]; [lia|eauto|]. apply IH; lia.
Qed.
Lemma bank_start_ok b r base_addr : is_image r -> pointers_in r base_addr -> bank_start b r base_addr = Ok (bank_chain r base_addr).
Proof.
  intros Hr (H0 & H1 & Hp). unfold bank_start. rewrite !arith_exact by lia. cbn [bind].
  rewrite !snes_to_pc_lorom by lia. rewrite !rd_get by (first [apply lorom24_nonneg | apply Hp; unfold pointer_bytes; auto]). cbn [bind].
  rewrite snes_bytes_lorom by (apply byte_u8; exact Hr). reflexivity.
Qed.
Lemma bank_start_cases b r base_addr : is_image r -> 0 <= base_addr -> (exists a, bank_start b r base_addr = Ok a /\ 0 <= a) \/ exists p, bank_start b r base_addr = Panic p.
Proof.
  intros Hr Hb. unfold bank_start.
  assert (Har : forall x, (exists y, arith b 32 x = Ok y /\ 0 <= y) \/ exists p, arith b 32 x = Panic p).
  { intros x. unfold arith. destruct ((0 <=? x) && (x <? 2 ^ 32)) eqn:E; [left; exists x; split; [reflexivity|lia]|]. destruct b; [eauto|].
    left. eexists. split; [reflexivity|]. lia. }
  assert (Hrd : forall a, (exists y, rd r a = Ok y /\ 0 <= y < 256) \/ exists p, rd r a = Panic p).
  { intros a. unfold rd. destruct (nth_error r (Z.to_nat a)) eqn:E; cbn [or_panic]; [|eauto]. left. eexists. split; [reflexivity|].
    apply nth_error_In in E. unfold is_image in Hr. rewrite Forall_forall in Hr. apply (Hr _ E). }
  destruct (Har (base_addr + 8)) as [(a8 & -> & _)|[p ->]]; cbn [bind]; [|eauto].
  destruct (Hrd (snes_to_pc_addr a8)) as [(y & -> & ?)|[p ->]]; cbn [bind]; [|eauto].
  destruct (Har (base_addr + 4)) as [(a4 & -> & _)|[p ->]]; cbn [bind]; [|eauto].
  destruct (Hrd (snes_to_pc_addr a4)) as [(z & -> & ?)|[p ->]]; cbn [bind]; [|eauto].
  destruct (Hrd (snes_to_pc_addr base_addr)) as [(w & -> & ?)|[p ->]]; cbn [bind]; [|eauto].
  left. eexists. split; [reflexivity|]. rewrite snes_bytes_lorom by (unfold u8; lia). apply lorom_nonneg. lia.
Qed.

(** In the scan's state the overflow address is set whenever the base address is. *)
Lemma scan_both r : forall fuel a ll st st', 0 <= a -> is_image r ->
  scan_blocks fuel r a ll st = Ok st' -> (base_chunk_addr st <> 0 -> overflow_chunk_addr st <> 0) ->
  (base_chunk_addr st' <> 0 -> overflow_chunk_addr st' <> 0).
Proof.
  induction fuel as [|fuel IH]; intros a ll st st' Ha Hr H Hst.
  - cbn [scan_blocks] in H. destruct (ll =? 0); [|discriminate]. injection H as <-. exact Hst.
  - cbn [scan_blocks] in H. destruct (ll =? 0); [injection H as <-; exact Hst|]. inv_bind H. apply chunk_load_ok in Ha0; [|exact Ha].
    destruct Ha0 as [_ ->]. cbn [aram_addr c_length offset_addr] in H. pose proof (word_u16 r a Hr).
    destruct (_ =? ARAM_BASE).
    + inv_bind H. apply chunk_load_ok in Ha0; [|lia]. destruct Ha0 as [_ ->]. cbn [aram_addr c_length offset_addr] in H.
      eapply IH; [| |exact H|]; [lia|exact Hr|]. cbn [overflow_chunk_addr]. lia.
    + eapply IH; [| |exact H|]; [lia|exact Hr|exact Hst].
Qed.
Lemma find_blocks_total b r base_addr : is_image r -> 0 <= base_addr ->
  (exists bl, find_blocks b r base_addr = Ok bl) \/ find_blocks b r base_addr = Err ENoBaseChunk \/ exists p, find_blocks b r base_addr = Panic p.
Proof.
  intros Hr Hb. unfold find_blocks. destruct (bank_start_cases b r base_addr Hr Hb) as [(a & -> & Ha)|[p ->]]; cbn [bind]; [|eauto].
  destruct (scan_terminates r Hr (S (length r)) a 0xffff (mk_blocks 0 0 0 0 0) Ha) as [[st E]|[p E]]; [lia|unfold size; lia| |rewrite E; cbn [bind]; eauto].
  rewrite E. cbn [bind]. destruct (Z.eqb_spec (base_chunk_addr st) 0); [auto|].
  destruct (Z.eqb_spec (overflow_chunk_addr st) 0); [|eauto].
  exfalso. refine (scan_both r _ _ _ _ _ Ha Hr E _ _ _); cbn; auto.
Qed.
Lemma bank_chain_nonneg r base_addr : is_image r -> 0 <= bank_chain r base_addr.
Proof. intros Hr. apply lorom_nonneg. apply byte_u8. exact Hr. Qed.
Lemma chain_nonneg r a bs t : is_image r -> chain r a bs t -> Forall (fun b => 0 <= tb_start b /\ 0 <= tb_len b /\ tb_start b + 4 <= size r) (bs ++ [t]).
Proof.
  intros Hr H. induction H; cbn [app]; constructor; auto; cbn; pose proof (word_u16 r a Hr); lia.
Qed.

Lemma find_blocks_found b r base_addr pre base ovf post : is_image r -> pointers_in r base_addr ->
  song_blocks r base_addr pre base ovf post -> find_blocks b r base_addr = Ok (blocks_of base ovf).
Proof.
  intros Hr Hp (bs & t & Hc & Hl & Hb & HF). unfold find_blocks. rewrite (bank_start_ok b r base_addr Hr Hp). cbn [bind].
  assert (Hbs : exists rest, bs = pre ++ base :: rest /\ rest ++ [t] = ovf :: post).
  { destruct (exists_last (l := ovf :: post)) as (q & x & Hq); [discriminate|]. exists q.
    rewrite Hq in Hl. change (pre ++ base :: q ++ [x]) with (pre ++ (base :: q) ++ [x]) in Hl. rewrite app_assoc in Hl. apply app_inj_tail in Hl. destruct Hl as [-> ->]. auto. }
  destruct Hbs as (rest & Ebs & Er).
  assert (Ht : tb_aram t <> 0xd000 /\ Forall (fun b => tb_aram b <> 0xd000) rest).
  { rewrite <- Er in HF. apply Forall_app in HF. destruct HF as [H1 H2]. inversion H2; auto. }
  rewrite (scan_chain r bs t _ Hr Hc (proj1 Ht)) by (pose proof (bank_chain_nonneg r base_addr Hr); unfold size; lia).
  cbn [bind]. rewrite Ebs, scanned_last by (auto; apply Ht).
  assert (Ho : (match rest with [] => t | b' :: _ => b' end) = ovf) by (destruct rest; cbn in Er; injection Er as E1 E2; auto).
  rewrite Ho. unfold blocks_of. cbn [base_chunk_addr overflow_chunk_addr].
  pose proof (chain_nonneg _ _ _ _ Hr Hc) as Hn. rewrite Hl in Hn. apply Forall_app in Hn. destruct Hn as [_ Hn].
  apply Forall_cons_iff in Hn. destruct Hn as [Hn1 Hn]. apply Forall_cons_iff in Hn. destruct Hn as [Hn2 _].
  unfold payload. destruct (Z.eqb_spec (tb_start base + 4) 0); [lia|]. destruct (Z.eqb_spec (tb_start ovf + 4) 0); [lia|]. reflexivity.
Qed.
Lemma find_blocks_none b r base_addr bs t : is_image r -> pointers_in r base_addr ->
  chain r (bank_chain r base_addr) bs t -> Forall (fun b => tb_aram b <> 0xd000) (bs ++ [t]) -> find_blocks b r base_addr = Err ENoBaseChunk.
Proof.
  intros Hr Hp Hc HF. unfold find_blocks. rewrite (bank_start_ok b r base_addr Hr Hp). cbn [bind].
  apply Forall_app in HF. destruct HF as [H1 H2]. inversion H2; subst.
  rewrite (scan_chain r bs t _ Hr Hc) by (auto; pose proof (bank_chain_nonneg r base_addr Hr); unfold size; lia).
  cbn [bind]. rewrite scanned_none by exact H1. reflexivity.
Qed.

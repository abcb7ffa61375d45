(** GameProofs.v: proofs about the game's ROM and the sample dummy (C77). *)
From Coq Require Import ZArith List Bool Lia ZifyBool ZifyNat.
From Verif Require Import Base ProofLib SpecRom SpecBank SpecSuccess SpecConsole SpecSafe SpecEach SpecGame Rom RomLib RomMore RomExamples RomBanks.
Import ListNotations.
Open Scope Z_scope.
Open Scope list_scope.

(** ** Sparse files *)
Fixpoint find_byte (l : list (Z * Z)) (x : Z) : Z := match l with [] => 0 | (a, v) :: l' => if x =? a then v else find_byte l' x end.
Fixpoint ascending (a : Z) (l : list (Z * Z)) (n : Z) : Prop := match l with [] => a <= n | (x, v) :: l' => a <= x /\ ascending (x + 1) l' n end.
Lemma find_before l : forall a n x, ascending a l n -> x < a -> find_byte l x = 0.
Proof. induction l as [|[y v] l IH]; intros a n x H Hx; cbn [find_byte ascending] in *; [reflexivity|]. destruct (Z.eqb_spec x y); [lia|]. eapply IH; [apply H|lia]. Qed.
Lemma sparse_size l : forall a n, ascending a l n -> Z.of_nat (length (sparse a l n)) = n - a.
Proof.
  induction l as [|[y v] l IH]; intros a n H; cbn [sparse ascending] in *; [rewrite repeat_length; lia|].
  rewrite app_length, repeat_length. cbn [length]. specialize (IH _ _ (proj2 H)). lia.
Qed.
Lemma sparse_nth l : forall a n k, ascending a l n -> nth k (sparse a l n) 0 = find_byte l (a + Z.of_nat k).
Proof.
  induction l as [|[y v] l IH]; intros a n k H; cbn [sparse find_byte ascending] in *; [apply nth_repeat|]. destruct H as [H1 H2].
  destruct (Z.eqb_spec (a + Z.of_nat k) y).
  - rewrite app_nth2; rewrite repeat_length; [|lia]. replace (k - Z.to_nat (y - a))%nat with 0%nat by lia. reflexivity.
  - destruct (Z.lt_ge_cases (a + Z.of_nat k) y).
    + rewrite app_nth1 by (rewrite repeat_length; lia). rewrite nth_repeat. symmetry. eapply find_before; [exact H2|lia].
    + rewrite app_nth2; rewrite repeat_length; [|lia]. replace (k - Z.to_nat (y - a))%nat with (S (k - Z.to_nat (y - a) - 1)) by lia. cbn [nth].
      rewrite IH by exact H2. f_equal. lia.
Qed.
Lemma sample_ascending : ascending 0 sample_bytes 0x100000.
Proof. cbn [ascending sample_bytes]. lia. Qed.
Lemma sample_size : size sample_dummy = 0x100000.
Proof. unfold size, sample_dummy. rewrite sparse_size by exact sample_ascending. reflexivity. Qed.
Lemma sample_byte x : 0 <= x -> byte sample_dummy x = find_byte sample_bytes x.
Proof. intros Hx. unfold byte, sample_dummy. rewrite sparse_nth by exact sample_ascending. f_equal. lia. Qed.
Lemma find_u8 l x : Forall (fun p => 0 <= snd p < 256) l -> 0 <= find_byte l x < 256.
Proof. induction 1 as [|[y v] l H _ IH]; cbn [find_byte]; [lia|]. destruct (x =? y); [exact H|exact IH]. Qed.
Lemma sample_game : game_rom sample_dummy.
Proof.
  constructor.
  - apply image_of_bytes. intros x Hx. rewrite sample_byte by lia. apply find_u8. repeat (apply Forall_cons; [cbn [snd]; lia|]). apply Forall_nil.
  - exact sample_size.
  - repeat (apply Forall_cons; [cbn [fst snd]; rewrite sample_byte by lia; reflexivity|]). apply Forall_nil.
  - repeat (apply Forall_cons; [|]); try apply Forall_nil; repeat (apply Forall_cons; [|]); try apply Forall_nil;
      unfold block_at, word; cbn [tb_start game_bank lo_base lo_ovf lo_post]; rewrite !sample_byte by lia; reflexivity.
Qed.

(** ** The game's layouts *)
Lemma in_game L : In L game_layouts -> exists addr start bl ol oa, L = game_bank addr start bl ol oa /\
  (addr = 0x914 \/ addr = 0x926 \/ addr = 0x932) /\ 0xd0000 <= start /\ start + 12 + bl + ol <= 0x100000 /\ 0x46 <= bl /\ 24 <= ol /\ bl <= 0x3000 /\ 0x800 <= oa /\ oa + ol <= 0xd000.
Proof.
  intros [<-|[<-|[<-|[]]]]; do 5 eexists; (split; [reflexivity|]); lia.
Qed.
Lemma game_pointer addr x : addr = 0x914 \/ addr = 0x926 \/ addr = 0x932 -> pointer_bytes addr x -> x = addr \/ x = addr + 4 \/ x = addr + 8.
Proof.
  intros Ha H. unfold pointer_bytes in H. destruct Ha as [->|[->| ->]]; destruct H as [->|[->| ->]];
    match goal with |- context [lorom24 ?y] => let v := eval vm_compute in (lorom24 y) in change (lorom24 y) with v end; lia.
Qed.
Lemma chain_start r L : game_rom r -> In L game_layouts -> bank_chain r (lo_addr L) = tb_start (lo_base L).
Proof.
  intros [_ _ HP _] HL. unfold game_pointers in HP. repeat match goal with H : Forall _ (_ :: _) |- _ => apply Forall_cons_iff in H; destruct H as [? H] end. cbn [fst snd] in *.
  cbn in HL. destruct HL as [<-|[<-|[<-|[]]]]; cbn [lo_addr game_bank lo_base tb_start]; unfold bank_chain.
  - change (lorom24 (0x914 + 8)) with 0x91c. change (lorom24 (0x914 + 4)) with 0x918. change (lorom24 0x914) with 0x914. rewrite H, H0, H1. reflexivity.
  - change (lorom24 (0x926 + 8)) with 0x92e. change (lorom24 (0x926 + 4)) with 0x92a. change (lorom24 0x926) with 0x926. rewrite H2, H3, H4. reflexivity.
  - change (lorom24 (0x932 + 8)) with 0x93a. change (lorom24 (0x932 + 4)) with 0x936. change (lorom24 0x932) with 0x932. rewrite H5, H6, H7. reflexivity.
Qed.
Lemma game_in r L : game_rom r -> In L game_layouts -> lo_in r L.
Proof.
  intros HG HL. pose proof (chain_start r L HG HL) as Hs. pose proof HG as [HI HZ HP HB]. rewrite Forall_forall in HB. specialize (HB L HL).
  destruct (in_game L HL) as (addr & start & bl & ol & oa & -> & Ha & H1 & H2 & H3 & H4 & H5 & H6 & H7). cbn [game_bank lo_blocks lo_pre lo_base lo_ovf lo_post app] in HB.
  repeat match goal with H : Forall _ (_ :: _) |- _ => apply Forall_cons_iff in H; destruct H as [? H] end. cbn [tb_start] in *.
  unfold lo_in, song_blocks. rewrite Hs. cbn [game_bank lo_addr lo_pre lo_base lo_ovf lo_post tb_start app tb_aram].
  exists [mk_tblock start bl 0xd000; mk_tblock (start + 4 + bl) ol oa], (mk_tblock (start + 8 + bl + ol) 0 0x800). split; [|split; [reflexivity|split; [reflexivity|]]].
  - unfold block_at in *. injection H as E1 E2. injection H0 as E3 E4. injection H8 as E5 E6.
    rewrite <- E2, <- E1 at 1. rewrite E1. change {| tb_start := start; tb_len := bl; tb_aram := word r (start + 2) |} with (mk_tblock start bl (word r (start + 2))).
    replace (mk_tblock start bl (word r (start + 2))) with (block_at r start) by (unfold block_at; rewrite E1; reflexivity).
    apply chain_block; [lia|lia|lia|]. rewrite E1.
    replace (mk_tblock (start + 4 + bl) ol oa) with (block_at r (start + 4 + bl)) by (unfold block_at; rewrite E3, E4; reflexivity).
    apply chain_block; [lia|lia|lia|]. rewrite E3. replace (start + 4 + bl + 4 + ol) with (start + 8 + bl + ol) by lia.
    replace (mk_tblock (start + 8 + bl + ol) 0 0x800) with (block_at r (start + 8 + bl + ol)) by (unfold block_at; rewrite E5, E6; reflexivity).
    apply chain_end; lia.
  - apply Forall_cons; [cbn [tb_aram]; lia|]. apply Forall_cons; [cbn [tb_aram]; lia|apply Forall_nil].
Qed.
Lemma game_layout r L : game_rom r -> In L game_layouts -> layout_ok r L.
Proof.
  intros HG HL. pose proof (game_in r L HG HL) as Hin. pose proof (gr_size r HG) as HZ.
  destruct (in_game L HL) as (addr & start & bl & ol & oa & -> & Ha & H1 & H2 & H3 & H4 & H5 & H6 & H7).
  constructor; unfold lo_data, in_payload, payload, payload_end, apart; cbn [game_bank lo_addr lo_base lo_ovf lo_post tb_start tb_len tb_aram]; try lia.
  - intros a Hp. cbn [lo_addr] in Hp. apply game_pointer in Hp; [|exact Ha]. lia.
  - exact Hin.
  - split; repeat (apply Forall_cons; [cbn [tb_start tb_len tb_aram]; lia|]); apply Forall_nil.
Qed.
Lemma game_separate : ForallOrdPairs separate game_layouts.
Proof.
  assert (HF : forall L x, In L game_layouts -> lo_frame L x -> x < 0xd0000 \/ tb_start (lo_base L) <= x < tb_start (lo_base L) + 12 + tb_len (lo_base L) + tb_len (lo_ovf L)).
  { intros L x HL Hf. destruct (in_game L HL) as (addr & start & bl & ol & oa & -> & Ha & H1 & H2 & H3 & H4 & H5 & H6 & H7).
    destruct Hf as [Hf|(y & Hy & Hf)]; [left; cbn [game_bank lo_addr] in Hf; apply game_pointer in Hf; [lia|exact Ha]|right].
    cbn [game_bank lo_blocks lo_pre lo_base lo_ovf lo_post app] in Hy. unfold payload in Hf. cbn [game_bank lo_base lo_ovf tb_start tb_len].
    destruct Hy as [<-|[<-|[<-|[]]]]; cbn [tb_start] in Hf; lia. }
  assert (HS : forall L x, In L game_layouts -> lo_span L x -> tb_start (lo_base L) <= x < tb_start (lo_base L) + 12 + tb_len (lo_base L) + tb_len (lo_ovf L)).
  { intros L x HL Hf. destruct (in_game L HL) as (addr & start & bl & ol & oa & -> & Ha & H1 & H2 & H3 & H4 & H5 & H6 & H7).
    unfold lo_span, payload, payload_end in Hf. cbn [game_bank lo_base lo_ovf tb_start tb_len] in *. lia. }
  assert (HX : forall L L', In L game_layouts -> In L' game_layouts ->
    tb_start (lo_base L) + 12 + tb_len (lo_base L) + tb_len (lo_ovf L) <= tb_start (lo_base L') \/ tb_start (lo_base L') + 12 + tb_len (lo_base L') + tb_len (lo_ovf L') <= tb_start (lo_base L) ->
    separate L L').
  { intros L L' H1 H2 H x. assert (0xd0000 <= tb_start (lo_base L) /\ 0xd0000 <= tb_start (lo_base L')) by
      (destruct (in_game L H1) as (? & ? & ? & ? & ? & -> & ?); destruct (in_game L' H2) as (? & ? & ? & ? & ? & -> & ?); cbn [game_bank lo_base tb_start]; lia).
    split; intros Hx; [split|]; intros Hy; try apply (HS _ _ H1) in Hx; try apply (HS _ _ H2) in Hx; try apply (HS _ _ H2) in Hy; try apply (HF _ _ H2) in Hy; try apply (HF _ _ H1) in Hy; lia. }
  assert (I1 : In (nth 0 game_layouts (game_bank 0 0 0 0 0)) game_layouts) by (left; reflexivity).
  assert (I2 : In (nth 1 game_layouts (game_bank 0 0 0 0 0)) game_layouts) by (right; left; reflexivity).
  assert (I3 : In (nth 2 game_layouts (game_bank 0 0 0 0 0)) game_layouts) by (right; right; left; reflexivity).
  apply FOP_cons; [apply Forall_cons; [|apply Forall_cons; [|apply Forall_nil]]|apply FOP_cons; [apply Forall_cons; [|apply Forall_nil]|apply FOP_cons; [apply Forall_nil|apply FOP_nil]]].
  - apply (HX _ _ I1 I2). cbn [nth game_layouts game_bank lo_base lo_ovf tb_start tb_len]. lia.
  - apply (HX _ _ I1 I3). cbn [nth game_layouts game_bank lo_base lo_ovf tb_start tb_len]. lia.
  - apply (HX _ _ I2 I3). cbn [nth game_layouts game_bank lo_base lo_ovf tb_start tb_len]. lia.
Qed.
Lemma game_all r : game_rom r -> Forall (layout_ok r) game_layouts.
Proof. intros HG. apply Forall_forall. intros L HL. exact (game_layout r L HG HL). Qed.
Lemma game_table : Forall table_in_base game_layouts /\ Forall zero_free game_layouts.
Proof.
  split; apply Forall_forall; intros L HL; destruct (in_game L HL) as (addr & start & bl & ol & oa & -> & Ha & H1 & H2 & H3 & H4 & H5 & H6 & H7).
  - unfold table_in_base. cbn [game_bank lo_base tb_len]. lia.
  - unfold zero_free. cbn [game_bank lo_blocks lo_pre lo_base lo_ovf lo_post app]. repeat (apply Forall_cons; [cbn [tb_len tb_aram]; lia|]). apply Forall_nil.
Qed.

(** ** Pointers and headers *)
Definition header_at (x : Z) : list Z := [x; x + 1; x + 2; x + 3].
Definition frame : list Z := map fst game_pointers ++ flat_map (fun L => flat_map (fun x => header_at (tb_start x)) (lo_blocks L)) game_layouts.
Lemma word_bytes r a w : is_image r -> word r a = w -> byte r a = w mod 256 /\ byte r (a + 1) = w / 256.
Proof.
  intros Hr H. unfold word in H. pose proof (byte_u8 r a Hr). pose proof (byte_u8 r (a + 1) Hr). subst w.
  split; Z.div_mod_to_equations; lia.
Qed.
Lemma block_bytes r x : is_image r -> block_at r (tb_start x) = x -> byte r (tb_start x) = tb_len x mod 256 /\ byte r (tb_start x + 1) = tb_len x / 256 /\
  byte r (tb_start x + 2) = tb_aram x mod 256 /\ byte r (tb_start x + 3) = tb_aram x / 256.
Proof.
  intros Hr H. unfold block_at in H. destruct x as [s l a]. cbn [tb_start tb_len tb_aram] in *. injection H as H1 H2.
  destruct (word_bytes _ _ _ Hr H1) as [A1 A2]. destruct (word_bytes _ _ _ Hr H2) as [A3 A4]. replace (s + 2 + 1) with (s + 3) in A4 by lia. auto.
Qed.
Lemma frame_bytes r r' x : game_rom r -> game_rom r' -> In x frame -> byte r x = byte r' x.
Proof.
  intros [I1 S1 P1 B1] [I2 S2 P2 B2] Hx. unfold frame in Hx. apply in_app_or in Hx. destruct Hx as [Hx|Hx].
  - apply in_map_iff in Hx. destruct Hx as (p & <- & Hp). rewrite Forall_forall in P1, P2. rewrite (P1 p Hp), (P2 p Hp). reflexivity.
  - apply in_flat_map in Hx. destruct Hx as (L & HL & Hx). apply in_flat_map in Hx. destruct Hx as (y & Hy & Hx).
    rewrite Forall_forall in B1, B2. specialize (B1 L HL). specialize (B2 L HL). rewrite Forall_forall in B1, B2.
    destruct (block_bytes r y I1 (B1 y Hy)) as (A1 & A2 & A3 & A4). destruct (block_bytes r' y I2 (B2 y Hy)) as (C1 & C2 & C3 & C4).
    destruct Hx as [<-|[<-|[<-|[<-|[]]]]]; congruence.
Qed.
Lemma frame_is x : In x frame <-> exists L, In L game_layouts /\ lo_frame L x.
Proof.
  unfold frame. split.
  - intros Hx. apply in_app_or in Hx. destruct Hx as [Hx|Hx].
    + assert (In x (map fst (firstn 3 game_pointers)) \/ In x (map fst (firstn 3 (skipn 3 game_pointers))) \/ In x (map fst (skipn 6 game_pointers))) as [H|[H|H]].
      { cbn in Hx |- *. intuition. }
      * exists (nth 0 game_layouts (game_bank 0 0 0 0 0)). split; [left; reflexivity|]. left. cbn [nth game_layouts game_bank lo_addr]. unfold pointer_bytes.
        change (lorom24 (0x914 + 8)) with 0x91c. change (lorom24 (0x914 + 4)) with 0x918. change (lorom24 0x914) with 0x914. cbn in H. lia.
      * exists (nth 1 game_layouts (game_bank 0 0 0 0 0)). split; [right; left; reflexivity|]. left. cbn [nth game_layouts game_bank lo_addr]. unfold pointer_bytes.
        change (lorom24 (0x926 + 8)) with 0x92e. change (lorom24 (0x926 + 4)) with 0x92a. change (lorom24 0x926) with 0x926. cbn in H. lia.
      * exists (nth 2 game_layouts (game_bank 0 0 0 0 0)). split; [right; right; left; reflexivity|]. left. cbn [nth game_layouts game_bank lo_addr]. unfold pointer_bytes.
        change (lorom24 (0x932 + 8)) with 0x93a. change (lorom24 (0x932 + 4)) with 0x936. change (lorom24 0x932) with 0x932. cbn in H. lia.
    + apply in_flat_map in Hx. destruct Hx as (L & HL & Hx). apply in_flat_map in Hx. destruct Hx as (y & Hy & Hx). exists L. split; [exact HL|]. right. exists y. split; [exact Hy|].
      unfold payload. destruct Hx as [<-|[<-|[<-|[<-|[]]]]]; lia.
  - intros (L & HL & [Hp|(y & Hy & Hx)]); apply in_or_app.
    + left. assert (Ha : lo_addr L = 0x914 \/ lo_addr L = 0x926 \/ lo_addr L = 0x932) by (cbn in HL; destruct HL as [<-|[<-|[<-|[]]]]; cbn; auto).
      apply game_pointer in Hp; [|exact Ha]. cbn. lia.
    + right. apply in_flat_map. exists L. split; [exact HL|]. apply in_flat_map. exists y. split; [exact Hy|]. unfold payload in Hx. unfold header_at. cbn. lia.
Qed.
Lemma default_layout a : In a DEFAULT_BANK_BASE_ADDRS -> exists L, In L game_layouts /\ lo_addr L = a.
Proof. change DEFAULT_BANK_BASE_ADDRS with (map lo_addr game_layouts). intros H. apply in_map_iff in H. destruct H as (L & E & H). eauto. Qed.
Lemma kept_frame r x : game_rom r -> (exists a, In a DEFAULT_BANK_BASE_ADDRS /\ bank_kept r a x) <-> In x frame.
Proof.
  intros HG. rewrite frame_is. split.
  - intros (a & Ha & Hk). assert (exists L, In L game_layouts /\ lo_addr L = a) as (L & HL & <-).
    { exact (default_layout a Ha). }
    exists L. split; [exact HL|]. destruct Hk as [Hk|(bs & t & Hc & y & Hy & Hx)]; [left; exact Hk|right]. exists y. split; [|exact Hx].
    destruct (game_in r L HG HL) as (bs' & t' & Hc' & E & _). destruct (chain_fun r _ _ _ Hc _ _ Hc') as [-> ->]. unfold lo_blocks. rewrite <- E. exact Hy.
  - intros (L & HL & Hf). exists (lo_addr L). split; [cbn in HL; destruct HL as [<-|[<-|[<-|[]]]]; cbn; auto|].
    destruct Hf as [Hf|(y & Hy & Hx)]; [left; exact Hf|right]. destruct (game_in r L HG HL) as (bs' & t' & Hc' & E & _). exists bs', t'. split; [exact Hc'|].
    exists y. split; [|exact Hx]. rewrite E. exact Hy.
Qed.
Lemma sample_outside x : ~ In x frame -> find_byte sample_bytes x = 0.
Proof.
  assert (H : forall l, (forall p, In p l -> In (fst p) frame) -> ~ In x frame -> find_byte l x = 0).
  { induction l as [|[y v] l IH]; intros Hl Hx; cbn [find_byte]; [reflexivity|]. destruct (Z.eqb_spec x y) as [->|]; [destruct Hx; exact (Hl _ (or_introl eq_refl))|].
    apply IH; [|exact Hx]. intros p Hp. apply Hl. right. exact Hp. }
  apply H. intros p Hp. assert (HB : forallb (fun p => existsb (Z.eqb (fst p)) frame) sample_bytes = true) by (vm_compute; reflexivity).
  rewrite forallb_forall in HB. specialize (HB p Hp). apply existsb_exists in HB. destruct HB as (y & Hy & E). apply Z.eqb_eq in E. rewrite E. exact Hy.
Qed.
Lemma game_dummy b r : game_rom r -> fake_image b r DEFAULT_BANK_BASE_ADDRS = Ok sample_dummy.
Proof.
  intros HG. pose proof HG as [HI HZ _ _].
  destruct (fake_total b r DEFAULT_BANK_BASE_ADDRS HI) as [out E].
  { apply Forall_forall. intros a Ha. assert (exists L, In L game_layouts /\ lo_addr L = a) as (L & HL & <-).
    { exact (default_layout a Ha). }
    pose proof (game_layout r L HG HL) as [K1 K2 K3 _ _ _]. split; [split; [apply K1|split; [apply K1|]]|].
    - intros y Hy. apply (K2 y Hy).
    - destruct K3 as (bs & t & Hc & _). eauto. }
  rewrite E. f_equal. assert (HA : Forall addr_ok DEFAULT_BANK_BASE_ADDRS) by (repeat (apply Forall_cons; [unfold addr_ok; lia|]); apply Forall_nil).
  destruct (fake_image_ok b r _ out HI HA E) as (_ & HL & HK).
  assert (HS : size out = 0x100000) by (unfold size in *; lia).
  apply byte_ext; [pose proof sample_size; unfold size in *; lia|]. intros x Hx. destruct (HK x (proj1 Hx)) as [K1 K2].
  destruct (in_dec Z.eq_dec x frame) as [Hf|Hf].
  - rewrite K1 by (apply kept_frame; [exact HG|exact Hf]). apply frame_bytes; [exact HG|exact sample_game|exact Hf].
  - rewrite K2 by (rewrite kept_frame by exact HG; exact Hf). rewrite sample_byte by lia. symmetry. apply sample_outside. exact Hf.
Qed.
Lemma game_kept r r' (P : Z -> Prop) : game_rom r -> is_image r' -> same_outside P r r' -> (forall x, In x frame -> ~ P x) -> game_rom r'.
Proof.
  intros [HI HZ HP HB] HI' [HL HO] Hf.
  assert (Hb : forall x, In x frame -> byte r' x = byte r x).
  { intros x Hx. apply HO; [|exact (Hf x Hx)]. assert (HC : forallb (fun x => 0 <=? x) frame = true) by (vm_compute; reflexivity).
    rewrite forallb_forall in HC. specialize (HC x Hx). lia. }
  constructor.
  - exact HI'.
  - unfold size in *. lia.
  - rewrite Forall_forall in *. intros p Hp. rewrite Hb; [exact (HP p Hp)|]. unfold frame. apply in_or_app. left. apply in_map. exact Hp.
  - rewrite Forall_forall in *. intros L HL'. specialize (HB L HL'). rewrite Forall_forall in *. intros x Hx. transitivity (block_at r (tb_start x)); [|exact (HB x Hx)]. unfold block_at, word.
    assert (Hh : forall y, In y (header_at (tb_start x)) -> byte r' y = byte r y).
    { intros y Hy. apply Hb. unfold frame. apply in_or_app. right. apply in_flat_map. exists L. split; [exact HL'|]. apply in_flat_map. exists x. auto. }
    rewrite !Hh by (unfold header_at; cbn; lia). reflexivity.
Qed.

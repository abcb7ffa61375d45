(** RomExamples.v: concrete images for PropRom.v: one the program handles, and the counterexamples. *)
From Coq Require Import ZArith List Bool Lia ZifyBool ZifyNat String.
From Verif Require Import Base F32 Command Track Song Paths Manifest Rom SpecNspc SpecRom SpecBank ProofLib RomLib RomProofs RomBank RomChain RomBanks RomTotal.
Import ListNotations.
Open Scope Z_scope.

(** A song with two voices, the first calling a loop twice. *)
Definition pc (d : option Z) (c : command) : pcmd := mk_pcmd d (Some 12) (Some 7) c.
Definition ex_song : song := mk_song [[0%nat; 1%nat]]
  [ [pc None (SetInstrument 3); pc (Some 24) (Note 0xa4); mk_pcmd (Some 0) (Some 0) (Some 0) (CallLoop 2 2); pc (Some 12) (Note 0xa5)];
    [pc (Some 48) (Note 0x9c)];
    [pc (Some 6) (Note 0xb0); pc (Some 6) (Note 0xb1); pc (Some 6) (Note 0xb2); pc (Some 6) (Note 0xb3)] ].
Definition ex_conv (p : path) (t : f32) : outcome song := Ok ex_song.
Definition ex_slot : song_def := song_def_default "song.mid"%string.
Definition ex_quiet : song_def := song_def_empty.

(** Pointer bytes of three banks, then one chain per bank: a small block, the base block, the overflow
    block, the end. [junk] fills the payloads. *)
Definition junk (n : nat) : list Z := repeat 0x77 n.
Definition ex_chain (base ovf : nat) : list Z :=
  [2; 0; 0x00; 0x30] ++ junk 2 ++
  [Z.of_nat base mod 256; Z.of_nat base / 256; 0x00; 0xd0] ++ junk base ++
  [Z.of_nat ovf mod 256; Z.of_nat ovf / 256; 0x00; 0xe0] ++ junk ovf ++ [0; 0; 0x00; 0x08].
Definition ex_pointer (a : Z) : list Z := [a mod 256; 1; 1; 1; 0x80 + a / 256; 1; 1; 1; 0; 1; 1; 1].
(** Base blocks of 155 bytes: the second song of the first bank starts in the base block and ends in the overflow block. *)
Definition ex_rom : list Z :=
  ex_pointer 40 ++ ex_pointer 397 ++ ex_pointer 754 ++ [1; 1; 1; 1] ++ ex_chain 155 184 ++ ex_chain 155 184 ++ ex_chain 155 184.
Definition ex_layout (addr start : Z) : layout :=
  mk_layout addr [mk_tblock start 2 0x3000] (mk_tblock (start + 6) 155 0xd000) (mk_tblock (start + 165) 184 0xe000)
    [mk_tblock (start + 353) 0 0x800].
Definition ex_layouts : list layout := [ex_layout 0x8000 40; ex_layout 0x800c 397; ex_layout 0x8018 754].
Definition ex_banks : list bank := [mk_bank "a"%string [ex_slot; ex_slot; ex_quiet]; mk_bank "b"%string [ex_quiet; ex_slot]; mk_bank "c"%string [ex_slot]].

Lemma image_dec r : forallb (fun v => (0 <=? v) && (v <? 256)) r = true -> is_image r.
Proof. intros H. apply Forall_forall. intros v Hv. rewrite forallb_forall in H. specialize (H v Hv). unfold u8. lia. Qed.
Lemma ex_image : is_image ex_rom.
Proof. apply image_dec. vm_compute. reflexivity. Qed.

Fixpoint chain_of (fuel : nat) (r : list Z) (a : Z) : option (list tblock * tblock) :=
  match fuel with
  | O => None
  | S fuel' =>
      if (0 <=? a) && (a + 4 <=? size r) then
        if word r a =? 0 then Some ([], block_at r a)
        else match chain_of fuel' r (a + 4 + word r a) with Some (bs, t) => Some (block_at r a :: bs, t) | None => None end
      else None
  end.
Lemma chain_of_ok fuel r : forall a bs t, chain_of fuel r a = Some (bs, t) -> chain r a bs t.
Proof.
  induction fuel as [|fuel IH]; intros a bs t H; cbn [chain_of] in H; [discriminate|].
  destruct ((0 <=? a) && (a + 4 <=? size r)) eqn:E; [|discriminate]. destruct (Z.eqb_spec (word r a) 0) as [Hz|Hz].
  - injection H as <- <-. apply chain_end; lia.
  - destruct (chain_of fuel r (a + 4 + word r a)) as [[bs' t']|] eqn:Ec; [|discriminate]. injection H as <- <-. apply chain_block; try lia. apply IH. exact Ec.
Qed.
Definition chain_is (r : list Z) (base_addr : Z) (bs : list tblock) (t : tblock) : Prop := chain_of 10 r (bank_chain r base_addr) = Some (bs, t).

Lemma ex_layout_in addr start : (addr, start) = (0x8000, 40) \/ (addr, start) = (0x800c, 397) \/ (addr, start) = (0x8018, 754) -> layout_ok ex_rom (ex_layout addr start).
Proof.
  intros H.
  assert (Hs : size ex_rom = 1111) by reflexivity.
  assert (Hc : exists bs t, chain_is ex_rom addr bs t /\ (bs ++ [t])%list = lo_blocks (ex_layout addr start)).
  { destruct H as [[= -> ->]|[[= -> ->]|[= -> ->]]]; eexists; eexists; (split; [vm_compute; reflexivity|reflexivity]). }
  constructor.
  - destruct H as [[= -> ->]|[[= -> ->]|[= -> ->]]]; cbn [lo_addr ex_layout]; lia.
  - intros a Ha. unfold pointer_bytes, lo_data, in_payload, payload, payload_end, ex_layout in *. cbn [lo_addr lo_base lo_ovf tb_start tb_len] in *.
    assert (a = lorom24 (addr + 8) \/ a = lorom24 (addr + 4) \/ a = lorom24 addr) as Ha' by exact Ha.
    rewrite Hs. destruct H as [[= -> ->]|[[= -> ->]|[= -> ->]]]; destruct Ha' as [->|[->| ->]];
      match goal with |- context [lorom24 ?x] => let v := eval vm_compute in (lorom24 x) in change (lorom24 x) with v end; lia.
  - destruct Hc as (bs & t & Hc & E). exists bs, t. split; [eapply chain_of_ok; exact Hc|]. split; [exact E|]. cbn [ex_layout lo_base lo_ovf lo_post tb_aram].
    split; [reflexivity|]. repeat constructor; cbn; lia.
  - cbn [ex_layout lo_base lo_ovf lo_post]. unfold apart. split; repeat constructor; cbn [tb_aram tb_len]; lia.
  - cbn. lia.
  - cbn. lia.
Qed.
Lemma ex_layouts_ok : Forall (layout_ok ex_rom) ex_layouts.
Proof. apply Forall_cons; [|apply Forall_cons; [|apply Forall_cons; [|apply Forall_nil]]]; apply ex_layout_in; auto. Qed.

Lemma ex_frame addr start x : lo_frame (ex_layout addr start) x -> pointer_bytes addr x \/ start <= x < start + 357.
Proof.
  intros [H|(b & Hb & Hx)]; [left; exact H|right]. cbn in Hb. unfold payload in Hx.
  destruct Hb as [<-|[<-|[<-|[<-|[]]]]]; cbn [tb_start] in Hx; lia.
Qed.
Lemma ex_data addr start x : lo_data (ex_layout addr start) x -> start <= x < start + 357.
Proof. unfold lo_data, in_payload, payload, payload_end, ex_layout. cbn [lo_base lo_ovf tb_start tb_len]. lia. Qed.
Lemma ex_pointers addr x : addr = 0x8000 \/ addr = 0x800c \/ addr = 0x8018 -> pointer_bytes addr x -> 0 <= x < 40.
Proof.
  intros [->|[->| ->]] [->|[->| ->]]; match goal with |- context [lorom24 ?x] => let v := eval vm_compute in (lorom24 x) in change (lorom24 x) with v end; lia.
Qed.
Lemma ex_independent : ForallOrdPairs independent ex_layouts.
Proof.
  assert (H : forall a1 s1 a2 s2, (a1 = 0x8000 \/ a1 = 0x800c \/ a1 = 0x8018) -> (a2 = 0x8000 \/ a2 = 0x800c \/ a2 = 0x8018) -> 40 <= s1 -> s1 + 357 <= s2 ->
     independent (ex_layout a1 s1) (ex_layout a2 s2)).
  { intros a1 s1 a2 s2 H1 H2 H3 H4 x. split; intros Hx; apply ex_data in Hx; (split; [intros Hd; apply ex_data in Hd; lia|]);
      intros Hf; apply ex_frame in Hf; (destruct Hf as [Hf|Hf]; [|lia]); apply ex_pointers in Hf; auto; lia. }
  apply FOP_cons; [apply Forall_cons; [|apply Forall_cons; [|apply Forall_nil]]; apply H; auto; lia|].
  apply FOP_cons; [apply Forall_cons; [|apply Forall_nil]; apply H; auto; lia|].
  apply FOP_cons; [apply Forall_nil|apply FOP_nil].
Qed.

Definition encode (s : song) : list (list Z * list call_loop_ref) :=
  map (fun i => match write_track s [] i [] with Ok d => d | _ => ([], []) end) (seq 0 (length (tracks s))).
Definition ex_enc := encode ex_song.
Definition quiet_song : song := mk_song [[0%nat]] [[]].
Definition quiet_enc := encode quiet_song.

Lemma ex_encodes : encodes ex_song ex_enc.
Proof. split; [reflexivity|]. intros [|[|[|i]]] d H; vm_compute in H; try (injection H as <-; vm_compute; reflexivity). destruct i; discriminate. Qed.
Lemma quiet_encodes : encodes quiet_song quiet_enc.
Proof. split; [reflexivity|]. intros [|i] d H; vm_compute in H; try (injection H as <-; vm_compute; reflexivity). destruct i; discriminate. Qed.
Lemma ex_ready : song_ready ex_song ex_enc.
Proof.
  split; [apply ex_encodes|]. split.
  - intros part [= <-]. cbn. lia.
  - assert (E : forallb (fun d => forallb (fun v => (0 <=? v) && (v <? 256)) (fst d)) ex_enc = true) by (vm_compute; reflexivity).
    rewrite forallb_forall in E. apply Forall_forall. intros d Hd. apply (image_dec (fst d)). apply E. exact Hd.
Qed.
Lemma quiet_ready : song_ready quiet_song quiet_enc.
Proof.
  split; [apply quiet_encodes|]. split.
  - intros part [= <-]. cbn. lia.
  - repeat constructor.
Qed.
Lemma ex_loaded : loaded Debug ex_conv [ex_slot; ex_slot; ex_quiet] [ex_song; ex_song; quiet_song] [(true, ex_enc); (true, ex_enc); (false, quiet_enc)].
Proof.
  apply (loaded_cons _ _ ex_slot); [reflexivity|exact ex_ready|]. apply (loaded_cons _ _ ex_slot); [reflexivity|exact ex_ready|].
  apply (loaded_cons _ _ ex_quiet); [vm_compute; reflexivity|exact quiet_ready|]. constructor.
Qed.

Definition place_table : list (bool * list (list Z * list call_loop_ref)) := [(true, ex_enc); (true, ex_enc); (false, quiet_enc)].
Fixpoint tracks_stayb (base ovf : tblock) (p : Z) (l : list (list Z * list call_loop_ref)) : bool :=
  match l with
  | [] => true
  | d :: l' => ((place base ovf p (data_len d) =? p) || match snd d with [] => data_len d <=? tb_len ovf | _ => false end) && tracks_stayb base ovf (place base ovf p (data_len d) + data_len d) l'
  end.
Lemma tracks_stayb_ok base ovf l : forall p, tracks_stayb base ovf p l = true -> tracks_stay base ovf p l.
Proof.
  induction l as [|d l IH]; intros p H; cbn [tracks_stayb tracks_stay] in *; [exact I|]. apply andb_true_iff in H. destruct H as [H1 H2].
  split; [|apply IH; exact H2]. apply orb_true_iff in H1. destruct H1 as [H1|H1]; [left; lia|]. destruct (snd d); [right; split; [reflexivity|lia]|discriminate].
Qed.
Fixpoint songs_stayb (base ovf : tblock) (p : Z) (l : list (bool * list (list Z * list call_loop_ref))) : bool :=
  match l with
  | [] => true
  | (lp, d) :: l' => tracks_stayb base ovf (place base ovf p (header_size lp + 16) + (header_size lp + 16)) d && songs_stayb base ovf (song_end base ovf p lp d) l'
  end.
Lemma songs_stayb_ok base ovf l : forall p, songs_stayb base ovf p l = true -> songs_stay base ovf p l.
Proof.
  induction l as [|[lp d] l IH]; intros p H; cbn [songs_stayb songs_stay] in *; [exact I|]. apply andb_true_iff in H. destruct H as [H1 H2].
  split; [apply tracks_stayb_ok; exact H1|apply IH; exact H2].
Qed.

Lemma ex_fits0 : bank_fits Debug ex_conv (ex_layout 0x8000 40) 0xd036 0 [ex_slot; ex_slot; ex_quiet] [ex_song; ex_song; quiet_song] place_table.
Proof.
  constructor.
  - exact ex_loaded.
  - cbn. lia.
  - cbn. lia.
  - apply songs_stayb_ok. vm_compute. reflexivity.
Qed.
Lemma ex_banks_fit : banks_fit Debug ex_conv 0 0 ex_banks ex_layouts [[ex_song; ex_song; quiet_song]; [quiet_song; ex_song]; [ex_song]].
Proof.
  eapply banks_fit_cons; [reflexivity|exact ex_fits0|].
  eapply (banks_fit_cons _ _ _ _ 0xd046 _ _ _ [(false, quiet_enc); (true, ex_enc)]); [reflexivity| |].
  - constructor.
    + apply (loaded_cons _ _ ex_quiet); [vm_compute; reflexivity|exact quiet_ready|]. apply (loaded_cons _ _ ex_slot); [reflexivity|exact ex_ready|]. constructor.
    + cbn. lia.
    + cbn. lia.
    + apply songs_stayb_ok. vm_compute. reflexivity.
  - eapply (banks_fit_cons _ _ _ _ 0xd046 _ _ _ [(true, ex_enc)]); [reflexivity| |].
    + constructor.
      * apply (loaded_cons _ _ ex_slot); [reflexivity|exact ex_ready|]. constructor.
      * cbn. lia.
      * cbn. lia.
      * apply songs_stayb_ok. vm_compute. reflexivity.
    + constructor.
Qed.
Lemma ex_written : exists r', write_banks Debug true ex_banks 0 0 ex_rom (map lo_addr ex_layouts) ex_conv = Ok r'.
Proof. eexists. vm_compute. reflexivity. Qed.
Lemma ex_written0 : exists r', write_bank Debug true (mk_bank "a"%string [ex_slot; ex_slot; ex_quiet]) ex_rom 0x8000 0xd036 0 ex_conv = Ok r'.
Proof. eexists. vm_compute. reflexivity. Qed.

(** ** Counterexamples *)
(** (a) The "overflow block" is the end of the chain: data is written past it. *)
Definition bad_rom : list Z := ex_pointer 40 ++ repeat 1 28 ++ [107; 0; 0x00; 0xd0] ++ junk 107 ++ [0; 0; 0x00; 0xe0] ++ junk 80.
Lemma bad_blocks : song_blocks bad_rom 0x8000 [] (mk_tblock 40 107 0xd000) (mk_tblock 151 0 0xe000) [].
Proof.
  exists [mk_tblock 40 107 0xd000], (mk_tblock 151 0 0xe000). split; [apply (chain_of_ok 10); vm_compute; reflexivity|]. split; [reflexivity|].
  split; [reflexivity|]. repeat constructor; cbn; lia.
Qed.
Lemma bad_write : exists r', write_bank Debug false (mk_bank "a"%string [ex_slot]) bad_rom 0x8000 0xd036 0 ex_conv = Ok r' /\
  byte r' 156 <> byte bad_rom 156 /\ ~ in_payload (mk_tblock 40 107 0xd000) 156 /\ ~ in_payload (mk_tblock 151 0 0xe000) 156.
Proof.
  eexists. split; [vm_compute; reflexivity|]. split; [vm_compute; discriminate|]. unfold in_payload, payload, payload_end. cbn [tb_start tb_len]. lia.
Qed.

Definition one_bank_rom (base ovf : nat) : list Z := ex_pointer 40 ++ repeat 1 28 ++ ex_chain base ovf.
Definition one_bank_layout (base ovf : Z) : layout :=
  mk_layout 0x8000 [mk_tblock 40 2 0x3000] (mk_tblock 46 base 0xd000) (mk_tblock (50 + base) ovf 0xe000) [mk_tblock (54 + base + ovf) 0 0x800].
Definition result (o : outcome image) : image := match o with Ok r => r | _ => [] end.

Lemma one_bank_ok base ovf : 0 <= base <= 4096 -> 24 <= ovf <= 4096 -> size (one_bank_rom (Z.to_nat base) (Z.to_nat ovf)) = 58 + base + ovf ->
  lo_in (one_bank_rom (Z.to_nat base) (Z.to_nat ovf)) (one_bank_layout base ovf) -> layout_ok (one_bank_rom (Z.to_nat base) (Z.to_nat ovf)) (one_bank_layout base ovf).
Proof.
  intros H1 H2 Hs Hin. constructor.
  - cbn [lo_addr one_bank_layout]. lia.
  - intros a Ha. change (a = lorom24 (0x8000 + 8) \/ a = lorom24 (0x8000 + 4) \/ a = lorom24 0x8000) in Ha. rewrite Hs.
    unfold lo_data, in_payload, payload, payload_end, one_bank_layout. cbn [lo_base lo_ovf tb_start tb_len].
    destruct Ha as [->|[->| ->]]; match goal with |- context [lorom24 ?x] => let v := eval vm_compute in (lorom24 x) in change (lorom24 x) with v end; lia.
  - exact Hin.
  - cbn [lo_base lo_ovf lo_post one_bank_layout]. unfold apart. split; repeat (apply Forall_cons; [cbn [tb_aram tb_len]; lia|]); apply Forall_nil.
  - cbn [lo_base lo_ovf one_bank_layout tb_aram tb_len]. lia.
  - cbn [lo_ovf one_bank_layout tb_len]. lia.
Qed.
Lemma one_bank_in (base ovf : Z) : chain_of 10 (one_bank_rom (Z.to_nat base) (Z.to_nat ovf)) (bank_chain (one_bank_rom (Z.to_nat base) (Z.to_nat ovf)) 0x8000) =
    Some ([mk_tblock 40 2 0x3000; mk_tblock 46 base 0xd000; mk_tblock (50 + base) ovf 0xe000], mk_tblock (54 + base + ovf) 0 0x800) ->
  lo_in (one_bank_rom (Z.to_nat base) (Z.to_nat ovf)) (one_bank_layout base ovf).
Proof.
  intros H. eexists; eexists. split; [eapply chain_of_ok; exact H|]. split; [reflexivity|]. split; [reflexivity|].
  apply Forall_cons; [cbn; lia|]. apply Forall_cons; [cbn; lia|]. apply Forall_nil.
Qed.

(** (b) The track calling a loop is the one moved to the overflow block: the patch lands in the header
    of the overflow block. *)
Definition header_bank : bank := mk_bank "a"%string [ex_slot; ex_slot].
Definition header_rom : list Z := one_bank_rom 145 184.
Definition header_out : list Z := result (write_bank Debug false header_bank header_rom 0x8000 0xd036 0 ex_conv).
Lemma header_layout : layout_ok header_rom (one_bank_layout 145 184).
Proof. apply (one_bank_ok 145 184); [lia|lia|vm_compute; reflexivity|]. apply (one_bank_in 145 184). vm_compute. reflexivity. Qed.
Lemma header_written : write_bank Debug false header_bank header_rom 0x8000 0xd036 0 ex_conv = Ok header_out.
Proof. vm_compute. reflexivity. Qed.
Lemma header_changed : byte header_out 197 <> byte header_rom 197 /\ ~ lo_data (one_bank_layout 145 184) 197.
Proof. split; [vm_compute; discriminate|]. unfold lo_data, in_payload, payload, payload_end. cbn [lo_base lo_ovf one_bank_layout tb_start tb_len]. lia. Qed.

(** Facts that pin down a bank read from an image. *)
Lemma holds_mem mem a w x y : holds mem a w -> mem a = Some x -> mem (a + 1) = Some y -> w = x + 256 * y.
Proof. intros (H1 & H2 & H3) E1 E2. rewrite E1 in H1. rewrite E2 in H2. injection H1 as ->. injection H2 as ->. lia. Qed.

(** (c) The same with a base block of 140 bytes: the operand is left unpatched. *)
Definition moved_rom : list Z := one_bank_rom 140 184.
Definition moved_out : list Z := result (write_bank Debug false header_bank moved_rom 0x8000 0xd036 0 ex_conv).
Definition moved_layout := one_bank_layout 140 184.
Lemma moved_layout_ok : layout_ok moved_rom moved_layout.
Proof. apply (one_bank_ok 140 184); [lia|lia|vm_compute; reflexivity|]. apply (one_bank_in 140 184). vm_compute. reflexivity. Qed.
Lemma moved_written : write_bank Debug false header_bank moved_rom 0x8000 0xd036 0 ex_conv = Ok moved_out.
Proof. vm_compute. reflexivity. Qed.
Lemma moved_not_in : ~ bank_in moved_out moved_layout 0xd036 0 [ex_slot; ex_slot] [ex_song; ex_song].
Proof.
  intros [_ H _]. destruct (H 1%nat ex_slot ex_song eq_refl eq_refl) as (a & at_ & Ha & _ & [S1 S2 S3 (part & Ep & S4) S5]).
  injection Ep as <-.
  assert (Ea : a = 0xd06e) by (apply (holds_mem _ _ _ 0x6e 0xd0 Ha); vm_compute; reflexivity). subst a.
  pose proof (S4 0%nat) as P0. pose proof (S4 1%nat) as P1. cbn [nth_error] in P0, P1.
  assert (E0 : nth 0 at_ 0 = 0xe000) by (apply (holds_mem _ _ _ 0x00 0xe0 (P0 ltac:(lia))); vm_compute; reflexivity).
  assert (E1 : nth 1 at_ 0 = 0xe013) by (apply (holds_mem _ _ _ 0x13 0xe0 (P1 ltac:(lia))); vm_compute; reflexivity).
  destruct (S5 0%nat) as (data & refs & Hw & (ta & T1 & _ & _ & T4)); [cbn; lia|].
  vm_compute in Hw. injection Hw as <- <-.
  destruct (T4 (mk_ref 2 13) (or_introl eq_refl)) as (tb & U1 & U2). cbn [target_track ref_pos] in U1, U2.
  assert (ta = 0xe000) as -> by (rewrite <- E0; symmetry; apply nth_error_nth; exact T1).
  assert (tb = 0xd000) as -> by (apply (holds_mem _ _ _ 0x00 0xd0 U2); vm_compute; reflexivity).
  destruct (S5 2%nat) as (data2 & refs2 & Hw2 & (tc & V1 & _ & V3 & _)); [cbn; lia|]. rewrite U1 in V1. injection V1 as <-.
  vm_compute in Hw2. injection Hw2 as <- <-. specialize (V3 0%nat). vm_compute in V3. 
  assert (X : Some 54 = Some 6) by (apply V3; [repeat constructor|intros (x & [] & _)]). discriminate X.
Qed.

(** (d) A part of nine tracks: its table runs into the first track. *)
Definition nine_song : song := mk_song [repeat 0%nat 9] [[pc (Some 48) (Note 0x9c)]].
Definition nine_conv (p : path) (t : f32) : outcome song := Ok nine_song.
Definition nine_bank : bank := mk_bank "a"%string [ex_slot].
Definition nine_rom : list Z := one_bank_rom 155 184.
Definition nine_layout := one_bank_layout 155 184.
Definition nine_out : list Z := result (write_bank Debug false nine_bank nine_rom 0x8000 0xd036 0 nine_conv).
Lemma nine_layout_ok : layout_ok nine_rom nine_layout.
Proof. apply (one_bank_ok 155 184); [lia|lia|vm_compute; reflexivity|]. apply (one_bank_in 155 184). vm_compute. reflexivity. Qed.
Lemma nine_written : write_bank Debug false nine_bank nine_rom 0x8000 0xd036 0 nine_conv = Ok nine_out.
Proof. vm_compute. reflexivity. Qed.
Lemma nine_not_in : ~ bank_in nine_out nine_layout 0xd036 0 [ex_slot] [nine_song].
Proof.
  intros [_ H _]. destruct (H 0%nat ex_slot nine_song eq_refl eq_refl) as (a & at_ & Ha & _ & [S1 S2 S3 (part & Ep & S4) S5]).
  injection Ep as <-.
  assert (Ea : a = 0xd036) by (apply (holds_mem _ _ _ 0x36 0xd0 Ha); vm_compute; reflexivity). subst a.
  pose proof (S4 0%nat) as P0. cbn [nth_error repeat] in P0.
  assert (E0 : nth 0 at_ 0 = 0xd04e) by (apply (holds_mem _ _ _ 0x4e 0xd0 (P0 ltac:(lia))); vm_compute; reflexivity).
  destruct (S5 0%nat) as (data & refs & Hw & (ta & T1 & _ & T3 & _)); [cbn; lia|].
  vm_compute in Hw. injection Hw as <- <-.
  assert (ta = 0xd04e) as -> by (rewrite <- E0; symmetry; apply nth_error_nth; exact T1).
  specialize (T3 0%nat). vm_compute in T3. assert (X : Some 78 = Some 250) by (apply T3; [repeat constructor|intros (x & [] & _)]). discriminate X.
Qed.

(** (e) A base block shorter than the song table: the verbose message underflows. *)
Definition short_rom : list Z := one_bank_rom 40 184.
Lemma short_verbose : write_bank Debug true header_bank short_rom 0x8000 0xd036 0 ex_conv = Panic POverflow /\
  exists r', write_bank Debug false header_bank short_rom 0x8000 0xd036 0 ex_conv = Ok r'.
Proof. split; [vm_compute; reflexivity|]. eexists. vm_compute. reflexivity. Qed.

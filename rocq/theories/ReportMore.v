(** ReportMore.v: C80 and C81 for the banks of SpecBank.v, and examples. *)
From Coq Require Import ZArith List Bool Lia ZifyBool ZifyNat String Sorted.
From Verif Require Import Base ProofLib F32 Command Track Song Paths Manifest Rom SpecRom SpecBank RomLib RomProofs RomBank RomChain RomBanks RomExamples Report SpecReport ReportProofs.
Import ListNotations.
Open Scope Z_scope.
Open Scope list_scope.

Lemma bank_bar b v bar bk r L fa first conv : is_image r -> layout_ok r L -> 0xd000 <= fa -> fa - 0xd000 <= tb_len (lo_base L) ->
  Forall (tracks_at_most b conv (tb_len (lo_ovf L))) (songs bk) ->
  let log := fst (show_bank b v bar bk r (lo_addr L) fa first conv) in
  totals_set bar log = [tb_len (lo_base L) + tb_len (lo_ovf L)] /\ advances (tb_len (lo_base L) + tb_len (lo_ovf L)) (values_shown bar log).
Proof.
  intros Hr HL Hfa Hfl Hs. cbv zeta. destruct (layout_fits r L Hr HL) as [HG _]. pose proof HL as [A1 A2 A3 A4 A5 A6]. pose proof HG as (G1 & G2 & G3 & G4 & G5 & G6 & G7).
  assert (Hp : pointers_in r (lo_addr L)) by (split; [lia|]; split; [lia|]; intros a Ha; apply A2; exact Ha).
  pose proof (find_blocks_found b r (lo_addr L) (lo_pre L) (lo_base L) (lo_ovf L) (lo_post L) Hr Hp A3) as Hf.
  set (bl := blocks_of (lo_base L) (lo_ovf L)) in *.
  assert (Hne : base_chunk_addr bl <> overflow_chunk_addr bl) by (unfold bl, blocks_of; cbn [base_chunk_addr overflow_chunk_addr]; unfold payload, payload_end in *; lia).
  destruct (songs_bar b v bar bl conv Hne ltac:(unfold bl, blocks_of; cbn [base_chunk_len]; lia) ltac:(unfold bl, blocks_of; cbn [overflow_chunk_len]; lia) (songs bk) (wstate_init r bl fa first)) as [HA _].
  { eapply Forall_impl; [|exact Hs]. intros sd H s i data refs Hl. unfold bl, blocks_of. cbn [overflow_chunk_len]. apply (H s i data refs). unfold load_song in Hl. destruct (input sd); exact Hl. }
  { apply in_base; unfold wstate_init, bl, blocks_of, ARAM_BASE; cbn [rom_addr chunk_length song_offset base_chunk_addr base_chunk_len]; lia. }
  pose proof (songs_shown b v bar bl conv (songs bk) (wstate_init r bl fa first)) as (_ & _ & _ & _ & _ & HT).
  assert (E : fst (show_bank b v bar bk r (lo_addr L) fa first conv) = fst (say v (BankStart (base_chunk_addr bl) (Z.of_nat first) (base_chunk_len bl))) ++
      BarTotal bar (base_chunk_len bl + overflow_chunk_len bl) :: fst (sfold (show_song_def b v bar bl conv) (songs bk) (wstate_init r bl fa first))).
  { unfold show_bank. rewrite Hf. unfold sbind at 1. cbn [silent snd fst app]. unfold sbind at 1. rewrite say_snd. cbn [fst]. unfold sbind at 1. cbn [show snd fst app]. f_equal. f_equal.
    match goal with |- fst (sbind ?m ?k) = _ => destruct (fst_sbind m k) as [(st & _ & -> & _)|(_ & -> & _)]; [apply app_nil_r|reflexivity] end. }
  rewrite E. destruct (said_only _ (say_said v (BankStart (base_chunk_addr bl) (Z.of_nat first) (base_chunk_len bl)))) as (_ & _ & _ & S4).
  rewrite totals_app, values_app, (proj1 (S4 bar)), (proj2 (S4 bar)). cbn [app totals_set values_shown]. rewrite Nat.eqb_refl, HT. split; [reflexivity|exact HA].
Qed.

(** ** Examples: a song with one track of [n] notes. *)
Definition notes_song (n : nat) : song := mk_song [[0%nat]] [repeat (pc (Some 24) (Note 0xa4)) n].
Definition notes_conv (n : nat) (p : path) (t : f32) : outcome song := Ok (notes_song n).
(** A track that is longer than the overflow block it is moved to: the next value of the bar is too large. *)
Definition bar_rom : list Z := one_bank_rom 80 24.
Definition bar_bank : bank := mk_bank "a"%string [ex_slot; ex_slot].
Lemma bar_layout : layout_ok bar_rom (one_bank_layout 80 24).
Proof. apply (one_bank_ok 80 24); [lia|lia|vm_compute; reflexivity|]. apply (one_bank_in 80 24). vm_compute. reflexivity. Qed.
Lemma bar_image : is_image bar_rom. Proof. apply image_dec. vm_compute. reflexivity. Qed.
Lemma refute_bar : exists r L bk conv, is_image r /\ layout_ok r L /\ 0xd036 - 0xd000 <= tb_len (lo_base L) /\
  exists v, In v (values_shown 1 (fst (show_bank Debug false 1 bk r (lo_addr L) 0xd036 0 conv))) /\ tb_len (lo_base L) + tb_len (lo_ovf L) < v.
Proof.
  exists bar_rom, (one_bank_layout 80 24), bar_bank, (notes_conv 18). split; [apply bar_image|]. split; [exact bar_layout|]. split; [cbn; lia|].
  exists 107. split; [lazy; auto|]. cbn. lia.
Qed.
(** The size printed for a song that starts in one block and ends in the other. *)
Definition size_rom : list Z := one_bank_rom 80 184.
Definition size_bank : bank := mk_bank "a"%string [ex_slot].
Lemma size_layout : layout_ok size_rom (one_bank_layout 80 184).
Proof. apply (one_bank_ok 80 184); [lia|lia|vm_compute; reflexivity|]. apply (one_bank_in 80 184). vm_compute. reflexivity. Qed.
Lemma size_image : is_image size_rom. Proof. apply image_dec. vm_compute. reflexivity. Qed.
Lemma size_ready : song_ready (notes_song 60) (encode (notes_song 60)).
Proof.
  split; [|split].
  - split; [reflexivity|]. intros [|i] d H; vm_compute in H; [injection H as <-; vm_compute; reflexivity|destruct i; discriminate].
  - intros part [= <-]. cbn. lia.
  - assert (E : forallb (fun d => forallb (fun v => (0 <=? v) && (v <? 256)) (fst d)) (encode (notes_song 60)) = true) by (vm_compute; reflexivity).
    rewrite forallb_forall in E. apply Forall_forall. intros d Hd. apply (image_dec (fst d)). apply E. exact Hd.
Qed.
Lemma size_fits : bank_fits Debug (notes_conv 60) (one_bank_layout 80 184) 0xd036 0 (songs size_bank) [notes_song 60] [(true, encode (notes_song 60))].
Proof.
  constructor; [|cbn; lia|cbn; lia|apply songs_stayb_ok; vm_compute; reflexivity].
  apply (loaded_cons _ _ ex_slot); [reflexivity|exact size_ready|]. constructor.
Qed.
Lemma refute_size : exists r L bk s l conv r' log n d, is_image r /\ layout_ok r L /\ bank_fits Debug conv L 0xd036 0 (songs bk) [s] [(true, l)] /\
  show_bank Debug true 1 bk r (lo_addr L) 0xd036 0 conv = (log, Ok r') /\ In (SongSize n) (said log) /\ In d l /\ n < data_len d.
Proof.
  exists size_rom, (one_bank_layout 80 184), size_bank, (notes_song 60), (encode (notes_song 60)), (notes_conv 60),
    (result (snd (show_bank Debug true 1 size_bank size_rom 0x8000 0xd036 0 (notes_conv 60)))), (fst (show_bank Debug true 1 size_bank size_rom 0x8000 0xd036 0 (notes_conv 60))).
  exists 15, (nth 0 (encode (notes_song 60)) ([], [])). split; [exact size_image|]. split; [exact size_layout|]. split; [exact size_fits|].
  split.
  { set (x := show_bank _ _ _ _ _ _ _ _ _) in *. assert (E : exists r, snd x = Ok r) by (eexists; unfold x; lazy; reflexivity). destruct E as [r E]. rewrite (surjective_pairing x) at 1. rewrite E. reflexivity. }
  split; [|split; [apply nth_In; lazy; constructor|lazy; reflexivity]].
  assert (E : exists l, said (fst (show_bank Debug true 1 size_bank size_rom 0x8000 0xd036 0 (notes_conv 60))) = l ++ [SongSize 15])
    by (exists (removelast (said (fst (show_bank Debug true 1 size_bank size_rom 0x8000 0xd036 0 (notes_conv 60))))); lazy; reflexivity).
  destruct E as [l ->]. apply in_or_app. right. left. reflexivity.
Qed.

(** ** The example of RomExamples.v *)
Lemma sends_some log : exists ms, sends log ms.
Proof.
  induction log as [|[] log [ms IH]]; [exists []; constructor|exists ms; constructor; exact IH|exists ms; constructor; exact IH| | | |exists ms; constructor; exact IH].
  - exists (repeat Draw 0 ++ ms). constructor. exact IH.
  - exists (repeat Draw 0 ++ ms). constructor. exact IH.
  - exists (repeat Draw 0 ++ Finished :: ms). constructor. exact IH.
Qed.
Lemma pair_fst {A B} (x : A * B) a : fst x = a -> x = (a, snd x).
Proof. intros <-. apply surjective_pairing. Qed.
Lemma pair_snd {A B} (x : A * B) a : snd x = a -> x = (fst x, a).
Proof. intros <-. apply surjective_pairing. Qed.
Lemma ex_ok : fst (rom_write Debug true ex_banks ex_rom true (map lo_addr ex_layouts) ex_conv (Wrote 1111)) = Ok tt.
Proof. destruct ex_written as [r' E]. unfold rom_write. rewrite E. reflexivity. Qed.
Lemma ex_shown : exists log, show_write Debug true ex_banks ex_rom true (map lo_addr ex_layouts) ex_conv (Wrote 1111) = (log, Ok tt) /\
  bars_made log = [(0%nat, 6); (1%nat, 1); (2%nat, 1); (3%nat, 1)] /\ bars_finished log = [1; 2; 3; 0]%nat /\ exists ms, sends log ms.
Proof.
  eexists. split; [apply pair_snd; rewrite write_snd; exact ex_ok|].
  pose proof (write_shown Debug true ex_banks ex_rom (map lo_addr ex_layouts) ex_conv (Wrote 1111)) as H. cbv zeta in H. destruct H as (H1 & _ & H2 & _).
  rewrite H1. split; [reflexivity|]. rewrite write_snd in H2. destruct (H2 ex_ok) as [-> _]. split; [reflexivity|]. apply sends_some.
Qed.
Lemma ex_most : Forall (tracks_at_most Debug ex_conv 184) [ex_slot; ex_slot; ex_quiet].
Proof.
  assert (K : forall s l, encodes s l -> forallb (fun d => Z.of_nat (length (fst d)) <=? 184) l = true -> forall i data refs, write_track s [] i [] = Ok (data, refs) -> Z.of_nat (length data) <= 184).
  { intros s l [EL He] Hl i data refs H. destruct (nth_error l i) as [d|] eqn:Ed.
    - specialize (He i d Ed). rewrite H in He. injection He as <-. rewrite forallb_forall in Hl. apply nth_error_In in Ed. specialize (Hl _ Ed). cbn [fst] in Hl. lia.
    - apply nth_error_None in Ed. rewrite EL in Ed. exfalso. unfold write_track in H. apply nth_error_None in Ed. rewrite Ed in H. cbn in H. discriminate. }
  repeat apply Forall_cons; try apply Forall_nil; intros s i data refs Hs Hw.
  - cbn in Hs. injection Hs as <-. apply (K ex_song ex_enc ex_encodes ltac:(vm_compute; reflexivity) i data refs Hw).
  - cbn in Hs. injection Hs as <-. apply (K ex_song ex_enc ex_encodes ltac:(vm_compute; reflexivity) i data refs Hw).
  - assert (s = quiet_song) as -> by (vm_compute in Hs; injection Hs as <-; reflexivity). apply (K quiet_song quiet_enc quiet_encodes ltac:(vm_compute; reflexivity) i data refs Hw).
Qed.
Lemma ex_bar : Forall (tracks_at_most Debug ex_conv 184) [ex_slot; ex_slot; ex_quiet] /\
  values_shown 1 (fst (show_bank Debug true 1 (mk_bank "a"%string [ex_slot; ex_slot; ex_quiet]) ex_rom 0x8000 0xd036 0 ex_conv)) = [54; 110; 168].
Proof. split; [exact ex_most|]. lazy. reflexivity. Qed.
Lemma ex_told : (exists r', rom_write Debug true ex_banks ex_rom true (map lo_addr ex_layouts) ex_conv (Wrote 1111) = (Ok tt, r')) /\
  said (fst (show_bank Debug true 1 (mk_bank "a"%string [ex_slot]) ex_rom 0x8000 0xd036 0 ex_conv)) =
    [BankStart 50 0 155; SongAddress 104 0xd036 50; TrackData 128 0xd04e; TrackData 147 0xd061; TrackData 153 0xd067; PartData 112 0xd03e;
     TrackAddress 0xd04e 112; TrackAddress 0xd061 114; LoopAddress 0xd067 141; SongSize 56].
Proof. split; [|lazy; reflexivity]. eexists. apply pair_fst. exact ex_ok. Qed.
Lemma songs_bar_shown b verbose m file addrs conv os log1 log2 o : show_write b verbose m file true addrs conv os = (log1 ++ log2, o) ->
  In (0%nat, Z.of_nat (count_songs m)) (bars_made (log1 ++ log2)) /\
  (songs_counted log1 <= count_songs m)%nat /\ (o = Ok tt -> songs_counted (log1 ++ log2) = count_songs m).
Proof.
  intros E. pose proof (write_shown b verbose m file addrs conv os) as H. cbv zeta in H. rewrite E in H. cbn [fst snd] in H. destruct H as (H1 & H2 & H3 & _).
  change (list_sum (map (fun bk => length (songs bk)) m)) with (count_songs m) in *. split; [rewrite H1; left; reflexivity|]. split; [pose proof (counted_prefix log1 log2); lia|].
  intros Ho. apply H3. exact Ho.
Qed.

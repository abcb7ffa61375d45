(** SafeExamples.v: a concrete case for C76, and a track long enough to crash the writer. *)
From Coq Require Import ZArith List String Bool Lia ZifyBool ZifyNat.
From Verif Require Import SpecPath PathProofs.
From Verif Require Import Base F32 Messages Command Track Song Paths Manifest Rom Midi Cli SpecSong SpecMidi SpecVoice SpecVoices SpecRom SpecBank Run SpecCommand SpecSuccess SpecSafe
  ProofLib SongProofs RomBanks RomExamples RomFinal MidiExamples FileExamples CommandExamples RomSuccess SuccessExamples.
Import ListNotations.
Open Scope Z_scope.
Open Scope list_scope.

Lemma big_clear : ForallOrdPairs clear_of big_layouts.
Proof.
  assert (HF : forall addr start x, lo_frame (big_layout addr start) x -> pointer_bytes addr x \/ start <= x < start + 1002).
  { intros addr start x [H|(b & Hb & Hx)]; [left; exact H|right]. cbn in Hb. unfold payload in Hx. destruct Hb as [<-|[<-|[<-|[<-|[]]]]]; cbn [tb_start] in Hx; lia. }
  assert (H : forall a1 s1 a2 s2, (a2 = 0x8000 \/ a2 = 0x800c \/ a2 = 0x8018) -> 40 <= s1 -> s1 + 1002 <= s2 -> clear_of (big_layout a1 s1) (big_layout a2 s2)).
  { intros a1 s1 a2 s2 H2 H3 H4 x Hx Hf. assert (s1 <= x < s1 + 1002) by (revert Hx; unfold lo_span, payload, payload_end, big_layout; cbn [lo_base lo_ovf tb_start tb_len]; lia).
    apply HF in Hf. destruct Hf as [Hf|Hf]; [|lia]. apply ex_pointers in Hf; auto; lia. }
  apply FOP_cons; [apply Forall_cons; [|apply Forall_cons; [|apply Forall_nil]]; apply H; auto; lia|].
  apply FOP_cons; [apply Forall_cons; [|apply Forall_nil]; apply H; auto; lia|].
  apply FOP_cons; [apply Forall_nil|apply FOP_nil].
Qed.
Lemma safe_inputs : Forall (fun bk => Forall (good_input cmd_tools cmd_files) (songs bk)) cmd_manifest.
Proof.
  apply Forall_forall. intros bk Hbk. apply Forall_forall. intros sd Hsd p Hp. rewrite (cmd_slots bk sd p Hbk Hsd Hp). split; [|intros H; destruct (H cmd_mid)].
  intros _ content cbs complete _ E. injection E as <- _. destruct cmd_midi as (c' & cbs' & cp & _ & E' & H1 & H2 & H3). injection E' as <- _.
  split; [exact H1|]. split; [|split; [exact H3|vm_compute; reflexivity]].
  assert (H : forallb (forallb (fun m => match addressee m with Some c => (0 <=? c) && (c <? 16) | None => true end)) (tracks_of good_file) = true) by (vm_compute; reflexivity).
  rewrite forallb_forall in H. apply Forall_forall. intros tr Htr. specialize (H tr Htr). rewrite forallb_forall in H. apply Forall_forall. intros m Hm. specialize (H m Hm).
  unfold channel_ok. destruct (addressee m); lia.
Qed.
Lemma safe_short opt : short_songs (converter Release (world_of cmd_tools cmd_files) id_order opt) cmd_manifest big_layouts.
Proof.
  intros k bk L sd p s l Hk HL Hsd Hp Es He. apply nth_error_In in Hk. rewrite (cmd_slots bk sd p Hk Hsd Hp) in Es.
  assert (Et : Manifest.tempo_factor sd = DEFAULT_TEMPO_ADJUST).
  { revert Hsd Hp. clear -Hk. intros Hsd Hp. cbn in Hk. destruct Hk as [<-|[<-|[<-|[]]]]; cbn in Hsd;
    repeat (destruct Hsd as [<-|Hsd]; [cbn in Hp; (discriminate || reflexivity)|]); destruct Hsd. }
  rewrite Et, (proj1 (converter_choice _ _ _ _ _ _) cmd_mid), cmd_converts in Es. injection Es as <-. rewrite (encodes_fun _ _ _ He (proj1 cmd_ready)).
  assert (HO : tb_len (lo_ovf L) >= 100) by (apply nth_error_In in HL; cbn in HL; destruct HL as [<-|[<-|[<-|[]]]]; cbn; lia).
  assert (HC : forallb (fun d => data_len d <=? 100) cmd_enc = true) by (vm_compute; reflexivity).
  apply Forall_forall. intros d Hd. rewrite forallb_forall in HC. specialize (HC d Hd). lia.
Qed.

(** An overflow block of 24 bytes at the end of the image, and a song with a track of more than 80 bytes. *)
Definition long_song : song := mk_song [[0%nat]] [repeat (pc None (Note 0x9c)) 40].
Definition long_conv (p : path) (t : f32) : outcome song := Ok long_song.
Definition long_rom : list Z := one_bank_rom 80 24.
Definition long_layout := one_bank_layout 80 24.
Lemma long_layout_ok : layout_ok long_rom long_layout.
Proof. apply (one_bank_ok 80 24); [lia|lia|vm_compute; reflexivity|]. apply (one_bank_in 80 24). vm_compute. reflexivity. Qed.
Definition long_enc := encode long_song.
Lemma long_ready : song_ready long_song long_enc /\ song_closed long_song long_enc.
Proof.
  assert (E : forallb (fun d => forallb (fun v => (0 <=? v) && (v <? 256)) (fst d) && match snd d with [] => true | _ => false end) long_enc = true) by (vm_compute; reflexivity).
  rewrite forallb_forall in E. split; [split; [|split]|split].
  - split; [reflexivity|]. intros [|i] d H; [vm_compute in H; injection H as <-; vm_compute; reflexivity|]. destruct i; discriminate.
  - intros part [= <-]. cbn. lia.
  - apply Forall_forall. intros d Hd. apply (image_dec (fst d)). specialize (E d Hd). apply andb_true_iff in E. apply E.
  - exists [0%nat]. split; [reflexivity|]. repeat constructor.
  - apply Forall_forall. intros d Hd. specialize (E d Hd). apply andb_true_iff in E. destruct E as [_ E]. destruct (snd d); [constructor|discriminate].
Qed.
Lemma long_panics : write_bank Release false nine_bank long_rom 0x8000 0xd036 0 long_conv = Panic PIndex.
Proof. vm_compute. reflexivity. Qed.
Lemma refute_long : exists r L bk s l p, is_image r /\ layout_ok r L /\ 0xd036 - 0xd000 <= tb_len (lo_base L) /\ 2 * Z.of_nat (length (songs bk)) <= 0xd036 - 0xd000 /\
  song_ready s l /\ song_closed s l /\ write_bank Release false bk r (lo_addr L) 0xd036 0 (fun _ _ => Ok s) = Panic p.
Proof.
  exists long_rom, long_layout, nine_bank, long_song, long_enc, PIndex. split; [apply image_dec; vm_compute; reflexivity|]. split; [exact long_layout_ok|].
  split; [cbn; lia|]. split; [cbn; lia|]. split; [apply long_ready|]. split; [apply long_ready|exact long_panics].
Qed.
(** One bank: the songs of the slots are valid and short. *)
Lemma header_safe : Forall (slot_safe ex_conv 184) [ex_slot; ex_slot].
Proof.
  assert (H : slot_safe ex_conv 184 ex_slot).
  { intros p [= <-]. split; [apply has_name_iff; vm_compute; discriminate|]. split; [left; eexists; reflexivity|]. intros s [= <-]. exists ex_enc. split; [exact ex_ready|].
    destruct example_total as [Hc _]. split; [inversion Hc; subst; assumption|].
    assert (E : forallb (fun d => data_len d <=? 184) ex_enc = true) by (vm_compute; reflexivity). rewrite forallb_forall in E. apply Forall_forall. intros d Hd. specialize (E d Hd). lia. }
  apply Forall_cons; [exact H|]. apply Forall_cons; [exact H|apply Forall_nil].
Qed.
Lemma header_case : is_image header_rom /\ layout_ok header_rom (one_bank_layout 145 184) /\ 0xd036 - 0xd000 <= tb_len (lo_base (one_bank_layout 145 184)) /\
  2 * Z.of_nat (0 + length (songs header_bank)) <= 0xd036 - 0xd000 /\ Forall (slot_safe ex_conv (tb_len (lo_ovf (one_bank_layout 145 184)))) (songs header_bank).
Proof. split; [apply image_dec; vm_compute; reflexivity|]. split; [exact header_layout|]. split; [cbn; lia|]. split; [cbn; lia|exact header_safe]. Qed.

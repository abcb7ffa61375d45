(** EachExamples.v: banks for C34, C36 and C39 in which a track that calls loops is moved to the overflow block. *)
From Coq Require Import ZArith List String Bool Lia ZifyBool ZifyNat.
From Verif Require Import SpecPath PathProofs.
From Verif Require Import Base F32 Command Track Song Paths Manifest Rom SpecRom SpecBank SpecSafe SpecEach ProofLib RomBanks RomExamples RomFinal.
Import ListNotations.
Open Scope Z_scope.
Open Scope list_scope.

Definition moved_enc : list (bool * list (list Z * list call_loop_ref)) := [(true, ex_enc); (true, ex_enc)].
Lemma ex_closed : song_closed ex_song ex_enc.
Proof. destruct example_total as [H _]. inversion H; subst; assumption. Qed.
Lemma moved_short : bank_short Debug ex_conv moved_layout 0xd036 0 (songs header_bank) [ex_song; ex_song] moved_enc.
Proof.
  assert (Hl : Forall (fun d => data_len d <= 184) ex_enc).
  { assert (E : forallb (fun d => data_len d <=? 184) ex_enc = true) by (vm_compute; reflexivity). rewrite forallb_forall in E. apply Forall_forall. intros d Hd. specialize (E d Hd). lia. }
  constructor; [| |cbn; lia|cbn; lia|].
  - apply (loaded_cons _ _ ex_slot); [reflexivity|exact ex_ready|]. apply (loaded_cons _ _ ex_slot); [reflexivity|exact ex_ready|]. constructor.
  - apply closed_cons; [intros f [= <-]; apply has_name_iff; vm_compute; discriminate|exact ex_closed|]. apply closed_cons; [intros f [= <-]; apply has_name_iff; vm_compute; discriminate|exact ex_closed|]. constructor.
  - apply Forall_cons; [exact Hl|]. apply Forall_cons; [exact Hl|apply Forall_nil].
Qed.
Lemma moved_image : is_image moved_rom. Proof. apply image_dec. vm_compute. reflexivity. Qed.
Lemma moved_in : lo_in moved_out moved_layout.
Proof.
  eexists; eexists. split; [apply (chain_of_ok 10); vm_compute; reflexivity|]. split; [reflexivity|]. split; [reflexivity|].
  apply Forall_cons; [cbn; lia|]. apply Forall_cons; [cbn; lia|]. apply Forall_nil.
Qed.
(** Song 1 does not fit without moving its first track, which calls a loop; song 0 does. *)
Lemma moved_second : song_unmoved moved_layout 0xd036 moved_enc 0 /\ ~ song_unmoved moved_layout 0xd036 moved_enc 1.
Proof.
  split.
  - intros lp l [= <- <-]. cbn [firstn songs_end]. assert (E : songs_stayb (lo_base moved_layout) (lo_ovf moved_layout) (payload (lo_base moved_layout) + (0xd036 - 0xd000)) [(true, ex_enc)] = true) by (vm_compute; reflexivity).
    apply songs_stayb_ok in E. apply E.
  - intros H. specialize (H true ex_enc eq_refl). unfold song_stays in H.
    assert (E : ex_enc = [nth 0 ex_enc ([], []); nth 1 ex_enc ([], []); nth 2 ex_enc ([], [])]) by (vm_compute; reflexivity).
    rewrite E in H. cbn [tracks_stay] in H. destruct H as [[H|[H _]] _]; vm_compute in H; discriminate.
Qed.

(** Three banks, the first of which moves such a track. *)
Definition three_rom : list Z := ex_pointer 40 ++ ex_pointer 382 ++ ex_pointer 724 ++ [1; 1; 1; 1] ++ ex_chain 140 184 ++ ex_chain 140 184 ++ ex_chain 140 184.
Definition three_layout (addr start : Z) : layout :=
  mk_layout addr [mk_tblock start 2 0x3000] (mk_tblock (start + 6) 140 0xd000) (mk_tblock (start + 150) 184 0xe000) [mk_tblock (start + 338) 0 0x800].
Definition three_layouts : list layout := [three_layout 0x8000 40; three_layout 0x800c 382; three_layout 0x8018 724].
Definition three_banks : list bank := [mk_bank "a"%string [ex_slot; ex_slot]; mk_bank "b"%string [ex_slot]; mk_bank "c"%string [ex_quiet; ex_slot]].
Definition three_songs : list (list song) := [[ex_song; ex_song]; [ex_song]; [quiet_song; ex_song]].
Definition three_encs : list (list (bool * list (list Z * list call_loop_ref))) := [moved_enc; [(true, ex_enc)]; [(loops ex_quiet, quiet_enc); (true, ex_enc)]].
Definition three_out : list Z := result (write_banks Debug true three_banks 0 0 three_rom (map lo_addr three_layouts) ex_conv).
Lemma three_image : is_image three_rom. Proof. apply image_dec. vm_compute. reflexivity. Qed.
Lemma three_written : write_banks Debug true three_banks 0 0 three_rom (map lo_addr three_layouts) ex_conv = Ok three_out.
Proof. vm_compute. reflexivity. Qed.
Lemma three_layout_in addr start : (addr, start) = (0x8000, 40) \/ (addr, start) = (0x800c, 382) \/ (addr, start) = (0x8018, 724) ->
  layout_ok three_rom (three_layout addr start) /\ lo_in three_out (three_layout addr start).
Proof.
  intros H.
  assert (Hs : size three_rom = 1066) by (vm_compute; reflexivity).
  assert (HC : forall r, (exists bs t, chain_is r addr bs t /\ (bs ++ [t])%list = lo_blocks (three_layout addr start)) -> lo_in r (three_layout addr start)).
  { intros r (bs & t & Hc & E). exists bs, t. split; [eapply chain_of_ok; exact Hc|]. split; [exact E|]. cbn [three_layout lo_base lo_ovf lo_post tb_aram].
    split; [reflexivity|]. repeat constructor; cbn; lia. }
  split; [|apply HC; destruct H as [[= -> ->]|[[= -> ->]|[= -> ->]]]; eexists; eexists; (split; [vm_compute; reflexivity|reflexivity])].
  constructor.
  - destruct H as [[= -> ->]|[[= -> ->]|[= -> ->]]]; cbn [lo_addr three_layout]; lia.
  - intros a Ha. unfold pointer_bytes, lo_data, in_payload, payload, payload_end, three_layout in *. cbn [lo_addr lo_base lo_ovf tb_start tb_len] in *.
    assert (a = lorom24 (addr + 8) \/ a = lorom24 (addr + 4) \/ a = lorom24 addr) as Ha' by exact Ha.
    rewrite Hs. destruct H as [[= -> ->]|[[= -> ->]|[= -> ->]]]; destruct Ha' as [->|[->| ->]];
      match goal with |- context [lorom24 ?x] => let v := eval vm_compute in (lorom24 x) in change (lorom24 x) with v end; lia.
  - apply HC. destruct H as [[= -> ->]|[[= -> ->]|[= -> ->]]]; eexists; eexists; (split; [vm_compute; reflexivity|reflexivity]).
  - cbn [three_layout lo_base lo_ovf lo_post]. unfold apart. split; repeat (apply Forall_cons; [cbn [tb_aram tb_len]; lia|]); apply Forall_nil.
  - cbn. lia.
  - cbn. lia.
Qed.
Lemma three_layouts_ok : Forall (layout_ok three_rom) three_layouts /\ Forall (lo_in three_out) three_layouts.
Proof. split; (apply Forall_cons; [|apply Forall_cons; [|apply Forall_cons; [|apply Forall_nil]]]); apply three_layout_in; auto. Qed.
Lemma three_separate : ForallOrdPairs separate three_layouts.
Proof.
  assert (HF : forall addr start x, lo_frame (three_layout addr start) x -> pointer_bytes addr x \/ start <= x < start + 342).
  { intros addr start x [H|(b & Hb & Hx)]; [left; exact H|right]. cbn in Hb. unfold payload in Hx. destruct Hb as [<-|[<-|[<-|[<-|[]]]]]; cbn [tb_start] in Hx; lia. }
  assert (HD : forall addr start x, lo_span (three_layout addr start) x -> start <= x < start + 342).
  { intros addr start x. unfold lo_span, payload, payload_end, three_layout. cbn [lo_base lo_ovf tb_start tb_len]. lia. }
  assert (H : forall a1 s1 a2 s2, (a1 = 0x8000 \/ a1 = 0x800c \/ a1 = 0x8018) -> (a2 = 0x8000 \/ a2 = 0x800c \/ a2 = 0x8018) -> 40 <= s1 -> s1 + 342 <= s2 ->
     separate (three_layout a1 s1) (three_layout a2 s2)).
  { intros a1 s1 a2 s2 H1 H2 H3 H4 x. split; intros Hx; apply HD in Hx; [split; [intros Hd; apply HD in Hd; lia|]|];
      intros Hf; apply HF in Hf; (destruct Hf as [Hf|Hf]; [|lia]); apply ex_pointers in Hf; auto; lia. }
  apply FOP_cons; [apply Forall_cons; [|apply Forall_cons; [|apply Forall_nil]]; apply H; auto; lia|].
  apply FOP_cons; [apply Forall_cons; [|apply Forall_nil]; apply H; auto; lia|].
  apply FOP_cons; [apply Forall_nil|apply FOP_nil].
Qed.
Lemma three_short : banks_short Debug ex_conv 0 0 three_banks three_layouts three_songs three_encs.
Proof.
  assert (Hl : Forall (fun d => data_len d <= 184) ex_enc).
  { assert (E : forallb (fun d => data_len d <=? 184) ex_enc = true) by (vm_compute; reflexivity). rewrite forallb_forall in E. apply Forall_forall. intros d Hd. specialize (E d Hd). lia. }
  assert (Hq : song_closed quiet_song quiet_enc).
  { split; [exists [0%nat]; split; [reflexivity|]; repeat constructor|]. repeat constructor. }
  assert (Hn : forall f, Manifest.input ex_slot = Some f -> has_name f) by (intros f [= <-]; apply has_name_iff; vm_compute; discriminate).
  eapply (banks_short_cons _ _ _ _ 0xd036); [reflexivity| |].
  - destruct moved_short as [S1 S2 S3 S4 S5]. constructor; [exact S1|exact S2|cbn; lia|cbn; lia|exact S5].
  - eapply (banks_short_cons _ _ _ _ 0xd046); [reflexivity| |].
    + constructor; [| |cbn; lia|cbn; lia|].
      * apply (loaded_cons _ _ ex_slot); [reflexivity|exact ex_ready|constructor].
      * apply closed_cons; [exact Hn|exact ex_closed|constructor].
      * apply Forall_cons; [exact Hl|apply Forall_nil].
    + eapply (banks_short_cons _ _ _ _ 0xd046); [reflexivity| |constructor].
      constructor; [| |cbn; lia|cbn; lia|].
      * apply (loaded_cons _ _ ex_quiet); [vm_compute; reflexivity|exact quiet_ready|]. apply (loaded_cons _ _ ex_slot); [reflexivity|exact ex_ready|constructor].
      * apply closed_cons; [intros f [=]|exact Hq|]. apply closed_cons; [exact Hn|exact ex_closed|constructor].
      * apply Forall_cons; [|apply Forall_cons; [exact Hl|apply Forall_nil]]. repeat constructor. cbn. unfold data_len. cbn. lia.
Qed.

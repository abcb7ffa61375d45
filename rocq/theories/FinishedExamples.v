(** FinishedExamples.v: a build for C73, C74 and C59 that moves a track with a loop call to the overflow block. *)
From Coq Require Import ZArith List String Bool Lia ZifyBool ZifyNat Permutation.
From Verif Require Import Base F32 Messages Command Track Song Paths Manifest Midi Json Cli SpecSong SpecMidi SpecVoices SpecVoice SpecRom SpecBank SpecJson Run SpecRun SpecCommand SpecSuccess SpecSafe SpecEach
  SpecRendered SpecConsole SpecRendered SpecFinished ProofLib SongProofs JsonProofs RomLib RomBanks RomExamples RomFinal MidiExamples ConsoleProofs CommandExamples SuccessExamples EachExamples RunProofs.
From Verif Require Rom.
Import ListNotations.
Open Scope Z_scope.
Open Scope list_scope.

(** Base blocks of 294 bytes: the song in slot 10 of the first bank starts in the base block and its first track, which calls
    a loop, goes to the overflow block. *)
Definition tight_rom : list Z := ex_pointer 40 ++ ex_pointer 536 ++ ex_pointer 1032 ++ [1; 1; 1; 1] ++ ex_chain 294 184 ++ ex_chain 294 184 ++ ex_chain 294 184.
Definition tight_layout (addr start : Z) : layout :=
  mk_layout addr [mk_tblock start 2 0x3000] (mk_tblock (start + 6) 294 0xd000) (mk_tblock (start + 304) 184 0xe000) [mk_tblock (start + 492) 0 0x800].
Definition tight_layouts : list layout := [tight_layout 0x8000 40; tight_layout 0x800c 536; tight_layout 0x8018 1032].
Definition tight_tools : tools := mk_tools (fun _ => ([], false)) (fun _ => Some (song_to_json ex_song)) (fun _ => []).
Definition tight_files : files := store (store (fun _ => None) "a.json"%string [123]) "rom.sfc"%string tight_rom.
Definition tight_line : cmdline := CFileSelect "a.json" "rom.sfc" (Some ["8000"; "800c"; "8018"]%string).
Definition tight_manifest : manifest := manifest_file_select "a.json"%string.
Definition tight_out : list Z := Eval vm_compute in
  match Rom.write_banks Debug false tight_manifest 0 0 tight_rom (map lo_addr tight_layouts) ex_conv with Ok r => r | _ => [] end.

Lemma tight_image : is_image tight_rom. Proof. apply image_dec. vm_compute. reflexivity. Qed.
Lemma tight_chain r addr start : (exists bs t, chain_is r addr bs t /\ (bs ++ [t])%list = lo_blocks (tight_layout addr start)) -> lo_in r (tight_layout addr start).
Proof.
  intros (bs & t & Hc & E). exists bs, t. split; [eapply chain_of_ok; exact Hc|]. split; [exact E|]. cbn [tight_layout lo_base lo_ovf lo_post tb_aram].
  split; [reflexivity|]. repeat constructor; cbn; lia.
Qed.
Lemma tight_layout_in addr start : (addr, start) = (0x8000, 40) \/ (addr, start) = (0x800c, 536) \/ (addr, start) = (0x8018, 1032) ->
  layout_ok tight_rom (tight_layout addr start) /\ lo_in tight_out (tight_layout addr start).
Proof.
  intros H. assert (Hs : size tight_rom = 1528) by (vm_compute; reflexivity).
  split; [|apply tight_chain; destruct H as [[= -> ->]|[[= -> ->]|[= -> ->]]]; eexists; eexists; (split; [vm_compute; reflexivity|reflexivity])].
  constructor.
  - destruct H as [[= -> ->]|[[= -> ->]|[= -> ->]]]; cbn [lo_addr tight_layout]; lia.
  - intros a Ha. unfold pointer_bytes, lo_data, in_payload, payload, payload_end, tight_layout in *. cbn [lo_addr lo_base lo_ovf tb_start tb_len] in *.
    assert (a = lorom24 (addr + 8) \/ a = lorom24 (addr + 4) \/ a = lorom24 addr) as Ha' by exact Ha.
    rewrite Hs. destruct H as [[= -> ->]|[[= -> ->]|[= -> ->]]]; destruct Ha' as [->|[->| ->]];
      match goal with |- context [lorom24 ?x] => let v := eval vm_compute in (lorom24 x) in change (lorom24 x) with v end; lia.
  - apply tight_chain. destruct H as [[= -> ->]|[[= -> ->]|[= -> ->]]]; eexists; eexists; (split; [vm_compute; reflexivity|reflexivity]).
  - cbn [tight_layout lo_base lo_ovf lo_post]. unfold apart. split; repeat (apply Forall_cons; [cbn [tb_aram tb_len]; lia|]); apply Forall_nil.
  - cbn. lia.
  - cbn. lia.
Qed.
Lemma tight_layouts_ok : Forall (layout_ok tight_rom) tight_layouts /\ Forall (lo_in tight_out) tight_layouts.
Proof. split; (apply Forall_cons; [|apply Forall_cons; [|apply Forall_cons; [|apply Forall_nil]]]); apply tight_layout_in; auto. Qed.
Lemma tight_separate : ForallOrdPairs separate tight_layouts.
Proof.
  assert (HF : forall addr start x, lo_frame (tight_layout addr start) x -> pointer_bytes addr x \/ start <= x < start + 496).
  { intros addr start x [H|(b & Hb & Hx)]; [left; exact H|right]. cbn in Hb. unfold payload in Hx. destruct Hb as [<-|[<-|[<-|[<-|[]]]]]; cbn [tb_start] in Hx; lia. }
  assert (HD : forall addr start x, lo_span (tight_layout addr start) x -> start <= x < start + 496).
  { intros addr start x. unfold lo_span, payload, payload_end, tight_layout. cbn [lo_base lo_ovf tb_start tb_len]. lia. }
  assert (H : forall a1 s1 a2 s2, (a1 = 0x8000 \/ a1 = 0x800c \/ a1 = 0x8018) -> (a2 = 0x8000 \/ a2 = 0x800c \/ a2 = 0x8018) -> 40 <= s1 -> s1 + 496 <= s2 ->
     separate (tight_layout a1 s1) (tight_layout a2 s2)).
  { intros a1 s1 a2 s2 H1 H2 H3 H4 x. split; intros Hx; apply HD in Hx; [split; [intros Hd; apply HD in Hd; lia|]|];
      intros Hf; apply HF in Hf; (destruct Hf as [Hf|Hf]; [|lia]); apply ex_pointers in Hf; auto; lia. }
  apply FOP_cons; [apply Forall_cons; [|apply Forall_cons; [|apply Forall_nil]]; apply H; auto; lia|].
  apply FOP_cons; [apply Forall_cons; [|apply Forall_nil]; apply H; auto; lia|].
  apply FOP_cons; [apply Forall_nil|apply FOP_nil].
Qed.
Lemma tight_slots bk sd p : In bk tight_manifest -> In sd (songs bk) -> Manifest.input sd = Some p -> p = "a.json"%string.
Proof.
  intros Hbk Hsd Hp. cbn in Hbk. destruct Hbk as [<-|[<-|[<-|[]]]]; cbn in Hsd;
    repeat (destruct Hsd as [<-|Hsd]; [cbn in Hp; (discriminate || (injection Hp as <-; reflexivity))|]); destruct Hsd.
Qed.
Lemma tight_json : ~ mid_file "a.json"%string.
Proof. intros H. apply extension_mid in H. vm_compute in H. discriminate. Qed.
Lemma tight_conv b order opt tf : converter b (world_of tight_tools tight_files) order opt "a.json"%string tf = Ok ex_song.
Proof. rewrite (proj2 (converter_choice _ _ _ _ _ _) tight_json). vm_compute. reflexivity. Qed.
Lemma tight_typed : Forall (fun bk => Forall (typed_slot tight_tools tight_files) (songs bk)) tight_manifest.
Proof.
  apply Forall_forall. intros bk Hbk. apply Forall_forall. intros sd Hsd p Hp. rewrite (tight_slots bk sd p Hbk Hsd Hp). split; [intros H; destruct (tight_json H)|].
  intros _ s part (content & v & _ & E & Hs) Hpart. injection E as <-.
  assert (Es : from_json (Some (song_to_json ex_song)) = Ok s) by (apply reads_iff; eauto). vm_compute in Es. injection Es as <-. injection Hpart as <-. cbn. lia.
Qed.
Lemma tight_loaded b opt sds ss ls : loaded b (converter b (world_of tight_tools tight_files) id_order opt) sds ss ls ->
  (forall sd p, In sd sds -> Manifest.input sd = Some p -> p = "a.json"%string) ->
  ls = map (fun sd => (loops sd, match Manifest.input sd with Some _ => ex_enc | None => quiet_enc end)) sds.
Proof.
  induction 1 as [|sd s l sds ss ls Hs Hr _ IH]; intros Hin; [reflexivity|]. cbn [map]. f_equal; [|apply IH; intros sd' p H; apply Hin; right; exact H]. f_equal.
  destruct (Manifest.input sd) as [p|] eqn:Ep.
  - rewrite (Hin sd p (or_introl eq_refl) Ep), tight_conv in Hs. injection Hs as <-. apply (encodes_fun ex_song); [apply Hr|apply ex_ready].
  - apply empty_song in Hs. subst s. apply (encodes_fun quiet_song); [apply Hr|apply quiet_ready].
Qed.
Lemma tight_short b opt : short_tracks b (converter b (world_of tight_tools tight_files) id_order opt) tight_manifest tight_layouts.
Proof.
  intros k bk L ss ls Hk HL Hld. apply nth_error_In in Hk, HL. rewrite (tight_loaded _ _ _ _ _ Hld) by (intros; eapply tight_slots; eassumption).
  assert (HO : tb_len (lo_ovf L) = 184) by (cbn in HL; destruct HL as [<-|[<-|[<-|[]]]]; reflexivity).
  assert (HC : forallb (fun d => data_len d <=? 184) ex_enc = true) by (vm_compute; reflexivity).
  apply Forall_forall. intros x Hx. apply in_map_iff in Hx. destruct Hx as (sd & <- & _). cbn [snd]. rewrite HO. destruct (Manifest.input sd).
  - apply Forall_forall. intros d Hd. rewrite forallb_forall in HC. specialize (HC d Hd). lia.
  - repeat constructor; cbn; lia.
Qed.
Lemma tight_moved b opt : ~ moved_tracks_ok b (converter b (world_of tight_tools tight_files) id_order opt) tight_manifest tight_layouts.
Proof.
  intros H.
  assert (Hl : loaded b (converter b (world_of tight_tools tight_files) id_order opt) (songs (nth 0 tight_manifest (mk_bank "" []))) (repeat quiet_song 10 ++ [ex_song] ++ repeat quiet_song 4 ++ [])
    (repeat (false, quiet_enc) 10 ++ [(true, ex_enc)] ++ repeat (false, quiet_enc) 4 ++ [])).
  { cbn [nth tight_manifest manifest_file_select songs]. apply quiet_repeat. apply (loaded_cons _ _ (song_def_default "a.json"%string)); [apply tight_conv|exact ex_ready|].
    change (repeat song_def_empty 4) with (repeat song_def_empty 4 ++ []). apply quiet_repeat. constructor. }
  specialize (H 0%nat _ (tight_layout 0x8000 40) 0xd036 _ _ eq_refl eq_refl eq_refl Hl).
  assert (E : ex_enc = [nth 0 ex_enc ([], []); nth 1 ex_enc ([], []); nth 2 ex_enc ([], [])]) by (vm_compute; reflexivity).
  rewrite E in H. cbn [repeat app songs_stay] in H. repeat (destruct H as [H1 H]; match type of H1 with song_stays _ _ _ true _ => clear H | _ => clear H1 end).
  unfold song_stays in H1. cbn [tracks_stay] in H1. destruct H1 as [[H1|[H1 _]] _]; vm_compute in H1; discriminate.
Qed.
Lemma tight_asked : asked tight_tools tight_files tight_line tight_manifest.
Proof. destruct (select_slots "a.json"%string) as [S1 S2]. split; [exact S1|]. intros bank name sd H. exact (S2 bank name sd H). Qed.
Lemma tight_finished b skip : exists f', finished b tight_tools id_order cmd_os (mk_flags skip false) tight_line "rom.sfc"%string tight_files f' tight_rom tight_manifest tight_layouts /\
  f' "rom.sfc"%string = Some tight_out.
Proof.
  assert (HW : Rom.rom_write b false tight_manifest tight_rom true (map lo_addr tight_layouts) (converter b (world_of tight_tools tight_files) id_order (negb skip)) (Rom.Wrote 4000) = (Ok tt, tight_out))
    by (destruct b, skip; vm_compute; reflexivity).
  exists (store tight_files "rom.sfc"%string tight_out). split; [|apply store_same]. constructor.
  - intros i l. apply Permutation_refl.
  - reflexivity.
  - reflexivity.
  - exact tight_image.
  - exact tight_asked.
  - exact cmd_addresses.
  - exact (proj1 tight_layouts_ok).
  - exact tight_separate.
  - repeat (constructor; [unfold table_in_base; cbn; lia|]). constructor.
  - exact tight_typed.
  - exact (tight_short b (negb skip)).
  - exists 4000%nat. split; [reflexivity|]. apply Nat.leb_le. vm_compute. reflexivity.
  - cbn [run tight_line skip_optimization verbose_flag]. unfold run_one_song.
    replace (read_bank_addrs (Some ["8000"; "800c"; "8018"]%string)) with (Ok (map lo_addr tight_layouts)) by (vm_compute; reflexivity).
    unfold on_rom. change (tight_files "rom.sfc"%string) with (Some tight_rom). cbv iota beta. unfold write_file_select. change (os_open cmd_os "rom.sfc"%string) with true.
    change (os_rom cmd_os) with (Rom.Wrote 4000). change (manifest_file_select "a.json"%string) with tight_manifest. rewrite HW. reflexivity.
Qed.
Lemma tight_elsewhere : reads_elsewhere tight_line "rom.sfc"%string tight_manifest.
Proof. split; [discriminate|]. intros bk sd p H1 H2 H3. rewrite (tight_slots bk sd p H1 H2 H3). discriminate. Qed.
Lemma tight_free : Forall zero_free tight_layouts.
Proof. repeat (constructor; [repeat (constructor; [cbn; lia|]); constructor|]). constructor. Qed.
Lemma tight_slot : in_slot tight_manifest tight_layouts 0 10 (tight_layout 0x8000 40) (song_def_default "a.json"%string).
Proof. eexists. split; [reflexivity|]. split; reflexivity. Qed.
Lemma tight_dummy b : exists d, Rom.fake_image b tight_rom (map lo_addr tight_layouts) = Ok d.
Proof. eexists. destruct b; vm_compute; reflexivity. Qed.

(** GameExamples.v: a song put on the file-select screen of the sample dummy, for C77 and C78. *)
From Coq Require Import ZArith List String Bool Lia ZifyBool ZifyNat Permutation.
From Verif Require Import SpecPath PathProofs.
From Verif Require Import Base F32 Messages Command Track Song Paths Manifest Midi Json Cli SpecSong SpecMidi SpecVoices SpecVoice SpecRom SpecBank SpecJson Run SpecRun SpecCommand SpecSuccess SpecSafe SpecEach
  SpecRendered SpecConsole SpecFinished SpecFit SpecGame ProofLib SongProofs JsonProofs RomLib RomBanks RomExamples RomFinal MidiExamples ConsoleProofs CommandExamples SuccessExamples EachExamples RunProofs
  FinishedExamples FitProofs GameProofs GameBuild CommandProofs.
From Verif Require Rom.
Import ListNotations.
Open Scope Z_scope.
Open Scope list_scope.

Definition game_os : os := mk_os (fun _ => true) (fun _ => true) (Rom.Wrote (Z.to_nat 0x100000)) None.
Definition game_files : files := store (store (fun _ => None) "a.json"%string [123]) "rom.sfc"%string sample_dummy.
Definition game_line : cmdline := CFileSelect "a.json" "rom.sfc" None.

Lemma game_conv b order opt tf : converter b (world_of tight_tools game_files) order opt "a.json"%string tf = Ok ex_song.
Proof.
  rewrite (proj2 (converter_choice _ _ _ _ _ _) tight_json). cbn [world_of json_file]. unfold game_files. rewrite (store_other _ "rom.sfc"%string _ "a.json"%string) by discriminate. rewrite store_same.
  cbn [parse_json tight_tools]. vm_compute. reflexivity.
Qed.
Lemma game_asked : asked tight_tools game_files game_line tight_manifest.
Proof. destruct (select_slots "a.json"%string) as [S1 S2]. split; [exact S1|]. intros bank name sd H. exact (S2 bank name sd H). Qed.
Lemma game_song : holds_song tight_tools game_files "a.json"%string ex_song.
Proof.
  exists [123], (song_to_json ex_song). split; [|split; [reflexivity|]].
  - unfold game_files. rewrite (store_other _ "rom.sfc"%string _ "a.json"%string) by discriminate. apply store_same.
  - assert (E : from_json (Some (song_to_json ex_song)) = Ok ex_song) by (vm_compute; reflexivity). apply reads_iff in E. destruct E as (v & [= <-] & H). exact H.
Qed.
Lemma game_inputs : Forall (fun bk => Forall (good_input tight_tools game_files) (songs bk)) tight_manifest.
Proof.
  apply Forall_forall. intros bk Hbk. apply Forall_forall. intros sd Hsd p Hp. rewrite (tight_slots bk sd p Hbk Hsd Hp). split; [intros H; destruct (tight_json H)|].
  intros _. split; [apply has_name_iff; vm_compute; discriminate|]. exists ex_song, ex_enc. split; [exact game_song|]. split; [exact ex_ready|]. exact ex_closed.
Qed.
Lemma game_converts b opt : all_convert (converter b (world_of tight_tools game_files) id_order opt) tight_manifest.
Proof. intros bk sd p Hbk Hsd Hp. rewrite (tight_slots bk sd p Hbk Hsd Hp). exists ex_song. apply game_conv. Qed.
Lemma game_room L : In L game_layouts -> 0x50c <= tb_len (lo_ovf L).
Proof. intros HL. cbn in HL. destruct HL as [<-|[<-|[<-|[]]]]; cbn; lia. Qed.
Lemma game_short b opt : short_songs (converter b (world_of tight_tools game_files) id_order opt) tight_manifest game_layouts.
Proof.
  intros k bk L sd p s l Hk HL Hsd Hp Hs He. rewrite (tight_slots bk sd p (nth_error_In _ _ Hk) Hsd Hp), game_conv in Hs. injection Hs as <-.
  rewrite (encodes_fun ex_song l ex_enc He (proj1 ex_ready)). pose proof (game_room L (nth_error_In _ _ HL)).
  assert (HC : forallb (fun d => data_len d <=? 184) ex_enc = true) by (vm_compute; reflexivity). rewrite forallb_forall in HC.
  apply Forall_forall. intros d Hd. specialize (HC d Hd). lia.
Qed.
Lemma game_loaded b opt sds ss ls : loaded b (converter b (world_of tight_tools game_files) id_order opt) sds ss ls ->
  (forall sd p, In sd sds -> Manifest.input sd = Some p -> p = "a.json"%string) ->
  ls = map (fun sd => (loops sd, match Manifest.input sd with Some _ => ex_enc | None => quiet_enc end)) sds.
Proof.
  induction 1 as [|sd s l sds ss ls Hs Hr _ IH]; intros Hin; [reflexivity|]. cbn [map]. f_equal; [|apply IH; intros sd' p H; apply Hin; right; exact H]. f_equal.
  destruct (Manifest.input sd) as [p|] eqn:Ep.
  - rewrite (Hin sd p (or_introl eq_refl) Ep), game_conv in Hs. injection Hs as <-. apply (encodes_fun ex_song); [apply Hr|apply ex_ready].
  - apply empty_song in Hs. subst s. apply (encodes_fun quiet_song); [apply Hr|apply quiet_ready].
Qed.
Lemma game_small b opt : small_songs b (converter b (world_of tight_tools game_files) id_order opt) tight_manifest game_layouts.
Proof.
  intros k bk L fa ss ls Hk HL Hf Hld. left. rewrite (game_loaded _ _ _ _ _ Hld) by (intros; eapply tight_slots; [eapply nth_error_In; exact Hk| |]; eassumption).
  unfold base_room. destruct k as [|[|[|k]]]; [| | |destruct k; discriminate]; injection Hk as <-; injection HL as <-; injection Hf as <-;
    match goal with |- total ?x <= _ => let v := eval vm_compute in (total x) in change (total x) with v end; cbn [lo_base game_bank tb_len]; lia.
Qed.
Lemma game_succeeds b skip : fst (run b tight_tools id_order game_os (mk_flags skip false) game_line game_files) = Ok tt.
Proof.
  destruct (command_small b tight_tools id_order game_os (mk_flags skip false) game_line "rom.sfc"%string game_files sample_dummy tight_manifest game_layouts) as [H _].
  - intros i l. apply Permutation_refl.
  - reflexivity.
  - unfold game_files. apply store_same.
  - apply (gr_image _ sample_game).
  - exact game_asked.
  - exact (game_addresses game_line eq_refl).
  - exact (game_all _ sample_game).
  - exact game_clear.
  - exact (proj1 game_table).
  - exact game_inputs.
  - exact (game_converts b (negb skip)).
  - exact (game_short b (negb skip)).
  - reflexivity.
  - exists (Z.to_nat 0x100000). reflexivity.
  - apply H. apply game_small.
Qed.
Lemma game_run b skip : exists f', run b tight_tools id_order game_os (mk_flags skip false) game_line game_files = (Ok tt, f').
Proof. pose proof (game_succeeds b skip) as H. destruct (run b tight_tools id_order game_os (mk_flags skip false) game_line game_files) as [res f']. cbn [fst] in H. subst res. eauto. Qed.
Lemma game_json s : holds_song tight_tools game_files "a.json"%string s -> s = ex_song.
Proof.
  intros (content & v & _ & E & Hs). injection E as <-. assert (Es : from_json (Some (song_to_json ex_song)) = Ok s) by (apply reads_iff; eauto). vm_compute in Es. injection Es as <-. reflexivity.
Qed.
Lemma game_part part : nth_error (parts ex_song) 0 = Some part -> (length part <= 8)%nat.
Proof. intros H. injection H as <-. cbn. lia. Qed.
Lemma game_typed : Forall (fun bk => Forall (typed_slot tight_tools game_files) (songs bk)) tight_manifest.
Proof.
  apply Forall_forall. intros bk Hbk. apply Forall_forall. intros sd Hsd p Hp. rewrite (tight_slots bk sd p Hbk Hsd Hp). split; [intros H; destruct (tight_json H)|].
  intros _ s part Hs Hpart. rewrite (game_json s Hs) in Hpart. exact (game_part part Hpart).
Qed.
Lemma game_readable : Forall (fun bk => Forall (readable_slot tight_tools game_files) (songs bk)) tight_manifest.
Proof.
  apply Forall_forall. intros bk Hbk. apply Forall_forall. intros sd Hsd p Hp. rewrite (tight_slots bk sd p Hbk Hsd Hp). split; [intros H; destruct (tight_json H)|].
  intros _ s part Hs Hpart. rewrite (game_json s Hs) in Hpart. exact (game_part part Hpart).
Qed.
Lemma game_short_tracks b opt : short_tracks b (converter b (world_of tight_tools game_files) id_order opt) tight_manifest game_layouts.
Proof.
  intros k bk L ss ls Hk HL Hld. apply nth_error_In in Hk, HL. rewrite (game_loaded _ _ _ _ _ Hld) by (intros; eapply tight_slots; eassumption).
  pose proof (game_room L HL). assert (HC : forallb (fun d => data_len d <=? 184) ex_enc = true) by (vm_compute; reflexivity).
  apply Forall_forall. intros x Hx. apply in_map_iff in Hx. destruct Hx as (sd & <- & _). cbn [snd]. destruct (Manifest.input sd).
  - apply Forall_forall. intros d Hd. rewrite forallb_forall in HC. specialize (HC d Hd). lia.
  - repeat constructor; cbn; lia.
Qed.
(** If all songs fit into the base block, no track is moved. *)
Lemma tracks_unmoved base ovf l : forall p, payload base <= p -> p + total (map data_len l) <= payload_end base -> tracks_stay base ovf p l /\ tracks_end base ovf p l = p + total (map data_len l).
Proof.
  induction l as [|d l IH]; intros p Hp H; [unfold total; cbn; split; [exact I|lia]|]. cbn [map] in H. change (total (data_len d :: map data_len l)) with (data_len d + total (map data_len l)) in H.
  assert (H0 : 0 <= data_len d) by (unfold data_len; lia).
  assert (H1 : 0 <= total (map data_len l)) by (clear; unfold total; induction l as [|x l IH]; cbn; [lia|]; unfold data_len at 1; lia).
  cbn [tracks_stay tracks_end]. rewrite RomProofs.place_base by lia. destruct (IH (p + data_len d)) as [A B]; [lia|lia|]. split; [split; [left; reflexivity|exact A]|].
  rewrite B. cbn [map]. change (total (data_len d :: map data_len l)) with (data_len d + total (map data_len l)). lia.
Qed.
Lemma songs_unmoved base ovf ls : forall p, payload base <= p -> p + total (pieces ls) <= payload_end base -> songs_stay base ovf p ls.
Proof.
  induction ls as [|[lp l] ls IH]; intros p Hp H; [exact I|]. unfold pieces in H. cbn [flat_map] in H. rewrite total_app in H. fold (pieces ls) in H.
  change (total (song_pieces (lp, l))) with (header_size lp + 16 + total (map data_len l)) in H.
  assert (H0 : 0 <= total (pieces ls)) by (pose proof (pieces_nonneg ls) as HN; revert HN; generalize (pieces ls); clear; intros l HN; unfold total; induction HN; cbn; lia).
  assert (H1 : 0 <= total (map data_len l)) by (clear; unfold total; induction l as [|x l IH]; cbn; [lia|]; unfold data_len at 1; lia).
  assert (H2 : 0 <= header_size lp) by (unfold header_size; destruct lp; lia).
  cbn [songs_stay]. unfold song_stays, song_end. rewrite RomProofs.place_base by lia.
  destruct (tracks_unmoved base ovf l (p + (header_size lp + 16))) as [A B]; [lia|lia|]. split; [exact A|]. rewrite B. apply IH; lia.
Qed.
Lemma game_unmoved b opt : moved_tracks_ok b (converter b (world_of tight_tools game_files) id_order opt) tight_manifest game_layouts.
Proof.
  intros k bk L fa ss ls Hk HL Hf Hld. rewrite (game_loaded _ _ _ _ _ Hld) by (intros; eapply tight_slots; [eapply nth_error_In; exact Hk| |]; eassumption).
  apply songs_unmoved; (destruct k as [|[|[|k]]]; [| | |destruct k; discriminate]; injection Hk as <-; injection HL as <-; injection Hf as <-).
  1-3: lia.
  all: match goal with |- context [total ?x] => let v := eval vm_compute in (total x) in change (total x) with v end; unfold payload_end, payload; cbn [lo_base game_bank tb_len tb_start]; lia.
Qed.
Lemma game_elsewhere : reads_elsewhere game_line "rom.sfc"%string tight_manifest.
Proof. split; [discriminate|]. intros bk sd p H1 H2 H3. rewrite (tight_slots bk sd p H1 H2 H3). discriminate. Qed.
Lemma game_write : exists n, os_rom game_os = Rom.Wrote n /\ (length sample_dummy <= n)%nat.
Proof. exists (Z.to_nat 0x100000). split; [reflexivity|]. pose proof (gr_size _ sample_game) as H. unfold size in H. lia. Qed.
Lemma game_new old : game_files "out.sfc"%string = Some old -> (length old <= length sample_dummy)%nat.
Proof.
  unfold game_files. rewrite (store_other _ "rom.sfc"%string _ "out.sfc"%string) by discriminate. rewrite (store_other _ "a.json"%string _ "out.sfc"%string) by discriminate. discriminate.
Qed.

(** The same song in every slot of the first bank is too much for the blocks of [tight_rom]. *)
Definition full_line : cmdline := CAllOverworld "a.json" "rom.sfc" (Some ["8000"; "800c"; "8018"]%string).
Definition full_manifest : manifest := manifest_single_song "a.json"%string.
Lemma full_asked : asked tight_tools tight_files full_line full_manifest.
Proof.
  destruct (single_slots "a.json"%string) as [S1 S2]. split; [exact S1|]. intros bank name sd Hs. apply S2 in Hs. destruct sd as [i tf lp]. cbn in Hs. cbn [wanted full_line]. destruct Hs as (-> & -> & ->). reflexivity.
Qed.
Lemma full_slots bk sd p : In bk full_manifest -> In sd (songs bk) -> Manifest.input sd = Some p -> p = "a.json"%string.
Proof.
  intros Hbk Hsd Hp. cbn in Hbk. destruct Hbk as [<-|[<-|[<-|[]]]]; cbn in Hsd;
    repeat (destruct Hsd as [<-|Hsd]; [cbn in Hp; (discriminate || (injection Hp as <-; reflexivity))|]); destruct Hsd.
Qed.
Lemma full_inputs : Forall (fun bk => Forall (good_input tight_tools tight_files) (songs bk)) full_manifest.
Proof.
  apply Forall_forall. intros bk Hbk. apply Forall_forall. intros sd Hsd p Hp. rewrite (full_slots bk sd p Hbk Hsd Hp). split; [intros H; destruct (tight_json H)|].
  intros _. split; [apply has_name_iff; vm_compute; discriminate|]. exists ex_song, ex_enc. split; [|split; [exact ex_ready|exact ex_closed]].
  exists [123], (song_to_json ex_song). split; [reflexivity|]. split; [reflexivity|].
  assert (E : from_json (Some (song_to_json ex_song)) = Ok ex_song) by (vm_compute; reflexivity). apply reads_iff in E. destruct E as (v & [= <-] & H). exact H.
Qed.
Lemma full_converts b opt : all_convert (converter b (world_of tight_tools tight_files) id_order opt) full_manifest.
Proof. intros bk sd p Hbk Hsd Hp. rewrite (full_slots bk sd p Hbk Hsd Hp). exists ex_song. apply tight_conv. Qed.
Lemma full_short b opt : short_songs (converter b (world_of tight_tools tight_files) id_order opt) full_manifest tight_layouts.
Proof.
  intros k bk L sd p s l Hk HL Hsd Hp Hs He. rewrite (full_slots bk sd p (nth_error_In _ _ Hk) Hsd Hp), tight_conv in Hs. injection Hs as <-.
  rewrite (encodes_fun ex_song l ex_enc He (proj1 ex_ready)). apply nth_error_In in HL.
  assert (HO : tb_len (lo_ovf L) = 184) by (cbn in HL; destruct HL as [<-|[<-|[<-|[]]]]; reflexivity). rewrite HO.
  assert (HC : forallb (fun d => data_len d <=? 184) ex_enc = true) by (vm_compute; reflexivity). rewrite forallb_forall in HC.
  apply Forall_forall. intros d Hd. specialize (HC d Hd). lia.
Qed.
Lemma full_loaded b opt : exists ss ls, loaded b (converter b (world_of tight_tools tight_files) id_order opt) (songs (nth 0 full_manifest (mk_bank "" []))) ss ls /\ 424 < total (pieces ls).
Proof.
  assert (K : forall n, exists ss, loaded b (converter b (world_of tight_tools tight_files) id_order opt) (repeat (song_def_default "a.json"%string) n) ss (repeat (true, ex_enc) n)).
  { induction n as [|n [ss IH]]; [exists []; constructor|]. exists (ex_song :: ss). cbn [repeat]. apply (loaded_cons _ _ (song_def_default "a.json"%string)); [apply tight_conv|exact ex_ready|exact IH]. }
  destruct (K (length OVERWORLD_SONGS)) as [ss H]. exists ss, (repeat (true, ex_enc) (length OVERWORLD_SONGS)). split; [exact H|].
  match goal with |- _ < total ?x => let v := eval vm_compute in (total x) in change (total x) with v end. lia.
Qed.
Lemma full_large b opt : large_songs b (converter b (world_of tight_tools tight_files) id_order opt) full_manifest tight_layouts.
Proof.
  destruct (full_loaded b opt) as (ss & ls & H & HL). exists 0%nat, (nth 0 full_manifest (mk_bank "" [])), (tight_layout 0x8000 40), 0xd036, ss, ls.
  split; [reflexivity|]. split; [reflexivity|]. split; [reflexivity|]. split; [exact H|]. unfold base_room. cbn [lo_base lo_ovf tight_layout tb_len]. lia.
Qed.
Lemma tight_clear : ForallOrdPairs clear_of tight_layouts.
Proof.
  pose proof tight_separate as H. revert H. generalize tight_layouts. induction 1 as [|L l HF HO IH]; constructor; [|exact IH].
  rewrite Forall_forall in *. intros L' HL' x Hx. destruct (HF L' HL' x) as [A _]. exact (proj2 (A Hx)).
Qed.
Lemma tight_table : Forall table_in_base tight_layouts.
Proof. repeat (apply Forall_cons; [unfold table_in_base; cbn; lia|]). apply Forall_nil. Qed.

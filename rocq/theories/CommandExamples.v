(** CommandExamples.v: concrete runs for C70. *)
From Coq Require Import ZArith List String Ascii Bool Lia ZifyBool ZifyNat.
From Verif Require Import SpecPath PathProofs.
From Verif Require Import Base ProofLib F32 Messages Command Track SeqTree Song Paths Manifest Midi Json Cli SpecSong SpecMidi SpecNotes SpecFile SpecVoices SpecVoice SpecLoop SpecRom SpecBank SpecAram SpecPlayback
  SpecConsole SpecJson SpecSame.
From Verif Require Rom.
From Verif Require Import Run SpecRun SpecCommand SongProofs SongMore RunProofs LoopExamples RomLib RomBanks RomExamples RomFinal MidiExamples FileExamples ConsoleProofs JsonProofs SameExamples ShiftExamples.
Import ListNotations.
Open Scope Z_scope.
Open Scope list_scope.

(** File select with a MIDI file. *)
Definition cmd_tools : tools := mk_tools (fun _ => (good_file, true)) (fun _ => None) (fun _ => []).
Definition cmd_files : files := store (store (fun _ => None) "a.mid"%string [77; 84]) "rom.sfc"%string big_rom.
Definition cmd_os : os := mk_os (fun _ => true) (fun _ => true) (Rom.Wrote 4000) None.
Definition cmd_line : cmdline := CFileSelect "a.mid" "rom.sfc" (Some ["8000"; "800c"; "8018"]%string).
Definition cmd_tracks : list track := Eval vm_compute in
  match song_from_midi_file Debug (world_of cmd_tools cmd_files) id_order false "a.mid"%string DEFAULT_TEMPO_ADJUST with Ok s => tracks s | _ => [] end.
Definition cmd_song : song := mk_song [[0; 1; 2]%nat] cmd_tracks.
Lemma cmd_converts b opt : song_from_midi_file b (world_of cmd_tools cmd_files) id_order opt "a.mid"%string DEFAULT_TEMPO_ADJUST = Ok cmd_song.
Proof. destruct b, opt; vm_compute; reflexivity. Qed.
Definition cmd_enc : list (list Z * list call_loop_ref) := Eval vm_compute in written cmd_song.
Lemma cmd_ready : song_ready cmd_song cmd_enc.
Proof.
  split; [|split].
  - split; [reflexivity|]. intros i d H. destruct i as [|[|[|i]]]; cbn [nth_error cmd_enc] in H;
      try (injection H as <-; vm_compute; reflexivity). destruct i; discriminate.
  - intros part H. cbn [cmd_song parts nth_error] in H. injection H as <-. cbn. lia.
  - repeat (constructor; [apply image_dec; vm_compute; reflexivity|]). constructor.
Qed.
Definition cmd_manifest : manifest := manifest_file_select "a.mid"%string.
Definition cmd_songs : list (list song) := [repeat quiet_song 10 ++ [cmd_song] ++ repeat quiet_song 4 ++ []; repeat quiet_song 16 ++ []; repeat quiet_song 3 ++ []].
Lemma cmd_fit b opt : banks_fit b (converter b (world_of cmd_tools cmd_files) id_order opt) 0 0 cmd_manifest big_layouts cmd_songs.
Proof.
  eapply (banks_fit_cons _ _ _ _ 0xd036 _ _ _ (repeat (false, quiet_enc) 10 ++ [(true, cmd_enc)] ++ repeat (false, quiet_enc) 4 ++ [])); [reflexivity| |].
  - constructor; [|cbn; lia|cbn; lia|apply songs_stayb_ok; vm_compute; reflexivity]. cbn [songs].
    apply quiet_repeat. apply (loaded_cons _ _ (song_def_default "a.mid"%string)); [exact (cmd_converts b opt)|exact cmd_ready|].
    change (repeat song_def_empty 4) with (repeat song_def_empty 4 ++ []). apply quiet_repeat. constructor.
  - eapply (banks_fit_cons _ _ _ _ 0xd046 _ _ _ (repeat (false, quiet_enc) 16 ++ [])); [reflexivity| |].
    + constructor; [|cbn; lia|cbn; lia|apply songs_stayb_ok; vm_compute; reflexivity]. cbn [songs].
      change (repeat song_def_empty 16) with (repeat song_def_empty 16 ++ []). apply quiet_repeat. constructor.
    + eapply (banks_fit_cons _ _ _ _ 0xd046 _ _ _ (repeat (false, quiet_enc) 3 ++ [])); [reflexivity| |].
      * constructor; [|cbn; lia|cbn; lia|apply songs_stayb_ok; vm_compute; reflexivity]. cbn [songs].
        change (repeat song_def_empty 3) with (repeat song_def_empty 3 ++ []). apply quiet_repeat. constructor.
      * constructor.
Qed.
Lemma cmd_asked : asked cmd_tools cmd_files cmd_line cmd_manifest.
Proof. destruct (select_slots "a.mid"%string) as [S1 S2]. split; [exact S1|]. intros bank name sd H. exact (S2 bank name sd H). Qed.
Lemma cmd_addresses : addresses cmd_line (map lo_addr big_layouts).
Proof.
  split; [reflexivity|]. assert (H : forall s n, from_str_radix_16 s = Some n -> hex_number s n /\ n < 2 ^ 32) by (intros; now apply radix_ok).
  repeat (constructor; [apply H; vm_compute; reflexivity|]). constructor.
Qed.
Lemma cmd_run b skip : exists f', run b cmd_tools id_order cmd_os (mk_flags skip false) cmd_line cmd_files = (Ok tt, f').
Proof.
  assert (HW : exists r', Rom.rom_write b false cmd_manifest big_rom true (map lo_addr big_layouts) (converter b (world_of cmd_tools cmd_files) id_order (negb skip)) (Rom.Wrote 4000) = (Ok tt, r')).
  { eexists. destruct b, skip; vm_compute; reflexivity. }
  destruct HW as [r' HW]. eexists. cbn [run cmd_line skip_optimization verbose_flag]. unfold run_one_song.
  replace (read_bank_addrs (Some ["8000"; "800c"; "8018"]%string)) with (Ok (map lo_addr big_layouts)) by (vm_compute; reflexivity).
  unfold on_rom. change (cmd_files "rom.sfc"%string) with (Some big_rom). cbv iota beta. unfold write_file_select. change (os_open cmd_os "rom.sfc"%string) with true.
  change (os_rom cmd_os) with (Rom.Wrote 4000). change (manifest_file_select "a.mid"%string) with cmd_manifest. rewrite HW. reflexivity.
Qed.
Lemma cmd_free : Forall zero_free big_layouts.
Proof. repeat (constructor; [repeat (constructor; [cbn; lia|]); constructor|]). constructor. Qed.
Lemma cmd_good b opt : good_midi b (world_of cmd_tools cmd_files) id_order opt "a.mid"%string DEFAULT_TEMPO_ADJUST good_file.
Proof.
  split; [reflexivity|]. split; [exact good_typed|]. split; [exact good_renderable|]. exists cmd_song. split; [exact (cmd_converts b false)|].
  split.
  - assert (H : forallb (forallb (fun pc => match duration pc with Some d => (0 <=? d) && (d <=? 127) | None => true end)) cmd_tracks = true) by (vm_compute; reflexivity).
    apply Forall_forall. intros tr Htr. rewrite forallb_forall in H. specialize (H tr Htr). rewrite forallb_forall in H.
    apply Forall_forall. intros pc Hpc. specialize (H pc Hpc). unfold SpecNspc.in_range. destruct (duration pc); [lia|exact I].
  - intros _ s E. rewrite cmd_converts in E. injection E as <-. apply keeps_b_ok. vm_compute. reflexivity.
Qed.

(** A manifest file in a directory. *)
Definition man_tools : tools := mk_tools (fun _ => ([], false)) (fun _ => Some sample_manifest) (fun _ => []).
Definition man_files : files := store (fun _ => None) "/music/songs.json"%string [123].
Lemma man_asked : exists m sd, asked man_tools man_files (CBuildRom "/music/songs.json" "rom.sfc" None) m /\ slot_is m "indoor" "Boss" sd /\ Manifest.input sd = Some "/music/b.mid"%string.
Proof.
  destruct sample_manifest_read as (m & sd & H1 & H2 & H3 & _). exists m, sd. split; [|auto]. destruct (manifest_slots _ _ _ H1) as [S1 S2]. split; [exact S1|].
  intros bank name sd' Hs. exists [123], sample_manifest, "/music"%string. split; [reflexivity|]. split; [reflexivity|]. split; [|auto].
  assert (HP : forall x, forallb (fun c => negb (Ascii.eqb c "/")) (list_ascii_of_string x) = true -> no_slash x).
  { intros x Hx a b E. subst x. rewrite forallb_forall in Hx. specialize (Hx "/"%char). assert (In "/"%char (list_ascii_of_string (a ++ "/" ++ b))).
    { clear. induction a as [|c a IH]; [left; reflexivity|right; exact IH]. }
    specialize (Hx H). discriminate. }
  exists "songs.json"%string. split; [split; [apply HP; reflexivity|split; discriminate]|]. right. right. split; [reflexivity|].
  exists "music"%string. split; [split; [apply HP; reflexivity|split; discriminate]|]. right. exists ""%string. reflexivity.
Qed.

(** An export with and without calls: a figure of six notes, three times, with other notes between. *)
Definition tune_link (n : Z) : list callback := [midi 0 (NoteOn 0 n 90); midi 24 (NoteOff 0 n 0)].
Definition call_file : list callback :=
  [CHeader 1 1 24; CTrackChange] ++ figure 60 ++ figure 65 ++ tune_link 50 ++ figure 60 ++ figure 65 ++ tune_link 52 ++ figure 60 ++ figure 65 ++ tune_link 53.
Lemma call_accepted : accepted call_file.
Proof. easy_file. Qed.
Definition tune_song_of (opt : bool) : song :=
  match song_from_midi_file Debug (same_world call_file) id_order opt "a.mid"%string DEFAULT_TEMPO_ADJUST with Ok s => s | _ => mk_song [] [] end.
Definition tune_flat : song := Eval vm_compute in tune_song_of false.
Definition tune_calls : song := Eval vm_compute in tune_song_of true.
Definition tune_tools : tools :=
  mk_tools (fun _ => (call_file, true))
    (fun c => match c with [n] => Some (song_to_json (if n =? Z.of_nat (List.length (tracks tune_flat)) then tune_flat else tune_calls)) | _ => None end)
    (fun v => match v with JObj [_; (_, JArr l)] => [Z.of_nat (List.length l)] | _ => [] end).
Definition tune_files : files := store (fun _ => None) "a.mid"%string [77; 84].
Lemma tune_both b opt : song_from_midi_file b (world_of tune_tools tune_files) id_order opt "a.mid"%string DEFAULT_TEMPO_ADJUST = Ok (if opt then tune_calls else tune_flat).
Proof. destruct b, opt; vm_compute; reflexivity. Qed.
Lemma tune_readable : readable_midi tune_tools tune_files "a.mid"%string.
Proof.
  destruct call_accepted as (H1 & H2 & H3). exists [77; 84], call_file, true. split; [reflexivity|]. split; [reflexivity|]. split; [assumption|]. split; [assumption|].
  assert (H : forallb (forallb (fun m => match m with
      | MidiEvent _ (NoteOn _ k v) | MidiEvent _ (NoteOff _ k v) => (0 <=? k) && (k <? 128) && (0 <=? v) && (v <? 128)
      | MidiEvent _ (ControlChange _ c v) => (0 <=? c) && (c <? 128) && (0 <=? v) && (v <? 128)
      | MidiEvent _ (ProgramChange _ p) => (0 <=? p) && (p <? 128)
      | MetaEvent _ SetTempo data => Nat.leb 3 (List.length data)
      | _ => true end)) (tracks_of call_file) = true) by (vm_compute; reflexivity).
  apply Forall_forall. intros tr Htr. rewrite forallb_forall in H. specialize (H tr Htr). rewrite forallb_forall in H.
  apply Forall_forall. intros m Hm. specialize (H m Hm). destruct m as [d0 ev data|d0 ev| |]; try exact I; (destruct ev; try exact I; unfold midi_valid; lia).
Qed.
Lemma tune_kept b opt s : song_from_midi_file b (world_of tune_tools tune_files) id_order opt "a.mid"%string DEFAULT_TEMPO_ADJUST = Ok s -> text_kept tune_tools s.
Proof. rewrite tune_both. intros H. injection H as <-. destruct opt; (split; [vm_compute; reflexivity|vm_compute; reflexivity]). Qed.
Lemma tune_runs b skip : exists f', run b tune_tools id_order cmd_os (mk_flags skip false) (CMidi2Json "a.mid" "b.json") tune_files = (Ok tt, f').
Proof. cbn [run skip_optimization]. unfold run_midi2json, midi2json. rewrite tune_both. cbn [bind]. eexists. reflexivity. Qed.
Lemma tune_called : (0 < calls tune_calls)%nat.
Proof. vm_compute. lia. Qed.
Lemma tune_varied : fresh_repeats (tracks tune_flat).
Proof.
  apply varied_ok. vm_compute. reflexivity.
Qed.

(** A dummy of a ROM with the game's pointers. *)
Definition mini_rom : list Z :=
  repeat 7 2324 ++ ex_pointer 2366 ++ repeat 1 6 ++ ex_pointer 2414 ++ ex_pointer 2462 ++ ex_chain 20 10 ++ ex_chain 20 10 ++ ex_chain 20 10.
Definition mini_files : files := store (fun _ => None) "rom.sfc"%string mini_rom.
Lemma mini_image : is_image mini_rom.
Proof. apply image_dec. vm_compute. reflexivity. Qed.
Lemma mini_dummy : exists d f', run Debug cmd_tools id_order cmd_os (mk_flags false false) (CGenFakeRom "rom.sfc" "out.sfc") mini_files = (Ok tt, f') /\ f' "out.sfc"%string = Some d /\
  byte mini_rom 2380 <> 0 /\ byte d 2380 = 0 /\ byte d 2366 = byte mini_rom 2366 /\ byte mini_rom 2366 <> 0.
Proof.
  assert (H : exists d, Rom.fake_image Debug mini_rom Rom.DEFAULT_BANK_BASE_ADDRS = Ok d /\ List.length d = List.length mini_rom /\ byte mini_rom 2380 <> 0 /\ byte d 2380 = 0 /\ byte d 2366 = byte mini_rom 2366 /\ byte mini_rom 2366 <> 0).
  { eexists. split; [vm_compute; reflexivity|]. split; [reflexivity|]. repeat split; vm_compute; congruence. }
  destruct H as (d & Hd & HL & H). exists d. eexists. cbn [run]. unfold run_gen_fake_rom. change (mini_files "rom.sfc"%string) with (Some mini_rom). cbv iota beta. rewrite Hd.
  unfold Rom.gen_fake_rom. rewrite Hd. change (os_create cmd_os "out.sfc"%string) with true. change (os_rom cmd_os) with (Rom.Wrote 4000). cbv iota beta.
  split; [reflexivity|]. split; [|exact H]. unfold store. cbn [String.eqb Ascii.eqb Bool.eqb]. change (mini_files "out.sfc"%string) with (@None (list Z)). cbv iota beta.
  unfold Rom.file_overwrite. rewrite firstn_all2 by (rewrite HL; vm_compute; lia). destruct (List.length d); cbn [skipn]; now rewrite app_nil_r.
Qed.

(** RenderExamples.v: concrete cases for C73 and C74. *)
From Coq Require Import ZArith List String Bool Lia ZifyBool ZifyNat.
From Verif Require Import Base ProofLib F32 Messages Command Track SeqTree Song Paths Manifest Midi Json Cli SpecMidi SpecNotes SpecVoices SpecVoice SpecNspc
  SpecLoop SpecRom SpecBank SpecAram SpecSong SpecPlayback SpecFile SpecControl SpecGate SpecHeard SpecVolume SpecConsole SpecScore SpecJson Run SpecRun SpecCommand SpecSuccess SpecRendered
  MidiExamples LoopExamples AramMore FileExamples FileHeard SettingProofs SettingExamples ScoreExamples RomExamples RomLib RomBanks RomFinal ConsoleProofs CommandExamples SuccessExamples.
From Verif Require Rom.
Import ListNotations.
Open Scope Z_scope.
Open Scope list_scope.

(** ** A figure three times in a row, another note, and the figure again; the second half with another program. *)
Definition riff_note (n : Z) : list callback := [midi 0 (NoteOn 0 n 100); midi 24 (NoteOff 0 n 0)].
Definition riff : list callback := riff_note 60 ++ riff_note 64 ++ riff_note 67 ++ riff_note 64.
Definition riff_file : list callback :=
  [CHeader 1 1 24; CTrackChange; CMeta 0 SetTempo [7; 161; 32]; midi 0 (ProgramChange 0 40)] ++ riff ++ riff ++ riff ++ riff_note 50 ++ [midi 0 (ProgramChange 0 56)] ++ riff ++ riff_note 52.
Definition riff_world : world := mk_world (fun _ => (riff_file, true)) (fun _ => None).
Definition riff_of (opt : bool) : song :=
  match song_from_midi_file Debug riff_world id_order opt "song.mid"%string f32_0_3 with Ok s => s | _ => mk_song [] [] end.
Definition riff_flat : song := Eval vm_compute in riff_of false.
Definition riff_song : song := Eval vm_compute in riff_of true.
Definition riff_at : list Z := Eval vm_compute in FileExamples.place 0xd000 riff_song.
Definition riff_bytes : list Z := Eval vm_compute in image_of 0xd000 riff_song.
Definition riff_mem : Z -> option Z := mem_of 0xd000 riff_bytes.
Definition riff_plays : list (list event) := Eval vm_compute in match played 100 riff_mem 0xd000 with Some ess => ess | None => [] end.
Lemma riff_typed : Forall callback_typed riff_file.
Proof. repeat constructor; cbn; lia. Qed.
Lemma riff_renderable : renderable (beat_ticks riff_file) (tracks_of riff_file).
Proof. apply renderable_b_ok. vm_compute. reflexivity. Qed.
Lemma riff_converts b opt : song_from_midi_file b riff_world id_order opt "song.mid"%string f32_0_3 = Ok (if opt then riff_song else riff_flat).
Proof. destruct b, opt; vm_compute; reflexivity. Qed.
Lemma riff_short : Forall seven_bit (tracks riff_flat).
Proof.
  assert (H : forallb (forallb (fun pc => match duration pc with Some d => (0 <=? d) && (d <=? 127) | None => true end)) (tracks riff_flat) = true) by (vm_compute; reflexivity).
  apply Forall_forall. intros tr Htr. rewrite forallb_forall in H. specialize (H tr Htr). rewrite forallb_forall in H.
  apply Forall_forall. intros pc Hpc. specialize (H pc Hpc). unfold in_range. destruct (duration pc); [lia|exact I].
Qed.
Lemma riff_fresh : keeps_music (tracks riff_flat) (tracks riff_song).
Proof. apply keeps_b_ok. vm_compute. reflexivity. Qed.
Lemma riff_in : song_in riff_mem 0xd000 false riff_song riff_at.
Proof. apply song_b_ok. vm_compute. reflexivity. Qed.
Lemma riff_heard : song_plays riff_mem 0xd000 riff_plays.
Proof. apply (played_ok 100). vm_compute. reflexivity. Qed.
Lemma riff_loud b : loud_file b riff_world id_order true "song.mid"%string f32_0_3 riff_file.
Proof.
  split.
  - intros notes n H Hn. rewrite (file_notes_is _ _ H) in Hn.
    assert (E : forallb (fun n => 8 <=? nt_vel n) (notes_in (tracks_of riff_file)) = true) by (vm_compute; reflexivity).
    rewrite forallb_forall in E. specialize (E n Hn). lia.
  - intros _ s Hs. rewrite (riff_converts b true) in Hs. injection Hs as <-. apply Forall_forall. intros tr Hin.
    apply (one_byte_safe _ _ 124); [repeat (constructor; [cbn; auto|]); constructor|].
    cbn in Hin. destruct Hin as [<-|[<-|[]]]; repeat (constructor; [cbn; auto|]); constructor.
Qed.

(** ** The build of C72. *)
Lemma cmd_built b skip : exists f', built b cmd_tools id_order cmd_os (mk_flags skip false) cmd_line "rom.sfc"%string cmd_files f' big_rom cmd_manifest big_layouts.
Proof.
  destruct (cmd_run b skip) as [f' Hf]. exists f'. constructor.
  - intros i l. apply Permutation.Permutation_refl.
  - reflexivity.
  - reflexivity.
  - exact big_image.
  - exact cmd_asked.
  - exact cmd_addresses.
  - exact big_layouts_ok.
  - exact big_independent.
  - exact cmd_table.
  - exact cmd_readable.
  - exact (cmd_moved b (negb skip)).
  - exists 4000%nat. split; [reflexivity|]. apply Nat.leb_le. vm_compute. reflexivity.
  - exact Hf.
Qed.
Lemma cmd_slot : in_slot cmd_manifest big_layouts 0 10 (nth 0 big_layouts (mk_layout 0 [] (mk_tblock 0 0 0) (mk_tblock 0 0 0) [])) (song_def_default "a.mid"%string).
Proof. eexists. split; [reflexivity|]. split; reflexivity. Qed.
Lemma cmd_elsewhere : reads_elsewhere cmd_line "rom.sfc"%string cmd_manifest.
Proof. split; [discriminate|]. intros bk sd p H1 H2 H3. rewrite (cmd_slots bk sd p H1 H2 H3). discriminate. Qed.
Lemma cmd_loud b opt : loud_file b (world_of cmd_tools cmd_files) id_order opt "a.mid"%string DEFAULT_TEMPO_ADJUST good_file.
Proof.
  split; [exact good_loud|]. intros _ s Hs. rewrite (cmd_converts b opt) in Hs. injection Hs as <-. apply Forall_forall. intros tr Htr. apply HeardProofs.free_safe.
  assert (E : forallb (forallb (fun pc => match cmd pc with CallLoop _ _ => false | _ => true end)) cmd_tracks = true) by (vm_compute; reflexivity).
  rewrite forallb_forall in E. specialize (E tr Htr). rewrite forallb_forall in E.
  apply Forall_forall. intros pc Hpc t k Ec. specialize (E pc Hpc). rewrite Ec in E. discriminate.
Qed.

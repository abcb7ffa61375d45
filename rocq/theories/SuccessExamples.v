(** SuccessExamples.v: the hypotheses of C72 follow from those of C70, and a concrete run. *)
From Coq Require Import ZArith List String Bool Lia ZifyBool ZifyNat.
From Verif Require Import Base F32 Messages Command Track Song Paths Manifest Midi Cli SpecSong SpecMidi SpecNotes SpecVoice SpecVoices SpecLoop SpecRom SpecBank Run SpecRun SpecCommand SpecSuccess
  ProofLib SongProofs RomLib RomBanks RomExamples RomFinal MidiExamples FileExamples ConsoleProofs CommandExamples RomSuccess.
Import ListNotations.
Open Scope Z_scope.
Open Scope list_scope.

(** ** The songs of a bank are determined. *)
Lemma encodes_fun s l l' : encodes s l -> encodes s l' -> l = l'.
Proof.
  intros [L1 H1] [L2 H2]. apply nth_error_ext. intros i.
  destruct (nth_error l i) as [d|] eqn:E.
  - assert (Hi : (i < length l')%nat) by (apply nth_error_Some_lt in E || (assert (nth_error l i <> None) by congruence; apply nth_error_Some in H); lia).
    destruct (nth_error l' i) as [d'|] eqn:E'; [|apply nth_error_None in E'; lia]. apply H1 in E. apply H2 in E'. congruence.
  - apply nth_error_None in E. symmetry. apply nth_error_None. lia.
Qed.
Lemma loaded_fun b conv sds ss ls : loaded b conv sds ss ls -> forall ss' ls', loaded b conv sds ss' ls' -> ls = ls'.
Proof.
  induction 1 as [|sd s l sds ss ls Hs Hr _ IH]; intros ss' ls' H'; inversion H' as [|? s' l' ? ss2 ls2 Hs' Hr' H2]; subst; [reflexivity|].
  assert (s = s') by (destruct (Manifest.input sd); congruence). subst s'. rewrite (encodes_fun s l l' (proj1 Hr) (proj1 Hr')). f_equal. eapply IH. exact H2.
Qed.
Lemma fits_moved b conv m Ls sss : banks_fit b conv 0 0 m Ls sss -> moved_tracks_ok b conv m Ls.
Proof.
  assert (K : forall i first m Ls sss, banks_fit b conv i first m Ls sss -> forall k bk L fa ss ls, nth_error m k = Some bk -> nth_error Ls k = Some L -> nth_error first_songs (i + k) = Some fa ->
    loaded b conv (songs bk) ss ls -> songs_stay (lo_base L) (lo_ovf L) (payload (lo_base L) + (fa - 0xd000)) ls).
  { induction 1 as [|i first fa bk L ss ls bks Ls' sss' Hfa Hf _ IH]; intros k bk' L' fa' ss' ls' H1 H2 H3 H4; [destruct k; discriminate|].
    destruct k as [|k]; cbn [nth_error] in *.
    - injection H1 as <-. injection H2 as <-. rewrite Nat.add_0_r in H3. rewrite Hfa in H3. injection H3 as <-. rewrite <- (loaded_fun _ _ _ _ _ (bf_songs _ _ _ _ _ _ _ _ Hf) _ _ H4). apply (bf_stay _ _ _ _ _ _ _ _ Hf).
    - replace (i + S k)%nat with (S i + k)%nat in H3 by lia. eapply IH; eassumption. }
  intros H k bk L fa ss ls. apply (K _ _ _ _ _ H).
Qed.
(** ** Every hypothesis of C70 gives those of C72, apart from the room for the table. *)
Lemma cmd_table : Forall table_in_base big_layouts.
Proof. repeat (constructor; [unfold table_in_base; cbn; lia|]). constructor. Qed.
Lemma cmd_moved b opt : moved_tracks_ok b (converter b (world_of cmd_tools cmd_files) id_order opt) cmd_manifest big_layouts.
Proof. exact (fits_moved _ _ _ _ _ (cmd_fit b opt)). Qed.
Lemma cmd_midi : readable_midi cmd_tools cmd_files "a.mid"%string.
Proof.
  exists [77; 84], good_file, true. split; [reflexivity|]. split; [reflexivity|]. split; [exact good_typed|]. split; [apply good_renderable|].
  assert (H : forallb (forallb (fun m => match m with
      | MidiEvent _ (NoteOn _ k v) | MidiEvent _ (NoteOff _ k v) => (0 <=? k) && (k <? 128) && (0 <=? v) && (v <? 128)
      | MidiEvent _ (ControlChange _ c v) => (0 <=? c) && (c <? 128) && (0 <=? v) && (v <? 128)
      | MidiEvent _ (ProgramChange _ p) => (0 <=? p) && (p <? 128)
      | MetaEvent _ SetTempo data => Nat.leb 3 (List.length data)
      | _ => true end)) (tracks_of good_file) = true) by (vm_compute; reflexivity).
  apply Forall_forall. intros tr Htr. rewrite forallb_forall in H. specialize (H tr Htr). rewrite forallb_forall in H.
  apply Forall_forall. intros m Hm. specialize (H m Hm). destruct m as [d0 ev data|d0 ev| |]; try exact I; (destruct ev; try exact I; unfold midi_valid; lia).
Qed.
Lemma cmd_slots bk sd p : In bk cmd_manifest -> In sd (songs bk) -> Manifest.input sd = Some p -> p = "a.mid"%string.
Proof.
  intros Hbk Hsd Hp. cbn in Hbk. destruct Hbk as [<-|[<-|[<-|[]]]]; cbn in Hsd;
    repeat (destruct Hsd as [<-|Hsd]; [cbn in Hp; (discriminate || (injection Hp as <-; reflexivity))|]); destruct Hsd.
Qed.
Lemma cmd_mid : mid_file "a.mid"%string.
Proof. apply extension_mid. vm_compute. reflexivity. Qed.
Lemma cmd_readable : Forall (fun bk => Forall (readable_slot cmd_tools cmd_files) (songs bk)) cmd_manifest.
Proof.
  apply Forall_forall. intros bk Hbk. apply Forall_forall. intros sd Hsd p Hp. rewrite (cmd_slots bk sd p Hbk Hsd Hp). split; [intros _; exact cmd_midi|].
  intros H. destruct (H cmd_mid).
Qed.
Lemma cmd_all_mid bk sd p : In bk cmd_manifest -> In sd (songs bk) -> Manifest.input sd = Some p -> mid_file p.
Proof. intros H1 H2 H3. rewrite (cmd_slots bk sd p H1 H2 H3). exact cmd_mid. Qed.
Lemma cmd_short b opt : short_tracks b (converter b (world_of cmd_tools cmd_files) id_order opt) cmd_manifest big_layouts.
Proof.
  intros k bk L ss ls Hk HL Hld.
  assert (HB : forall sds ss ls, loaded b (converter b (world_of cmd_tools cmd_files) id_order opt) sds ss ls -> (forall sd p, In sd sds -> Manifest.input sd = Some p -> p = "a.mid"%string /\ Manifest.tempo_factor sd = DEFAULT_TEMPO_ADJUST) ->
    Forall (fun x => snd x = cmd_enc \/ snd x = quiet_enc) ls).
  { clear. induction 1 as [|sd s l sds ss ls Hs Hr _ IH]; intros Hin; constructor; [|apply IH; intros sd' p H; apply Hin; right; exact H]. cbn [snd].
    destruct (Manifest.input sd) as [p|] eqn:Ep.
    - left. destruct (Hin sd p (or_introl eq_refl) Ep) as [-> Et]. rewrite Et in Hs.
      rewrite (proj1 (converter_choice _ _ _ _ _ _) cmd_mid), cmd_converts in Hs. injection Hs as <-. apply (encodes_fun cmd_song); [apply Hr|apply cmd_ready].
    - right. apply empty_song in Hs. subst s. apply (encodes_fun quiet_song); [apply Hr|apply quiet_ready]. }
  assert (HS : forall sd p, In sd (songs bk) -> Manifest.input sd = Some p -> p = "a.mid"%string /\ Manifest.tempo_factor sd = DEFAULT_TEMPO_ADJUST).
  { apply nth_error_In in Hk. intros sd p Hsd Hp. split; [apply (cmd_slots bk sd p Hk Hsd Hp)|]. revert Hsd Hp. clear -Hk. intros Hsd Hp. cbn in Hk. destruct Hk as [<-|[<-|[<-|[]]]]; cbn in Hsd;
    repeat (destruct Hsd as [<-|Hsd]; [cbn in Hp; (discriminate || reflexivity)|]); destruct Hsd. }
  assert (HO : tb_len (lo_ovf L) >= 100) by (apply nth_error_In in HL; cbn in HL; destruct HL as [<-|[<-|[<-|[]]]]; cbn; lia).
  eapply Forall_impl; [|exact (HB _ _ _ Hld HS)]. intros x [E|E]; rewrite E.
  - assert (HC : forallb (fun d => data_len d <=? 100) cmd_enc = true) by (vm_compute; reflexivity).
    apply Forall_forall. intros d Hd. rewrite forallb_forall in HC. specialize (HC d Hd). lia.
  - repeat constructor; cbn; lia.
Qed.

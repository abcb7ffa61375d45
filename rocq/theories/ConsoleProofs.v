(** ConsoleProofs.v: from MIDI files through the ROM image to the driver (C55). *)
From Coq Require Import ZArith List Bool Lia ZifyBool ZifyNat Permutation String.
From Verif Require Import Base ProofLib F32 Messages Command Track SeqTree Song Paths Manifest Midi Json Cli Rom SpecMidi SpecNotes SpecVoices SpecVoice SpecLoop
  SpecNspc SpecRom SpecBank SpecAram SpecPlayback SpecFile SpecConsole RomBanks RomFinal FilePlay.
Open Scope Z_scope.
Open Scope list_scope.

Lemma aram_zero r bs : Forall (fun x => tb_len x = 0 \/ 0 < tb_aram x) bs -> aram r bs 0 = None.
Proof.
  induction 1 as [|x bs Hx _ IH]; [reflexivity|]. cbn [aram]. rewrite IH.
  destruct ((tb_aram x <=? 0) && (0 <? tb_aram x + tb_len x)) eqn:E; [lia|reflexivity].
Qed.
Lemma fit_nth b conv i first m Ls sss : banks_fit b conv i first m Ls sss -> forall k bk L, nth_error m k = Some bk -> nth_error Ls k = Some L ->
  exists ss ls, nth_error sss k = Some ss /\ loaded b conv (songs bk) ss ls.
Proof.
  induction 1 as [|i first fa bk L ss ls bks Ls sss Hfa Hf _ IH]; intros k bk' L' H1 H2; [destruct k; discriminate|].
  destruct k as [|k]; cbn [nth_error] in *.
  - injection H1 as <-. injection H2 as <-. exists ss, ls. split; [reflexivity|]. apply (bf_songs _ _ _ _ _ _ _ _ Hf).
  - eapply IH; eassumption.
Qed.
Lemma loaded_nth b conv sds ss ls : loaded b conv sds ss ls -> forall j sd, nth_error sds j = Some sd ->
  exists s, nth_error ss j = Some s /\ match input sd with Some f => conv f (tempo_factor sd) = Ok s | None => song_empty b = Ok s end.
Proof.
  induction 1 as [|sd s l sds ss ls Hs _ _ IH]; intros j sd' H; [destruct j; discriminate|].
  destruct j as [|j]; cbn [nth_error] in *; [injection H as <-; eauto|apply IH; exact H].
Qed.
Lemma empty_song b s : song_empty b = Ok s -> s = mk_song [[0%nat]] [[]].
Proof. destruct b; vm_compute; congruence. Qed.
Lemma silent_song mem a lp b s at_ : song_empty b = Ok s -> song_in mem a lp s at_ -> song_plays mem a (repeat [] 8).
Proof.
  intros Es [H1 _ H3 H4 H5]. apply empty_song in Es. subst s. cbn [tracks parts length] in *.
  destruct H4 as (part & Hp & H4). cbn [nth_error] in Hp. injection Hp as <-.
  exists (a + header_size lp). split; [exact H1|]. split; [reflexivity|]. intros k es Hk.
  assert (Hk8 : (k < 8)%nat) by (change 8%nat with (length (repeat (@nil event) 8)); apply nth_error_Some; rewrite Hk; discriminate).
  assert (es = []) by (apply nth_error_In in Hk; apply repeat_spec in Hk; exact Hk). subst es.
  assert (H0 : nth 0 at_ 0 = 0).
  { destruct (H5 0%nat ltac:(lia)) as (data & refs & Hw & a0 & Ha & Hd & _). injection Hw as <- <-. rewrite (Hd eq_refl) in Ha. apply nth_error_nth with (d := 0) in Ha. exact Ha. }
  eexists. split; [apply (H4 k Hk8)|]. unfold voice_plays. destruct k as [|k]; cbn [nth_error].
  - rewrite H0. reflexivity.
  - destruct k; reflexivity.
Qed.

Lemma console b verbose opt w order m Ls sss r openable n r' k bk L j sd :
  (forall i, permutes (order i)) -> banks_fit b (converter b w order opt) 0 0 m Ls sss -> is_image r -> Forall (layout_ok r) Ls -> ForallOrdPairs independent Ls ->
  rom_write b verbose m r openable (map lo_addr Ls) (converter b w order opt) (Wrote n) = (Ok tt, r') -> (length r <= n)%nat ->
  nth_error m k = Some bk -> nth_error Ls k = Some L -> zero_free L -> nth_error (songs bk) j = Some sd ->
  lo_in r' L /\ exists a, holds (aram r' (lo_blocks L)) (0xd000 + 2 * Z.of_nat (count_songs (firstn k m) + j)) a /\
    (if loops sd then starts_again (aram r' (lo_blocks L)) a else stops (aram r' (lo_blocks L)) a) /\
    (forall p cbs, input sd = Some p -> extension p = Some "mid"%string -> good_midi b w order opt p (tempo_factor sd) cbs ->
       sounds_like (aram r' (lo_blocks L)) a cbs) /\
    (input sd = None -> song_plays (aram r' (lo_blocks L)) a (repeat [] 8)).
Proof.
  intros Ho Hfit Hr HLs HI Hw Hn Hbk HL Hz Hsd. apply good_write in Hw; [|exact Hn]. destruct Hw as [Hw _].
  destruct (fit_nth _ _ _ _ _ _ _ Hfit k bk L Hbk HL) as (ss & ls & Hss & Hld).
  destruct (loaded_nth _ _ _ _ _ Hld j sd Hsd) as (s & Hs & Hconv).
  destruct (banks_read _ _ _ _ _ _ _ _ Hfit Hr HLs HI Hw) as [_ Hread]. destruct (Hread k bk L ss Hbk HL Hss) as (fa & _ & [B1 B2 _]).
  split; [exact B1|]. destruct (B2 j sd s Hsd Hs) as (a & at_ & Ha & _ & Hin). exists a. split; [exact Ha|].
  split; [pose proof (si_after _ _ _ _ _ Hin) as Haf; destruct (loops sd); unfold starts_again, stops; tauto|]. split.
  - intros p cbs Hp Hext (G1 & G2 & G3 & s0 & G4 & G5 & G6). rewrite Hp in Hconv. unfold converter in Hconv. rewrite Hext, String.eqb_refl in Hconv.
    assert (G7 : opt = true -> keeps_music (tracks s0) (tracks s)) by (intros ->; exact (G6 eq_refl s Hconv)).
    exact (file_plays b w order opt p _ s s0 cbs _ a (loops sd) at_ G1 G2 Ho G3 Hconv G4 G5 G7 Hin (aram_zero _ _ Hz)).
  - intros Hp. rewrite Hp in Hconv. eapply silent_song; eassumption.
Qed.

(** A concrete ROM: the first bank holds a song made from a MIDI file, and a silent slot. *)
From Verif Require Import MidiExamples FileExamples RomExamples.
Definition con_world : world := mk_world (fun _ => (good_file, true)) (fun _ => None).
Definition con_song : song := mk_song [[0; 1; 2]%nat] good_tracks.
Definition con_slot : song_def := mk_song_def (Some "song.mid"%string) f32_0_3 true.
Definition con_bank : bank := mk_bank "a"%string [con_slot; song_def_empty].
Definition con_enc : list (list Z * list call_loop_ref) := Eval vm_compute in written con_song.
Lemma con_ready : song_ready con_song con_enc.
Proof.
  split; [|split].
  - split; [reflexivity|]. intros i d H. destruct i as [|[|[|i]]]; cbn [nth_error con_enc] in H;
      try (injection H as <-; vm_compute; reflexivity). destruct i; discriminate.
  - intros part H. cbn [con_song parts nth_error] in H. injection H as <-. cbn. lia.
  - repeat (constructor; [apply image_dec; vm_compute; reflexivity|]). constructor.
Qed.
Lemma con_fit b : banks_fit b (converter b con_world id_order true) 0 0 [con_bank] [ex_layout 0x8000 40] [[con_song; quiet_song]].
Proof.
  eapply (banks_fit_cons _ _ _ _ 0xd036 _ _ _ [(true, con_enc); (false, quiet_enc)]); [reflexivity| |constructor].
  constructor.
  - apply (loaded_cons _ _ con_slot); [apply (good_converts b true)|exact con_ready|].
    apply (loaded_cons _ _ song_def_empty); [destruct b; vm_compute; reflexivity|exact quiet_ready|]. constructor.
  - cbn. lia.
  - cbn. lia.
  - apply songs_stayb_ok. vm_compute. reflexivity.
Qed.
Lemma con_good b : good_midi b con_world id_order true "song.mid"%string f32_0_3 good_file.
Proof.
  split; [reflexivity|]. split; [exact good_typed|]. split; [exact good_renderable|]. exists con_song. split; [exact (good_converts b false)|].
  split; [exact good_short|]. intros _ s E. change (good_song b true = Ok s) in E. rewrite good_converts in E. injection E as <-. exact good_varied.
Qed.
Lemma con_free : zero_free (ex_layout 0x8000 40).
Proof. repeat (constructor; [cbn; lia|]). constructor. Qed.
Lemma con_written b : exists r', rom_write b true [con_bank] ex_rom true (map lo_addr [ex_layout 0x8000 40]) (converter b con_world id_order true) (Wrote (length ex_rom)) = (Ok tt, r').
Proof. eexists. destruct b; vm_compute; reflexivity. Qed.

(** SongMore.v: remaining lemmas and cases for PropSong.v. *)
From Coq Require Import ZArith List Bool Lia ZifyBool ZifyNat String Ascii.
From Verif Require Import Base F32 Messages Command Track SeqTree Song Paths Manifest Midi Json Cli SpecSong SpecMidi SpecVoices SpecVoices ProofLib ReadProofs ReadProofs2 SongProofs.
From Verif Require Rom.
Import ListNotations.
Open Scope string_scope.
Open Scope Z_scope.
Open Scope list_scope.

Lemma song_eight b w order optimize p tf s : Forall callback_typed (fst (midi_file w p)) -> (forall k, permutes (order k)) ->
  song_from_midi_file b w order optimize p tf = Ok s -> exists n, (n <= 8)%nat /\ parts s = [seq 0 n] /\ (n <= length (tracks s))%nat.
Proof.
  intros HF Ho H. unfold song_from_midi_file in H. destruct (midi_file w p) as [cbs complete] eqn:E. inv_bind H.
  destruct (read_voices _ _ _ _ _ HF Ho Ha) as [HL _]. destruct (song_shape _ _ _ _ _ _ _ H) as (trs & _ & H2 & H3 & H4 & _). exists (length trs). split; [lia|]. auto.
Qed.
Definition one_note (k t0 t1 : Z) : list tmsg := [(MidiEvent 0 (NoteOn 0 k 100), t0); (MidiEvent 0 (NoteOff 0 k 0), t1)].

Lemma manifest_read_iff v dir : (exists m, manifest_new v dir = Ok m) <->
  (forall bank names name, In (bank, names) slots -> In name names -> exists s, at_path v [bank; name; "input"%string] = Some (JStr s)).
Proof.
  split.
  - intros [m H] bank names name Hb Hn. destruct (slot_at m v dir bank names name H Hb Hn) as [sd Hs].
    destruct (manifest_slots v dir m H) as [_ HS]. destruct (HS bank name sd Hs) as [(s & Hs' & _) _ _]. eauto.
  - intros H. destruct (manifest_fails v dir) as [Hm|[_ (bank & names & name & Hb & Hn & E)]]; [exact Hm|]. contradiction E. eapply H; eassumption.
Qed.
Definition slot_json (name : string) : json :=
  if String.eqb name "Boss" then JObj [("loop"%string, JBool false); ("input"%string, JStr "b.mid")] else JObj [("input"%string, JStr "/x/a.mid")].
Definition sample_manifest : json := JObj (map (fun s => (fst s, JObj (map (fun n => (n, slot_json n)) (snd s)))) slots).
Lemma sample_manifest_read : exists m sd, manifest_new sample_manifest "/music" = Ok m /\ slot_is m "indoor" "Boss" sd /\ input sd = Some "/music/b.mid"%string /\ loops sd = false.
Proof.
  eexists. eexists. split; [vm_compute; reflexivity|]. split; [|split; [|]]; cycle 0.
  - exists 1%nat, 5%nat. eexists. eexists. split; [reflexivity|]. split; [reflexivity|]. split; reflexivity.
  - reflexivity.
  - reflexivity.
Qed.
Lemma sample_manifest_tempo : exists v dir m sd, manifest_new v dir = Ok m /\ slot_is m "indoor" "Boss" sd /\ at_path v ["indoor"; "Boss"; "tempoAdjust"]%string = None /\ tempo_factor sd <> f32_0_3.
Proof.
  exists sample_manifest, "/music"%string. eexists. eexists. split; [vm_compute; reflexivity|]. split; [|split; [vm_compute; reflexivity|]]; cycle 0.
  - exists 1%nat, 5%nat. eexists. eexists. split; [reflexivity|]. split; [reflexivity|]. split; reflexivity.
  - vm_compute. discriminate.
Qed.
Lemma default_addresses : read_bank_addrs None = Ok [0x914; 0x926; 0x932].
Proof. reflexivity. Qed.
Lemma mid_files : mid_file "/music/a.b.mid" /\ ~ mid_file ".mid" /\ ~ mid_file "/music/a.json".
Proof. rewrite <- !extension_mid. split; [vm_compute; reflexivity|]. split; vm_compute; discriminate. Qed.
Lemma sample_song_ok : song_ok (mk_song [[0; 1]%nat] [[mk_pcmd (Some 12) None (Some 7) (Vibrato 1 2 3)]; [mk_pcmd None None None (CallLoop 1 2)]]).
Proof. split; cbn [parts tracks]; repeat (apply Forall_cons || apply Forall_nil); cbn; unfold u8; lia. Qed.

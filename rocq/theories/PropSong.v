(** PropSong.v: properties C29, C41, C42, C43 and C44 (songs, manifests, command line, JSON).
    Specification: SpecSong.v and, for the JSON format, SpecJson.v. *)
From Coq Require Import ZArith List String.
From Verif Require Import Base F32 Messages Command Track Song Paths Manifest Midi Json Cli SpecSong SpecJson SpecMidi SpecVoices SongProofs SongMore JsonProofs.
From Verif Require Rom.
Import ListNotations.
Open Scope string_scope.
Open Scope Z_scope.

(** C29: one part, listing the tracks of the non-empty voices in order; optimisation only adds tracks. *)
Theorem C29_one_part :
  forall (b : build) (voices : list (list tmsg)) (tpb max_time : Z) (tf : f32) (optimize : bool) (s : song),
  song_from_midi b voices tpb max_time tf optimize = Ok s ->
  exists trs, voice_tracks b voices tpb max_time tf trs /\ (length trs <= length voices)%nat /\
    parts s = [seq 0 (length trs)] /\ (length trs <= length (tracks s))%nat /\ (optimize = false -> tracks s = trs).
Proof. exact song_shape. Qed.
Print Assumptions C29_one_part.
(** C29: from a MIDI file there are at most eight voices, so at most eight entries. *)
Theorem C29_at_most_eight :
  forall (b : build) (w : world) (order : nat -> notes -> notes) (optimize : bool) (p : path) (tf : f32) (s : song),
  Forall callback_typed (fst (midi_file w p)) -> (forall k, permutes (order k)) ->
  song_from_midi_file b w order optimize p tf = Ok s ->
  exists n, (n <= 8)%nat /\ parts s = [seq 0 n] /\ (n <= length (tracks s))%nat.
Proof. exact song_eight. Qed.
Print Assumptions C29_at_most_eight.
Example C29_case : exists s, song_from_midi Debug [one_note 60 0 48; []; one_note 64 48 96] 24 96 f32_0_3 true = Ok s /\
  parts s = [[0; 1]%nat] /\ length (tracks s) = 2%nat.
Proof. eexists. split; [vm_compute; reflexivity|]. split; reflexivity. Qed.

(** C41: the single-song manifest fills every slot with the file. *)
Theorem C41_single_song :
  forall p : path, all_slots (manifest_single_song p) /\
  forall bank name sd, slot_is (manifest_single_song p) bank name sd ->
    input sd = Some p /\ loops sd = true /\ tempo_factor sd = DEFAULT_TEMPO_ADJUST.
Proof. exact single_slots. Qed.
Print Assumptions C41_single_song.
(** C41: the file-select manifest fills exactly that slot. *)
Theorem C41_file_select :
  forall p : path, all_slots (manifest_file_select p) /\
  forall bank name sd, slot_is (manifest_file_select p) bank name sd ->
    sd = if String.eqb name "File Select" then mk_song_def (Some p) DEFAULT_TEMPO_ADJUST true
         else mk_song_def None DEFAULT_TEMPO_ADJUST false.
Proof. exact select_slots. Qed.
Print Assumptions C41_file_select.
Example C41_case : exists sd, slot_is (manifest_file_select "a.mid") "overworld" "File Select" sd /\ input sd = Some "a.mid".
Proof. exists (song_def_default "a.mid"). split; [|reflexivity]. exists 0%nat, 10%nat. eexists. eexists. repeat split. Qed.

(** C42: a manifest that is read has all slots, each as described by the file. *)
Theorem C42_slots_read :
  forall (v : json) (dir : path) (m : manifest), manifest_new v dir = Ok m ->
  all_slots m /\ forall bank name sd, slot_is m bank name sd -> slot_spec v dir bank name sd.
Proof. exact manifest_slots. Qed.
Print Assumptions C42_slots_read.
(** C42: reading fails only, and always, when some slot has no input string. *)
Theorem C42_missing_input :
  forall (v : json) (dir : path),
  (exists m, manifest_new v dir = Ok m) <->
  (forall bank names name, In (bank, names) slots -> In name names -> exists s, at_path v [bank; name; "input"] = Some (JStr s)).
Proof. exact manifest_read_iff. Qed.
Print Assumptions C42_missing_input.
Example C42_case : exists m sd, manifest_new sample_manifest "/music" = Ok m /\ slot_is m "indoor" "Boss" sd /\
  input sd = Some "/music/b.mid" /\ loops sd = false.
Proof. exact sample_manifest_read. Qed.
(** C42: the default tempo factor is not the documented one (0.3 in src/manifest.schema.json). *)
Theorem C42_documented_tempo_refuted : exists v dir m sd, manifest_new v dir = Ok m /\
  slot_is m "indoor" "Boss" sd /\ at_path v ["indoor"; "Boss"; "tempoAdjust"] = None /\ tempo_factor sd <> f32_0_3.
Proof. exact sample_manifest_tempo. Qed.
Print Assumptions C42_documented_tempo_refuted.

(** C43: default addresses. *)
Theorem C43_default_addresses : read_bank_addrs None = Ok [0x914; 0x926; 0x932].
Proof. exact default_addresses. Qed.
Print Assumptions C43_default_addresses.
(** C43: three hexadecimal 32-bit numbers are read; any other value is an error. *)
Theorem C43_given_addresses :
  forall a b c : string,
  (forall na nb nc, hex_number a na /\ na < 2 ^ 32 -> hex_number b nb /\ nb < 2 ^ 32 -> hex_number c nc /\ nc < 2 ^ 32 ->
     read_bank_addrs (Some [a; b; c]) = Ok [na; nb; nc]) /\
  ((exists s, In s [a; b; c] /\ ~ exists n, hex_number s n /\ n < 2 ^ 32) -> read_bank_addrs (Some [a; b; c]) = Err EParseInt).
Proof. exact bank_addrs. Qed.
Print Assumptions C43_given_addresses.
Example C43_case : read_bank_addrs (Some ["8000"; "fFfFfFfF"; "+12"]) = Ok [0x8000; 0xffffffff; 0x12] /\
  read_bank_addrs (Some ["8000"; "100000000"; "12"]) = Err EParseInt /\ read_bank_addrs (Some ["0x8000"; "1"; "2"]) = Err EParseInt.
Proof. vm_compute. auto. Qed.
(** C43: the MIDI converter is used exactly for file names ending in ".mid". *)
Theorem C43_converter :
  forall (b : build) (w : world) (order : nat -> notes -> notes) (optimize : bool) (p : path) (tf : f32),
  (mid_file p -> converter b w order optimize p tf = song_from_midi_file b w order optimize p tf) /\
  (~ mid_file p -> converter b w order optimize p tf = from_json (json_file w p)).
Proof. exact converter_choice. Qed.
Print Assumptions C43_converter.
Example C43_converter_case : mid_file "/music/a.b.mid" /\ ~ mid_file ".mid" /\ ~ mid_file "/music/a.json".
Proof. exact mid_files. Qed.

(** C44: a song written as JSON is read back unchanged. *)
Theorem C44_json_round_trip :
  forall s : song, song_ok s -> from_json (Some (song_to_json s)) = Ok s.
Proof. exact song_round_trip. Qed.
Print Assumptions C44_json_round_trip.
(** C44: different songs have different JSON values. *)
Theorem C44_json_injective :
  forall s1 s2 : song, song_ok s1 -> song_ok s2 -> song_to_json s1 = song_to_json s2 -> s1 = s2.
Proof. exact song_json_injective. Qed.
Print Assumptions C44_json_injective.
Example C44_case : song_ok (mk_song [[0; 1]%nat] [[mk_pcmd (Some 12) None (Some 7) (Vibrato 1 2 3)]; [mk_pcmd None None None (CallLoop 1 2)]]).
Proof. exact sample_song_ok. Qed.

(** C44: the JSON values that are read, and as which song: exactly those of the format of SpecJson.v; anything else stops
    the program. *)
Theorem C44_reads_format :
  forall file : option json,
  (forall s, from_json file = Ok s <-> exists v, file = Some v /\ is_song v s) /\
  ((~ exists v s, file = Some v /\ is_song v s) -> from_json file = Panic PUnwrap).
Proof. exact reads_iff. Qed.
Print Assumptions C44_reads_format.
(** An object with unknown keys, keys in another order, a null and an array is read; one with a key twice is not. *)
Example C44_reads_format_case :
  is_song hand_song (mk_song [[0%nat]] [[mk_pcmd (Some 24) None None (Note 164); mk_pcmd None None None Rest]]) /\ ~ exists s, is_song twice_song s.
Proof. exact (conj hand_read twice_not_read). Qed.

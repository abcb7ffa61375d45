(** PropGrid.v: property C79 (music on a grid is played exactly). Specification: SpecGrid.v (the grid), SpecFile.v (files),
    SpecMidi.v, SpecNotes.v, SpecVoices.v, SpecVoice.v (their notes), SpecPlayback.v, SpecHeard.v (what is heard),
    SpecRom.v (a song in ARAM), SpecAram.v (the driver). *)
From Coq Require Import ZArith List Permutation String.
From Verif Require Import Base F32 Messages Command Track Song Paths Midi Cli SpecMidi SpecNotes SpecVoices SpecVoice SpecNspc SpecLoop SpecRom
  SpecAram SpecSong SpecTime SpecPlayback SpecFile SpecHeard SpecGrid MidiExamples AramProofs AramMore SongProofs OptProofs LoopExamples FileExamples TrackProofs GridProofs.
Import ListNotations.
Open Scope Z_scope.
Open Scope list_scope.

(** C79: a renderable MIDI file whose notes start and end and whose programs change on a grid is converted, with or without
    loops, and the song is in ARAM. Playing it, the driver starts exactly one note for every note of the file that is
    switched off, at its pitch and at exactly its time (24 steps for every [beat_ticks] ticks); and if the file ends on the
    grid, every voice that is not silent lasts exactly as long as the file. Missing: what C52 leaves out. *)
Theorem C79_file_exact_partial :
  forall (b : build) (w : world) (order : nat -> notes -> notes) (opt : bool) (p : path) (tf : f32) (s s0 : song)
    (cbs : list callback) (mem : Z -> option Z) (a : Z) (lp : bool) (at_ : list Z) (u : Z),
  midi_file w p = (cbs, true) -> Forall callback_typed cbs -> (forall k, permutes (order k)) ->
  renderable (beat_ticks cbs) (tracks_of cbs) -> gridded (beat_ticks cbs) u (tracks_of cbs) ->
  song_from_midi_file b w order opt p tf = Ok s -> song_from_midi_file b w order false p tf = Ok s0 ->
  Forall seven_bit (tracks s0) -> (opt = true -> keeps_music (tracks s0) (tracks s)) ->
  song_in mem a lp s at_ -> mem 0 = None ->
  exists notes ns ess end_, file_notes (tracks_of cbs) notes /\ Permutation ns (filter ended (map drum notes)) /\ song_plays mem a ess /\
    Forall2 (fun x n => fst x * beat_ticks cbs = 24 * nt_on n /\ snd x = driver_pitch (nt_key n)) (flat_map attacks ess) ns /\
    file_end (tracks_of cbs) end_ /\
    (on_line (beat_ticks cbs) u end_ -> forall es, In es ess -> es <> [] -> played_steps es * beat_ticks cbs = 24 * end_).
Proof. exact file_exact. Qed.
Print Assumptions C79_file_exact_partial.

(** A file of 256 ticks per beat on a grid of three steps (32 ticks): two channels, and a program change before the last
    note. A step is not a whole number of ticks, and one note ends 10 ticks before a line. *)
Definition grid_file : list callback :=
  [CHeader 1 2 256; CTrackChange; midi 0 (NoteOn 0 60 100); midi 32 (NoteOff 0 60 0); midi 0 (NoteOn 0 62 100); midi 54 (NoteOff 0 62 0);
   midi 42 (ProgramChange 0 41); midi 0 (NoteOn 0 64 90); midi 64 (NoteOff 0 64 0);
   CTrackChange; midi 32 (NoteOn 1 48 100); midi 160 (NoteOff 1 48 0)].
Definition grid_song (b : build) (opt : bool) : outcome song :=
  song_from_midi_file b (mk_world (fun _ => (grid_file, true)) (fun _ => None)) id_order opt "song.mid"%string f32_0_3.
Definition grid_tracks : list track := Eval vm_compute in match grid_song Debug false with Ok s => tracks s | _ => [] end.
Definition grid_at : list Z := Eval vm_compute in place 0xd000 (mk_song [[0; 1]%nat] grid_tracks).
Definition grid_bytes : list Z := Eval vm_compute in image_of 0xd000 (mk_song [[0; 1]%nat] grid_tracks).
Definition grid_mem : Z -> option Z := mem_of 0xd000 grid_bytes.
Example C79_case : forall b opt,
  let s := mk_song [[0; 1]%nat] grid_tracks in
  Forall callback_typed grid_file /\ renderable 256 (tracks_of grid_file) /\ gridded 256 3 (tracks_of grid_file) /\
  grid_song b opt = Ok s /\ Forall seven_bit (tracks s) /\ keeps_music (tracks s) (tracks s) /\ song_in grid_mem 0xd000 false s grid_at /\ grid_mem 0 = None /\
  file_end (tracks_of grid_file) 192 /\ on_line 256 3 192 /\ map total_steps grid_tracks = [18; 18].
Proof.
  intros b opt s. split; [repeat constructor; vm_compute; intuition discriminate|]. split; [apply renderable_b_ok; vm_compute; reflexivity|].
  split; [apply gridded_b_ok; vm_compute; reflexivity|]. split; [destruct b, opt; vm_compute; reflexivity|].
  split; [repeat constructor; vm_compute; intuition discriminate|]. split; [apply keeps_b_ok; vm_compute; reflexivity|].
  split; [apply song_b_ok; vm_compute; reflexivity|]. split; [reflexivity|].
  split; [split; [vm_compute; repeat constructor; discriminate|left; vm_compute; auto 30]|]. split; [exists 6; reflexivity|vm_compute; reflexivity].
Qed.

(** C79, for one voice: the commands of a track start at exactly the times of its notes, and the track has exactly the length of the
    music, if that ends on the grid. *)
Theorem C79_voice_exact :
  forall (b : build) (tpb u : Z) (tf : f32) (events : list tmsg) (mt : Z) (tr : track),
  1 <= tpb <= 65535 -> grid tpb u -> voice_ok tpb mt events -> Forall (voice_on_grid tpb u) events ->
  Forall (fun x => 24 * (snd x + 1) + tpb < 2 ^ 23) events -> 24 * (mt + 1) + tpb < 2 ^ 23 ->
  track_new b events tpb mt tf = Ok tr ->
  Forall2 (fun h n => h_onset h * tpb = 24 * n_on n) (heads tr) (notes_of events) /\
  (on_line tpb u mt -> tr <> [] -> total_steps tr * tpb = 24 * mt).
Proof. exact voice_exact. Qed.
Print Assumptions C79_voice_exact.

(** The first voice of the file above. Off the grid a voice may drift by any number of beats: C08_drift_refuted. *)
Definition grid_voice : list tmsg := SpecMidi.timed 0 (nth 0 (tracks_of grid_file) []).
Definition grid_voice' : list tmsg := Eval vm_compute in grid_voice.
Example C79_case_voice : exists tr, track_new Debug grid_voice 256 192 f32_0_3 = Ok tr /\ voice_ok 256 192 grid_voice /\
  Forall (voice_on_grid 256 3) grid_voice /\ Forall (fun x => 24 * (snd x + 1) + 256 < 2 ^ 23) grid_voice /\
  map h_onset (heads tr) = [0; 3; 12] /\ map n_on (notes_of grid_voice) = [0; 32; 128].
Proof.
  eexists. split; [vm_compute; reflexivity|]. assert (E : grid_voice = grid_voice') by reflexivity. rewrite E. split; [unfold grid_voice'; TrackProofs.voice_case|].
  split; [|split; [repeat constructor|split; vm_compute; reflexivity]].
  repeat (constructor; [first [exists 0; reflexivity|exists 1; reflexivity|exists 4; reflexivity|exact I|exists 1; vm_compute; intuition discriminate|exists 3; vm_compute; intuition discriminate|exists 6; vm_compute; intuition discriminate]|]). constructor.
Qed.

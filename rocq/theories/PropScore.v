(** PropScore.v: property C67 (songs given as JSON files). Specification: SpecScore.v (a song as written), SpecNspc.v
    (what a command list prescribes), SpecLoop.v (loop calls), SpecPlayback.v, SpecAram.v (the driver), SpecBank.v. *)
From Coq Require Import ZArith List String.
From Verif Require Import Base F32 Messages Command Track Song Paths Manifest Midi Json Cli Rom SpecVoices SpecLoop SpecNspc SpecRom SpecBank SpecAram
  SpecPlayback SpecConsole SpecScore RomBanks RomExamples MidiExamples ConsoleProofs ScoreProofs ScoreExamples.
Import ListNotations.
Open Scope Z_scope.
Open Scope list_scope.

(** C67, without loop calls: after a ROM has been rebuilt, the table entry of a slot with a JSON file leads to a song
    of which every voice plays exactly what the commands of its track prescribe: commands, lengths and velocities, own
    or running. Missing: songs that do not fit the bank's blocks (C33 to C35); parts after the first
    (C67_parts_refuted). *)
Theorem C67_json_heard_partial :
  forall (b : build) (verbose opt : bool) (w : world) (order : nat -> notes -> notes) (m : manifest) (Ls : list layout) (sss : list (list song))
    (r : image) (openable : bool) (n : nat) (r' : image) (k : nat) (bk : bank) (L : layout) (j : nat) (sd : song_def) (p : path) (s : song) (part : list nat),
  banks_fit b (converter b w order opt) 0 0 m Ls sss -> is_image r -> Forall (layout_ok r) Ls -> ForallOrdPairs independent Ls ->
  rom_write b verbose m r openable (map lo_addr Ls) (converter b w order opt) (Wrote n) = (Ok tt, r') -> (length r <= n)%nat ->
  nth_error m k = Some bk -> nth_error Ls k = Some L -> zero_free L -> nth_error (songs bk) j = Some sd ->
  input sd = Some p -> extension p <> Some "mid"%string -> from_json (json_file w p) = Ok s -> song_parts s part ->
  Forall (fun i => forall tr, nth_error (tracks s) i = Some tr -> loop_free tr /\ well_formed tr) part ->
  exists a ess, holds (aram r' (lo_blocks L)) (0xd000 + 2 * Z.of_nat (count_songs (firstn k m) + j)) a /\
    (if loops sd then starts_again (aram r' (lo_blocks L)) a else stops (aram r' (lo_blocks L)) a) /\
    song_plays (aram r' (lo_blocks L)) a ess /\ plays_part (plays_exactly s) part ess.
Proof. exact json_exact. Qed.
Print Assumptions C67_json_heard_partial.
(** C67, with loop calls of any number of repeats to tracks of any length: commands and lengths, and velocities ([loud])
    if no called track leaves another velocity behind. Every note, tie and rest must set its own length. *)
Theorem C67_json_loops_partial :
  forall (loud : bool) (b : build) (verbose opt : bool) (w : world) (order : nat -> notes -> notes) (m : manifest) (Ls : list layout) (sss : list (list song))
    (r : image) (openable : bool) (n : nat) (r' : image) (k : nat) (bk : bank) (L : layout) (j : nat) (sd : song_def) (p : path) (s : song) (part : list nat),
  banks_fit b (converter b w order opt) 0 0 m Ls sss -> is_image r -> Forall (layout_ok r) Ls -> ForallOrdPairs independent Ls ->
  rom_write b verbose m r openable (map lo_addr Ls) (converter b w order opt) (Wrote n) = (Ok tt, r') -> (length r <= n)%nat ->
  nth_error m k = Some bk -> nth_error Ls k = Some L -> zero_free L -> nth_error (songs bk) j = Some sd ->
  input sd = Some p -> extension p <> Some "mid"%string -> from_json (json_file w p) = Ok s -> song_parts s part ->
  song_calls s -> Forall (fun tr : track => Forall playable tr) (tracks s) ->
  (loud = true -> Forall (fun tr : track => Forall full tr) (tracks s) /\
     Forall (fun i => forall tr, nth_error (tracks s) i = Some tr -> velocity_safe (tracks s) tr) part) ->
  exists a ess, holds (aram r' (lo_blocks L)) (0xd000 + 2 * Z.of_nat (count_songs (firstn k m) + j)) a /\
    (if loops sd then starts_again (aram r' (lo_blocks L)) a else stops (aram r' (lo_blocks L)) a) /\
    song_plays (aram r' (lo_blocks L)) a ess /\ plays_part (plays_track loud s) part ess.
Proof. exact json_looped. Qed.
Print Assumptions C67_json_loops_partial.
(** A bank with three JSON songs: one with a track that calls a two-note track five times, one with running lengths, one
    with two parts. *)
Example C67_case : forall b opt,
  banks_fit b (converter b score_world id_order opt) 0 0 [score_bank] [score_layout] [[score_song; running_song; parts_song]] /\
  is_image ex_rom /\ Forall (layout_ok ex_rom) [score_layout] /\ ForallOrdPairs independent [score_layout] /\ zero_free score_layout /\
  (exists r', rom_write b true [score_bank] ex_rom true (map lo_addr [score_layout]) (converter b score_world id_order opt) (Wrote (length ex_rom)) = (Ok tt, r')) /\
  from_json (json_file score_world "score.json"%string) = Ok score_song /\ song_parts score_song [0; 1]%nat /\ song_calls score_song /\
  Forall (fun tr : track => Forall playable tr) (tracks score_song) /\ Forall (fun tr : track => Forall full tr) (tracks score_song) /\
  Forall (fun i => forall tr, nth_error (tracks score_song) i = Some tr -> velocity_safe (tracks score_song) tr) [0; 1]%nat /\
  from_json (json_file score_world "running.json"%string) = Ok running_song /\ song_parts running_song [0%nat] /\
  Forall (fun i => forall tr, nth_error (tracks running_song) i = Some tr -> loop_free tr /\ well_formed tr) [0%nat].
Proof.
  intros b opt. destruct score_layouts as [HL HI]. split; [exact (score_fit b opt)|]. split; [exact ex_image|]. split; [exact HL|]. split; [exact HI|]. split; [exact con_free|].
  split; [exact (score_written b opt)|]. split; [exact score_reads|]. split; [exact score_parts|]. split; [exact score_calls|]. split; [exact score_playable|].
  split; [exact score_full|]. split; [exact score_safe|]. split; [exact running_reads|]. split; [exact running_parts|exact running_wf].
Qed.

(** C67 is false of a song with more than one part: the header written for it stops (or starts again) after the first
    part. Here the second part has one note, A5, and no voice plays it. *)
Theorem C67_parts_refuted :
  forall (b : build) (opt : bool), exists r' a ess,
  rom_write b true [score_bank] ex_rom true (map lo_addr [score_layout]) (converter b score_world id_order opt) (Wrote (length ex_rom)) = (Ok tt, r') /\
  from_json (json_file score_world "parts.json"%string) = Ok parts_song /\ parts parts_song = [[0]; [1]]%nat /\
  nth_error (tracks parts_song) 1 = Some [score_note 24 0xa5] /\
  holds (aram r' (lo_blocks score_layout)) (0xd000 + 2 * 2) a /\ stops (aram r' (lo_blocks score_layout)) a /\
  song_plays (aram r' (lo_blocks score_layout)) a ess /\ forall es e, In es ess -> In e es -> ev_token e <> TNote 0xa5.
Proof. exact first_part_only. Qed.
Print Assumptions C67_parts_refuted.

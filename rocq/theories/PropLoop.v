(** PropLoop.v: properties C24-C27 (call-loop optimisation). Specification: SpecLoop.v. *)
From Coq Require Import ZArith List.
From Verif Require Import Base Command Track SeqTree Song SpecLoop OptProofs OptExpand LoopExamples.
Import ListNotations.
Open Scope Z_scope.
Open Scope list_scope.

(** C24: in a song whose direct repetitions of four or more commands are fresh (the passage was not
    played before), every optimised track plays as the original one. Missing: songs that repeat a
    passage directly after having played it before, for which it is false (C24_refuted). *)
Theorem C24_same_music_partial :
  forall (b : build) (trs r : list track),
  Forall loop_free trs -> fresh_repeats trs ->
  optimize_call_loops b trs (length trs) = Ok r ->
  forall i original, nth_error trs i = Some original ->
  exists optimised, nth_error r i = Some optimised /\ plays_as r optimised original.
Proof. exact optimize_same. Qed.
Print Assumptions C24_same_music_partial.
(** A song without direct repetitions of four or more commands is such a song. *)
Theorem C24_no_repetition : forall trs : list track, Forall no_immediate_repeat trs -> fresh_repeats trs.
Proof. exact no_repeat_fresh. Qed.
Print Assumptions C24_no_repetition.
(** [A A A x A] and [y B B A z]: the runs become calls with counts three and two. *)
Example C24_case : Forall loop_free ex_run /\ fresh_repeats ex_run /\
  forall b, optimize_call_loops b ex_run (length ex_run) =
    Ok [[ex_call 2 3; ex_note 9; ex_call 2 1]; [ex_note 11; ex_call 3 2; ex_call 2 1; ex_note 12]; ex_block; ex_other].
Proof. exact ex_run_ok. Qed.
Example C24_apart_case : Forall loop_free ex_song /\ fresh_repeats ex_song /\
  forall b, optimize_call_loops b ex_song (length ex_song) =
    Ok [[ex_call 2 1; ex_note 9; ex_call 2 1]; [ex_note 5; ex_note 6; ex_call 2 1]; ex_block].
Proof. exact (conj ex_song_free (conj ex_song_fresh ex_song_result)). Qed.
(** The condition is not necessary: [A x A A] does not meet it and is still played as it was. *)
Example C24_again_case : Forall loop_free ex_again /\ ~ fresh_repeats ex_again /\
  forall b, exists r, optimize_call_loops b ex_again (length ex_again) = Ok r /\ keeps_music ex_again r.
Proof. exact ex_again_ok. Qed.
(** C24: in such a song every location of a candidate of four or more commands is a run of as many
    copies as it claims. *)
Theorem C24_runs_partial :
  forall (b : build) (trs : list track) (t : tree) (ss : list sequence),
  fresh_repeats trs -> build_tree b empty_tree trs 0 = Ok t -> sequences b [] t = Ok ss ->
  forall s l, In s ss -> (4 <= length (seq_cmds s))%nat -> In l (seq_locs s) -> genuine trs (seq_cmds s) l.
Proof. exact runs_genuine. Qed.
Print Assumptions C24_runs_partial.
(** C24: one extraction of a song that already has loops, for any song: if the reported locations are
    runs of copies of the body, no track changes what it plays as. *)
Theorem C24_extraction_partial :
  forall (b : build) (trs : list track) (n : nat) (t : tree) (s : sequence),
  (n <= length trs)%nat -> well_formed_loops n trs ->
  build_tree b empty_tree (firstn n trs) 0 = Ok t -> best_sequence b t = Ok (Some s) ->
  Forall (genuine trs (seq_cmds s)) (seq_locs s) ->
  exists trs', extract_sequence trs s n = Ok trs' /\
    forall i tr out, (i < n)%nat -> nth_error trs i = Some tr -> plays_as trs tr out ->
    exists tr', nth_error trs' i = Some tr' /\ plays_as trs' tr' out.
Proof. exact extraction_keeps. Qed.
Print Assumptions C24_extraction_partial.
Example C24_extraction_case : forall b, exists t s,
  build_tree b empty_tree ex_twice 0 = Ok t /\ best_sequence b t = Ok (Some s) /\
  s = mk_seq ex_block [mk_loc 0 0 2] /\ Forall (genuine ex_twice (seq_cmds s)) (seq_locs s).
Proof. exact ex_twice_tree. Qed.
(** C24 is false in general: a block, and later the same block twice in a row, loses commands. *)
Theorem C24_refuted :
  forall b : build, exists (original : track) (r : list track) (optimised : track) (out : list pcmd),
  loop_free original /\ optimize_call_loops b [original] 1 = Ok r /\
  nth_error r 0 = Some optimised /\ plays_as r optimised out /\ out <> original.
Proof. exact music_changes. Qed.
Print Assumptions C24_refuted.
(** What a track plays as is unique, so the two statements above exclude each other. *)
Theorem C24_plays_as_unique :
  forall (song : list track) (l out1 out2 : list pcmd),
  plays_as song l out1 -> plays_as song l out2 -> out1 = out2.
Proof. exact plays_unique. Qed.
Print Assumptions C24_plays_as_unique.

(** C25: the optimiser always returns in a release build; a checked build can only differ by stopping
    with an overflow. *)
Theorem C25_terminates :
  forall (trs : list track) (n : nat), (n <= length trs)%nat ->
  (exists r, optimize_call_loops Release trs n = Ok r) /\
  (optimize_call_loops Debug trs n = Panic POverflow \/
   optimize_call_loops Debug trs n = optimize_call_loops Release trs n).
Proof. exact optimize_ends. Qed.
Print Assumptions C25_terminates.
(** C25: every extraction makes the top-level tracks strictly shorter. *)
Theorem C25_extraction_shortens :
  forall (b : build) (trs : list track) (n : nat) (t : tree) (s : sequence),
  (n <= length trs)%nat -> build_tree b empty_tree (firstn n trs) 0 = Ok t -> best_sequence b t = Ok (Some s) ->
  exists trs', extract_sequence trs s n = Ok trs' /\
    (list_sum (map (@length pcmd) (firstn n trs')) < list_sum (map (@length pcmd) (firstn n trs)))%nat.
Proof. exact extraction_shorter. Qed.
Print Assumptions C25_extraction_shortens.
(** C25: a checked build does stop on a song with 256 copies of a block; the release build then leaves
    that song unoptimised. *)
Theorem C25_checked_build_refuted :
  exists trs : list track, Forall loop_free trs /\
  optimize_call_loops Debug trs (length trs) = Panic POverflow /\
  optimize_call_loops Release trs (length trs) = Ok trs.
Proof. exact often_stops. Qed.
Print Assumptions C25_checked_build_refuted.

(** C26: in an optimised song every call names an extracted track, one to four times, and extracted
    tracks have no calls or pitch slides, more than three commands, and do not start with a tie. *)
Theorem C26_loops_well_formed :
  forall (b : build) (trs r : list track),
  Forall loop_free trs -> optimize_call_loops b trs (length trs) = Ok r ->
  well_formed_loops (length trs) r.
Proof. exact optimize_wfl. Qed.
Print Assumptions C26_loops_well_formed.

(** C27: candidates can always be enumerated, and all are sound. *)
Theorem C27_candidates_sound :
  forall (b : build) (trs : list track), exists t ss,
  build_tree b empty_tree trs 0 = Ok t /\ sequences b [] t = Ok ss /\ Forall (sound_candidate trs) ss.
Proof. exact candidates_sound. Qed.
Print Assumptions C27_candidates_sound.
(** C27: the chosen candidate. *)
Theorem C27_chosen_sound :
  forall (b : build) (trs : list track) (t : tree) (s : sequence),
  build_tree b empty_tree trs 0 = Ok t -> best_sequence b t = Ok (Some s) ->
  sound_candidate trs s /\ good_body (seq_cmds s) /\
  Forall (fun l => 1 <= repeat_count l <= 4) (seq_locs s) /\ 2 <= zsum (map repeat_count (seq_locs s)).
Proof. exact chosen_sound. Qed.
Print Assumptions C27_chosen_sound.
Example C27_case : forall b, exists t s, build_tree b empty_tree ex_song 0 = Ok t /\ best_sequence b t = Ok (Some s) /\
  s = mk_seq ex_block [mk_loc 0 0 1; mk_loc 0 5 1; mk_loc 1 2 1].
Proof. exact ex_song_tree. Qed.

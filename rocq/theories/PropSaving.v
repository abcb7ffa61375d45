(** PropSaving.v: properties C53 (size of optimised songs) and C54 (the search for candidates).
    Specification: SpecSaving.v, SpecLoop.v. *)
From Coq Require Import ZArith List.
From Verif Require Import Base Command Track SeqTree TreeIter Song SpecLoop SpecSaving SavingProofs IterProofs LoopExamples SavingExamples.
Import ListNotations.
Open Scope Z_scope.
Open Scope list_scope.

(** C53: counting the commands of all tracks, loop bodies included, the optimiser returns the song
    unchanged or shorter, for every song and every number of top-level tracks. *)
Theorem C53_never_more_commands :
  forall (b : build) (trs : list track) (n : nat) (r : list track),
  (n <= length trs)%nat -> optimize_call_loops b trs n = Ok r ->
  r = trs \/ (commands_in r + 2 <= commands_in trs)%nat.
Proof. exact never_longer. Qed.
Print Assumptions C53_never_more_commands.
(** C53: one extraction saves at least two commands, and exactly the computed saving when the locations
    are what they claim to be. *)
Theorem C53_extraction_saves :
  forall (b : build) (trs : list track) (n : nat) (t : tree) (s : sequence),
  (n <= length trs)%nat -> build_tree b empty_tree (firstn n trs) 0 = Ok t -> best_sequence b t = Ok (Some s) ->
  exists trs', extract_sequence trs s n = Ok trs' /\ (commands_in trs' + 2 <= commands_in trs)%nat /\
    (Forall (genuine (firstn n trs) (seq_cmds s)) (seq_locs s) ->
     Z.of_nat (commands_in trs') + saving s = Z.of_nat (commands_in trs)).
Proof. exact extraction_saves. Qed.
Print Assumptions C53_extraction_saves.
Example C53_case : forall b, exists t s r, build_tree b empty_tree ex_song 0 = Ok t /\ best_sequence b t = Ok (Some s) /\
  Forall (genuine ex_song (seq_cmds s)) (seq_locs s) /\ saving s = 5 /\
  optimize_call_loops b ex_song 2 = Ok r /\ commands_in ex_song = 15%nat /\ commands_in r = 10%nat.
Proof. exact ex_song_saves. Qed.
(** C53 is false for bytes: a song whose optimised form takes more bytes than the original. *)
Theorem C53_bytes_refuted :
  forall b : build, exists (s : song) (r : list track) (before after : list (list Z)),
  Forall loop_free (tracks s) /\ fresh_repeats (tracks s) /\
  optimize_call_loops b (tracks s) (length (tracks s)) = Ok r /\
  song_bytes s before /\ song_bytes (mk_song (parts s) r) after /\ (total_bytes before < total_bytes after)%nat.
Proof. exact bytes_grow. Qed.
Print Assumptions C53_bytes_refuted.

(** C54: the iterator stops after at most one call per edge and yields exactly one sequence shape per
    node of the tree: the commands leading to it with its consolidated locations. *)
Theorem C54_search_exhaustive :
  forall (b : build) (trs : list track) (t : tree) (fuel : nat),
  build_tree b empty_tree trs 0 = Ok t -> (edge_count t < fuel)%nat ->
  exists ss, iter_collect fuel b [mk_item t [] 0] = Ok ss /\
    forall s, In s ss <->
      exists t', node_at t (seq_cmds s) t' /\ consolidate_locations b (locs_of t') (length (seq_cmds s)) = Ok (seq_locs s).
Proof. exact search_exhaustive. Qed.
Print Assumptions C54_search_exhaustive.
(** C54: the iterator-driven search gives what the recursive search used elsewhere in the model gives. *)
Theorem C54_search_agrees :
  forall (b : build) (trs : list track) (t : tree) (fuel : nat),
  build_tree b empty_tree trs 0 = Ok t -> (edge_count t < fuel)%nat ->
  best_sequence_iter fuel b t = best_sequence b t /\
  exists ss, sequences b [] t = Ok ss /\ iter_collect fuel b [mk_item t [] 0] = Ok ss.
Proof. exact iter_agrees. Qed.
Print Assumptions C54_search_agrees.
(** C54: the chosen candidate is worthwhile and no candidate with fewer than 256 copies saves more; when
    nothing is chosen there is no such candidate. *)
Theorem C54_best_choice :
  forall (b : build) (trs : list track) (t : tree) (fuel : nat) (o : option sequence),
  build_tree b empty_tree trs 0 = Ok t -> Z.of_nat (commands_in trs) < 2 ^ 31 -> (edge_count t < fuel)%nat ->
  best_sequence_iter fuel b t = Ok o ->
  exists ss, iter_collect fuel b [mk_item t [] 0] = Ok ss /\
  (forall s, o = Some s -> In s ss /\ worthwhile s) /\
  (forall s', In s' ss -> worthwhile s' -> zsum (map repeat_count (seq_locs s')) < 256 ->
     exists s, o = Some s /\ saving s' <= saving s).
Proof. exact iter_choice. Qed.
Print Assumptions C54_best_choice.
Example C54_case : forall b, exists t o, build_tree b empty_tree ex_song 0 = Ok t /\ edge_count t = 11%nat /\
  best_sequence_iter 12 b t = Ok (Some o) /\ o = mk_seq ex_block [mk_loc 0 0 1; mk_loc 0 5 1; mk_loc 1 2 1].
Proof. exact ex_song_search. Qed.

(** SavingExamples.v: concrete cases for C53 and C54. *)
From Verif Require Import Base ProofLib Command Track SeqTree TreeIter Song SpecLoop SpecSaving OptProofs LoopExamples SavingProofs IterProofs.
Open Scope list_scope.

(** A block that occurs twice, all its notes of one length and velocity. *)
Definition plain_song : song := mk_song [[0%nat]] [ex_block ++ [ex_note 9] ++ ex_block].
Definition plain_tracks : list track := [[ex_call 1 1; ex_note 9; ex_call 1 1]; ex_block].
Lemma plain_optimised b : optimize_call_loops b (tracks plain_song) 1 = Ok plain_tracks.
Proof. destruct b; vm_compute; reflexivity. Qed.
Definition bytes_of (s : song) (i : nat) : list Z := match write_track s [] i [] with Ok (l, _) => l | _ => [] end.
Lemma bytes_grow b : exists (s : song) (r : list track) (before after : list (list Z)),
  Forall loop_free (tracks s) /\ fresh_repeats (tracks s) /\
  optimize_call_loops b (tracks s) (length (tracks s)) = Ok r /\
  song_bytes s before /\ song_bytes (mk_song (parts s) r) after /\ (total_bytes before < total_bytes after)%nat.
Proof.
  exists plain_song, plain_tracks, [bytes_of plain_song 0], [bytes_of (mk_song [[0%nat]] plain_tracks) 0; bytes_of (mk_song [[0%nat]] plain_tracks) 1].
  split; [repeat (constructor; [apply check_free_ok; reflexivity|]); constructor|].
  split; [apply varied_ok; vm_compute; reflexivity|].
  split; [apply plain_optimised|]. split; [|split].
  - split; [reflexivity|]. intros [|i] bytes H; cbn [nth_error] in H; [|destruct i; discriminate]. assert (E : bytes = bytes_of plain_song 0) by congruence. rewrite E. eexists. vm_compute. reflexivity.
  - split; [reflexivity|]. intros [|[|i]] bytes H; cbn [nth_error] in H; [| |destruct i; discriminate].
    + assert (E : bytes = bytes_of (mk_song [[0%nat]] plain_tracks) 0) by congruence. rewrite E. eexists. vm_compute. reflexivity.
    + assert (E : bytes = bytes_of (mk_song [[0%nat]] plain_tracks) 1) by congruence. rewrite E. eexists. vm_compute. reflexivity.
  - vm_compute. repeat constructor.
Qed.
Lemma ex_song_saves b : exists t s r, build_tree b empty_tree ex_song 0 = Ok t /\ best_sequence b t = Ok (Some s) /\
  Forall (genuine ex_song (seq_cmds s)) (seq_locs s) /\ saving s = 5 /\
  optimize_call_loops b ex_song 2 = Ok r /\ commands_in ex_song = 15%nat /\ commands_in r = 10%nat.
Proof.
  destruct (ex_song_tree b) as (t & s & Et & Es & ->). exists t, (mk_seq ex_block [mk_loc 0 0 1; mk_loc 0 5 1; mk_loc 1 2 1]). eexists.
  split; [exact Et|]. split; [exact Es|]. split.
  - cbn [seq_locs seq_cmds]. constructor; [|constructor; [|constructor; [|constructor]]]; eexists; (split; [reflexivity|]); cbn [repeat_count cmd_idx].
    + exists [], ([ex_note 9] ++ ex_block). split; reflexivity.
    + exists (ex_block ++ [ex_note 9]), []. split; reflexivity.
    + exists [ex_note 5; ex_note 6], []. split; reflexivity.
  - split; [reflexivity|]. split; [apply ex_song_result|]. split; reflexivity.
Qed.
Lemma ex_song_search b : exists t o, build_tree b empty_tree ex_song 0 = Ok t /\ edge_count t = 11%nat /\
  best_sequence_iter 12 b t = Ok (Some o) /\ o = mk_seq ex_block [mk_loc 0 0 1; mk_loc 0 5 1; mk_loc 1 2 1].
Proof. destruct b; eexists _, _; (split; [vm_compute; reflexivity|]); (split; [vm_compute; reflexivity|]); (split; [vm_compute; reflexivity|reflexivity]). Qed.

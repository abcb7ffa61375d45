(** PropAram.v: property C28 (what the driver plays out of ARAM, with loop calls). Specification:
    SpecAram.v (the driver), SpecLoop.v (loops), SpecRom.v (a song in ARAM), SpecNspc.v (what a
    command list prescribes). *)
From Coq Require Import ZArith List.
From Verif Require Import Base Command Track Song SpecNspc SpecLoop SpecRom SpecAram LoopExamples AramProofs AramMore.
Import ListNotations.
Open Scope Z_scope.
Open Scope list_scope.

(** C28: for a song in ARAM, the driver plays from each voice's track the commands the track plays as,
    with their lengths. Missing: velocities, which hold only under the next theorem's conditions. *)
Theorem C28_pitches_and_lengths_partial :
  forall (mem : Z -> option Z) (a : Z) (lp : bool) (s : song) (at_ : list Z) (n i : nat) (tr : track) (out : list pcmd),
  song_in mem a lp s at_ -> song_shape n s -> Forall (Forall playable) (tracks s) ->
  (i < n)%nat -> nth_error (tracks s) i = Some tr -> tr <> [] -> plays_as (tracks s) tr out ->
  exists pre es st, frame_cmds s i pre /\
    run mem true (nth i at_ 0) (None, None) (control_events pre ++ es) st /\
    map (heard false) es = map (heard false) (prescribed out None None).
Proof. exact heard_timing. Qed.
Print Assumptions C28_pitches_and_lengths_partial.
(** C28, with velocities, when no loop leaves behind a velocity that the next note would have to
    restore although it is the one before the loop. *)
Theorem C28_velocities_partial :
  forall (mem : Z -> option Z) (a : Z) (lp : bool) (s : song) (at_ : list Z) (n i : nat) (tr : track) (out : list pcmd),
  song_in mem a lp s at_ -> song_shape n s -> Forall (Forall playable) (tracks s) ->
  Forall (Forall full) (tracks s) -> velocity_safe (tracks s) tr ->
  (i < n)%nat -> nth_error (tracks s) i = Some tr -> tr <> [] -> plays_as (tracks s) tr out ->
  exists pre es st, frame_cmds s i pre /\
    run mem true (nth i at_ 0) (None, None) (control_events pre ++ es) st /\
    map (heard true) es = map (heard true) (prescribed out None None).
Proof. exact heard_loud. Qed.
Print Assumptions C28_velocities_partial.
(** C28: the optimised and the unoptimised song sound the same, but for velocities. *)
Theorem C28_optimised_sounds_the_same_partial :
  forall (b : build) (trs r : list track) (ps : list (list nat)) (mem1 : Z -> option Z) (a1 : Z) (lp1 : bool) (at1 : list Z)
    (mem2 : Z -> option Z) (a2 : Z) (lp2 : bool) (at2 : list Z) (i : nat) (tr : track),
  Forall loop_free trs -> keeps_music trs r -> Forall (Forall playable) trs ->
  optimize_call_loops b trs (length trs) = Ok r ->
  (forall p, In p ps -> p <> [] /\ Forall (fun t => (t < length trs)%nat) p) ->
  song_in mem1 a1 lp1 (mk_song ps trs) at1 -> song_in mem2 a2 lp2 (mk_song ps r) at2 ->
  nth_error trs i = Some tr -> tr <> [] ->
  exists pre es1 st1 es2 st2,
    run mem1 true (nth i at1 0) (None, None) (control_events pre ++ es1) st1 /\
    run mem2 true (nth i at2 0) (None, None) (control_events pre ++ es2) st2 /\
    map (heard false) es1 = map (heard false) es2 /\
    map (heard false) es1 = map (heard false) (prescribed tr None None).
Proof. exact same_timing. Qed.
Print Assumptions C28_optimised_sounds_the_same_partial.
Example C28_case : forall b, Forall loop_free [safe_track] /\ keeps_music [safe_track] safe_result /\
  Forall (Forall playable) [safe_track] /\ Forall (Forall full) [safe_track] /\
  optimize_call_loops b [safe_track] 1 = Ok safe_result /\ velocity_safe safe_result (nth 0 safe_result []) /\
  song_in safe_mem1 0xd000 false (mk_song [[0%nat]] [safe_track]) safe_at1 /\
  song_in safe_mem2 0xd000 false (mk_song [[0%nat]] safe_result) safe_at2.
Proof. exact safe_case. Qed.
(** C28 is false for velocities in general: soft notes around an extracted loud block. *)
Theorem C28_velocity_refuted :
  forall b : build, exists tr r mem at_ es st,
  loop_free tr /\ no_immediate_repeat tr /\ Forall playable tr /\ Forall full tr /\
  optimize_call_loops b [tr] 1 = Ok r /\ song_in mem 0xd000 false (mk_song [[0%nat]] r) at_ /\
  run mem true (nth 0 at_ 0) (None, None) (control_events [(0xfa, [0x19]); (0xe5, [0xc8]); (0xed, [0xc8])] ++ es) st /\
  map (heard true) es <> map (heard true) (prescribed tr None None).
Proof. exact velocity_changes. Qed.
Print Assumptions C28_velocity_refuted.
(** What the driver plays is determined by the memory. *)
Theorem C28_playing_is_unique :
  forall (mem : Z -> option Z) (calls : bool) (a : Z) (st : drv) (es1 : list event) (st1 : drv) (es2 : list event) (st2 : drv),
  run mem calls a st es1 st1 -> run mem calls a st es2 st2 -> es1 = es2 /\ st1 = st2.
Proof. exact run_det. Qed.
Print Assumptions C28_playing_is_unique.

(** SpecScore.v: a song as its command lists say, and what the driver plays (C67). Used only to state theorems. *)
From Coq Require Import ZArith List.
From Verif Require Import Base Command Track Song SpecNspc SpecLoop SpecRom SpecAram.
Import ListNotations.
Open Scope Z_scope.

(** A song whose first part is [part]: every part lists tracks of the song, and no part is empty. *)
Definition song_parts (s : song) (part : list nat) : Prop :=
  nth_error (parts s) 0 = Some part /\
  forall p, In p (parts s) -> p <> [] /\ Forall (fun t => (t < length (tracks s))%nat) p.
(** Loop calls name tracks with commands that are in no part and make no calls themselves. *)
Definition song_calls (s : song) : Prop :=
  forall tr pc t k, In tr (tracks s) -> In pc tr -> cmd pc = CallLoop t k ->
  exists body, nth_error (tracks s) t = Some body /\ body <> [] /\ loop_free body /\ forall p, In p (parts s) -> ~ In t p.

(** The voice that plays track [i] executes [es]: first the commands that open the track, then those of the track, loop calls
    expanded, with their lengths and, if [loud], velocities. A track without commands is silent. *)
Definition plays_track (loud : bool) (s : song) (i : nat) (es : list event) : Prop :=
  exists tr, nth_error (tracks s) i = Some tr /\
  ((tr = [] /\ es = []) \/
   (tr <> [] /\ exists pre out es', frame_cmds s i pre /\ plays_as (tracks s) tr out /\ es = control_events pre ++ es' /\
      map (heard loud) es' = map (heard loud) (prescribed out None None))).
(** The same, to the event: tracks without loop calls. *)
Definition plays_exactly (s : song) (i : nat) (es : list event) : Prop :=
  exists tr, nth_error (tracks s) i = Some tr /\
  ((tr = [] /\ es = []) \/ (tr <> [] /\ exists pre, frame_cmds s i pre /\ es = control_events pre ++ prescribed tr None None)).
(** Voice [k] of eight plays the [k]-th track of the part; the other voices are silent. *)
Definition plays_part (voice : nat -> list event -> Prop) (part : list nat) (ess : list (list event)) : Prop :=
  length ess = 8%nat /\
  forall k es, nth_error ess k = Some es -> match nth_error part k with Some i => voice i es | None => es = [] end.

(** SpecDump.v: what the fields of a dumped handler mean (C84). *)
From Coq Require Import ZArith List.
From Verif Require Import Base Messages Midi MidiDump SpecMidi SpecNotes SpecVoices.
Import ListNotations.
Open Scope Z_scope.

(** [d] shows the file [ts]: its tracks, and for each of the sixteen channels the file's messages for that
    channel in time order (messages at one time in file order) and the times at which it sounds. The times are
    right of a build that checks overflow, and of a channel in which no release comes before its note. *)
Definition shows_channel (b : build) (ts : list (list message)) (c : nat) (x : channel) : Prop :=
  stable_sort_of (file_order ts c) (ch_messages x) /\ (ch_base x < 8)%nat /\
  (b = Debug \/ balanced (ch_messages x) ->
   forall t, 0 <= t -> before_end (ch_messages x) t -> (sounds (ch_intervals x) t <-> 0 < sounding (ch_messages x) t)).
Definition shows_channels (b : build) (ts : list (list message)) (d : dump) : Prop :=
  length (d_channels d) = 16%nat /\ forall c x, nth_error (d_channels d) c = Some x -> shows_channel b ts c x.
(** The base voice shown for channel [c]. *)
Definition shown_base (d : dump) (c : nat) : option nat := option_map ch_base (nth_error (d_channels d) c).
(** Nothing has been put in the channels or in the voices. *)
Definition shows_nothing (d : dump) : Prop :=
  length (d_channels d) = 16%nat /\ Forall (fun x => ch_messages x = [] /\ ch_intervals x = [] /\ ch_base x = O) (d_channels d) /\
  length (d_voices d) = 8%nat /\ Forall (fun l => l = []) (d_voices d) /\ d_max d = 0.
(** The notes of a list of messages of all channels. *)
Definition notes_in (l : list tmsg) : list note := flat_map (fun c => channel_notes (filter (for_channel c) l)) (seq 0 16).

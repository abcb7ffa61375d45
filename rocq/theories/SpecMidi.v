(** SpecMidi.v: what a MIDI file means, for stating theorems about reading it (C11, C15-C23, C49). *)
From Coq Require Import ZArith List Bool Permutation Sorted.
From Verif Require Import Base Messages.

(** ** Tracks and channels (C15). *)
Definition delta (m : message) : Z :=
  match m with
  | MetaEvent d _ _ => d
  | MidiEvent d _ => d
  | SysExEvent d _ _ => d
  | TrackChange => 0
  end.
(** The messages of a track with their absolute times, the track starting at [now]. *)
Fixpoint timed (now : Z) (l : list message) : list tmsg :=
  match l with
  | [] => []
  | m :: r => (m, now + delta m) :: timed (now + delta m) r
  end.
Definition event_channel (e : midi_event) : Z :=
  match e with
  | NoteOff c _ _ => c | NoteOn c _ _ => c | PolyphonicKeyPressure c _ _ => c | ControlChange c _ _ => c
  | ProgramChange c _ => c | ChannelPressure c _ => c | PitchBendChange c _ => c | UnknownEvent c => c
  end.
(** The channel a message is addressed to: meta and sysex messages count as channel 0. *)
Definition addressee (m : message) : option Z :=
  match m with
  | MidiEvent _ e => Some (event_channel e)
  | MetaEvent _ _ _ => Some 0
  | SysExEvent _ _ _ => Some 0
  | TrackChange => None
  end.
Definition for_channel (c : nat) (x : tmsg) : bool :=
  match addressee (fst x) with Some c' => c' =? Z.of_nat c | None => false end.
(** Everything addressed to channel [c], in file order. *)
Definition file_order (ts : list (list message)) (c : nat) : list tmsg :=
  filter (for_channel c) (flat_map (timed 0) ts).

(** Note-offs (also in the form of note-ons of velocity 0) come first, note-ons last. *)
Definition note_off (m : message) : bool :=
  match m with
  | MidiEvent _ (NoteOff _ _ _) => true
  | MidiEvent _ (NoteOn _ _ v) => v =? 0
  | _ => false
  end.
Definition note_on (m : message) : bool :=
  match m with MidiEvent _ (NoteOn _ _ v) => negb (v =? 0) | _ => false end.
Definition rank (m : message) : Z := if note_off m then 0 else if note_on m then 2 else 1.
Definition not_after (x y : tmsg) : Prop :=
  snd x < snd y \/ (snd x = snd y /\ rank (fst x) <= rank (fst y)).
Definition same_place (x y : tmsg) : bool := (snd x =? snd y) && (rank (fst x) =? rank (fst y)).
(** [l'] is [l] sorted, ties in the original order. *)
Definition stable_sort_of (l l' : list tmsg) : Prop :=
  Permutation l l' /\ StronglySorted not_after l' /\
  forall x, filter (same_place x) l' = filter (same_place x) l.

(** A file whose channel numbers are below 16 and whose tracks last less than 2^32 ticks. *)
Definition channel_ok (m : message) : Prop :=
  match addressee m with Some c => 0 <= c < 16 | None => True end.
Definition track_ok (l : list message) : Prop :=
  Forall (fun x => channel_ok (fst x) /\ 0 <= delta (fst x) /\ 0 <= snd x < 2 ^ 32) (timed 0 l).
Definition file_ok (ts : list (list message)) : Prop := Forall track_ok ts.

(** [m] interleaves the lists [rs], keeping the order of each. *)
Inductive interleave : list (list tmsg) -> list tmsg -> Prop :=
| inter_nil rs : Forall (fun r => r = []) rs -> interleave rs []
| inter_cons rs i x r rs' m : nth_error rs i = Some (x :: r) -> set_nth rs i r = Some rs' ->
    interleave rs' m -> interleave rs (x :: m).

(** Sixteen sorted channels, each holding only messages addressed to it. *)
Definition well_channelled (rs : list (list tmsg)) : Prop :=
  forall c r x, nth_error rs c = Some r -> In x r -> for_channel c x = true.
Definition typed (x : tmsg) : Prop :=
  channel_ok (fst x) /\ 0 <= snd x < 2 ^ 32 /\
  match fst x with MidiEvent _ (NoteOn _ _ v) => 0 <= v | _ => True end.
Definition channels_ok (chs : list (list tmsg)) : Prop :=
  length chs = 16%nat /\ Forall (Forall typed) chs /\ Forall (StronglySorted not_after) chs /\ well_channelled chs.

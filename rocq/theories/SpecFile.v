(** SpecFile.v: MIDI files that the converter renders completely (C52). Used only to state theorems. *)
From Coq Require Import ZArith List Bool.
From Verif Require Import Base Messages Midi SpecMidi SpecNotes SpecVoices SpecVoice.

(** Note-on of key [k] on the percussion channel; note-off of that key. *)
Definition drum_on (k : Z) (m : message) : bool :=
  match m with MidiEvent _ (NoteOn c k' _) => (c =? 9) && (k' =? k) | _ => false end.
Definition drum_off (k : Z) (m : message) : bool :=
  match m with MidiEvent _ (NoteOff c k' _) => (c =? 9) && (k' =? k) | _ => false end.
(** Snares (keys 38 and 40) are switched off by note-off messages: between two note-ons of the same snare
    (of any velocity) there is a note-off. *)
Definition snares_released (l : list tmsg) : Prop :=
  forall k l1 x l2 y l3, k = 38 \/ k = 40 ->
  l = l1 ++ x :: l2 ++ y :: l3 -> drum_on k (fst x) = true -> drum_on k (fst y) = true ->
  exists z, In z l2 /\ drum_off k (fst z) = true.

(** The key of a note message. *)
Definition note_key (m : message) : option Z :=
  match m with MidiEvent _ (NoteOn _ k _) => Some k | MidiEvent _ (NoteOff _ k _) => Some k | _ => None end.
(** Some note of the channel [l] (sorted) is held at time [t]: it was struck before [t] and its key is not
    released at or before [t] (it may be struck again at [t]). *)
Definition holds_note (l : list tmsg) (t : Z) : Prop :=
  exists l1 m t1 l2, l = l1 ++ (m, t1) :: l2 /\ note_on m = true /\ t1 < t /\
  forall z, In z l2 -> note_key (fst z) = note_key m -> t < snd z \/ (t = snd z /\ note_on (fst z) = true).
(** At some time both channels have notes sounding. *)
Definition together (l l' : list tmsg) : Prop :=
  balanced l /\ balanced l' /\
  exists t, 0 <= t /\ before_end l t /\ before_end l' t /\ 0 < sounding l t /\ 0 < sounding l' t.

(** The note is at least one step (1/24 beat) long. *)
Definition step_long (tpb : Z) (n : note) : Prop := forall off, nt_off n = Some off -> 24 * nt_on n + tpb <= 24 * off.
(** Notes of any length, each of which ends well after the end of every note that has ended when it starts. *)
Definition well_apart (tpb : Z) (notes : list note) : Prop :=
  forall n off, In n notes -> nt_off n = Some off -> nt_on n < off /\
  forall n' e, In n' notes -> nt_off n' = Some e -> e <= nt_on n -> apart tpb (Some e) off.

(** A file of tracks [ts], [tpb] ticks per beat: its data bytes are in range; it lasts at most 1354 beats
    and less than 2^24 ticks; a program is chosen on a channel only while the channel holds no note, and while
    another channel holds a note only if the two channels sound together somewhere; notes are between keys 24 and 95
    (after the mapping of drums); they are at least one step long, or well apart in a file of less than 349525 ticks
    (less a step); snares are released. *)
Record renderable (tpb : Z) (ts : list (list message)) : Prop := mk_renderable {
  rf_beat : 1 <= tpb <= 65535;
  rf_ok : file_ok ts;
  rf_valid : Forall (Forall midi_valid) ts;
  rf_length : forall x, In x (flat_map (timed 0) ts) -> 24 * (snd x + 1) <= 32510 * tpb /\ snd x + tpb < 2 ^ 24;
  rf_programs : forall x c c' l l', In x (flat_map (timed 0) ts) -> is_pc (fst x) = true -> for_channel c x = true ->
    stable_sort_of (file_order ts c) l -> stable_sort_of (file_order ts c') l' -> (c' < 16)%nat ->
    holds_note l' (snd x) -> c' <> c /\ together l l';
  rf_notes : forall notes, file_notes ts notes -> Forall (fun n => 24 <= nt_key (drum n) <= 95) notes;
  rf_lengths : forall notes, file_notes ts notes -> Forall (step_long tpb) notes \/
    ((forall x, In x (flat_map (timed 0) ts) -> 24 * (snd x + 1) + tpb < 2 ^ 23) /\ well_apart tpb notes);
  rf_snares : forall l, stable_sort_of (file_order ts 9) l -> snares_released l
}.
(** The file's ticks per beat: the last header's. *)
Definition beat_ticks (l : list callback) : Z :=
  fold_left (fun tpb c => match c with CHeader _ _ d => d | _ => tpb end) l 0.
(** The number of messages of a file. *)
Definition file_size (ts : list (list message)) : nat := list_sum (map (@length _) ts).

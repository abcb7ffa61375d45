(** SpecVoices.v: base voices and sounding times, for C16 and C17. *)
From Coq Require Import ZArith List Bool Permutation.
From Verif Require Import Base Messages Midi SpecMidi SpecNotes.

(** A channel sounds at time [t] according to its list of intervals. *)
Definition sounds (ivs : list interval) (t : Z) : Prop :=
  exists i, In i ivs /\ 0 < i_voices i /\ i_start i <= t < i_end i.
Definition clash (a b : list interval) : Prop := exists t, sounds a t /\ sounds b t.
(** An assignment of channels to eight voices in which channels sharing a voice never sound together. *)
Definition conflict_free (chs : list (list interval)) (base : list nat) : Prop :=
  length base = length chs /\ Forall (fun v => (v < 8)%nat) base /\
  forall i j a b v, i <> j -> nth_error chs i = Some a -> nth_error chs j = Some b ->
    nth_error base i = Some v -> nth_error base j = Some v -> ~ clash a b.

(** Number of notes switched on and not off among the messages up to and including time [t]. *)
Definition weight (m : message) : Z := if note_on m then 1 else if note_off m then -1 else 0.
Fixpoint sounding (l : list tmsg) (t : Z) : Z :=
  match l with
  | [] => 0
  | (m, t') :: r => (if t' <=? t then weight m else 0) + sounding r t
  end.
(** [t] lies before some note message of [l]. *)
Definition before_end (l : list tmsg) (t : Z) : Prop :=
  exists m t', In (m, t') l /\ (note_on m || note_off m) = true /\ t < t'.

(** A channel never has more note-offs than note-ons so far (and fewer than 2^64 notes at once). *)
Fixpoint surplus (l : list tmsg) : Z :=
  match l with [] => 0 | (m, _) :: r => weight m + surplus r end.
Definition balanced (l : list tmsg) : Prop := forall p q, l = p ++ q -> 0 <= surplus p < 2 ^ 64.

(** What a reader's callbacks contain: one track per track change, made of the messages up to the next. *)
Definition message_of (c : callback) : option message :=
  match c with
  | CMeta d e x => Some (MetaEvent d e x)
  | CMidi d e => Some (MidiEvent d e)
  | CSysEx d e x => Some (SysExEvent d e x)
  | _ => None
  end.
Fixpoint take_track (l : list callback) : list message :=
  match l with
  | [] => []
  | CTrackChange :: _ => []
  | c :: r => match message_of c with Some m => m :: take_track r | None => take_track r end
  end.
Fixpoint tracks_of (l : list callback) : list (list message) :=
  match l with
  | [] => []
  | CTrackChange :: r => take_track r :: tracks_of r
  | _ :: r => tracks_of r
  end.
(** Format 1 only, and no message before the first track. *)
Fixpoint format1 (started : bool) (l : list callback) : bool :=
  match l with
  | [] => true
  | CHeader f _ _ :: r => (f =? 1) && format1 started r
  | CTrackChange :: r => format1 true r
  | _ :: r => started && format1 started r
  end.

(** Base voices: one of eight for each of sixteen channels. *)
Definition base_ok (base : list nat) : Prop := length base = 16%nat /\ Forall (fun v => (v < 8)%nat) base.
(** A possible iteration order of a hash map: any permutation of its entries. *)
Definition permutes (o : notes -> notes) : Prop := forall n, Permutation (o n) n.
(** Channel numbers and velocities are unsigned. *)
Definition message_typed (m : message) : Prop :=
  match addressee m with Some c => 0 <= c | None => True end /\
  match m with MidiEvent _ (NoteOn _ _ v) => 0 <= v | _ => True end.
(** Callbacks with non-negative channel and velocity bytes, as the Rust types guarantee. *)
Definition callback_typed (c : callback) : Prop :=
  match c with
  | CMidi d e => message_typed (MidiEvent d e)
  | _ => True
  end.
(** The channels of a file, as specified by C15. *)
Definition file_notes (ts : list (list message)) (notes : list note) : Prop :=
  exists chs, length chs = 16%nat /\ (forall c, stable_sort_of (file_order ts c) (nth c chs [])) /\
    notes = flat_map channel_notes chs.

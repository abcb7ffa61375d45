(** SpecHeads.v: voices whose note-offs name the note they end, whatever their times (C48). Used only to state theorems. *)
From Verif Require Import Base Messages.

(** [open] is the key of the sounding note. *)
Fixpoint off_keys_from (open : option Z) (events : list tmsg) : Prop :=
  match events with
  | [] => True
  | (MidiEvent _ (NoteOn _ k _), _) :: r => off_keys_from (Some k) r
  | (MidiEvent _ (NoteOff _ k _), _) :: r =>
      match open with Some k' => k = k' | None => True end /\ off_keys_from None r
  | _ :: r => off_keys_from open r
  end.
Definition off_keys (events : list tmsg) : Prop := off_keys_from None events.

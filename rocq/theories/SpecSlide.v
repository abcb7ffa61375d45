(** SpecSlide.v: when a song has pitch slides at all (C82). *)
From Coq Require Import ZArith List Bool.
From Verif Require Import Base Messages Command Track.
Import ListNotations.
Open Scope Z_scope.

(** A message that switches portamento on: controller 65 with a value of 64 or more. *)
Definition switches_on (m : message) : bool :=
  match m with
  | MidiEvent _ (ControlChange _ control value) => (control =? 65) && (64 <=? value)
  | _ => false
  end.

(** A file none of whose tracks switches portamento on. *)
Definition never_on (trs : list (list message)) : Prop :=
  Forall (Forall (fun m => switches_on m = false)) trs.

(** A track without pitch slides. *)
Definition no_slides (tr : track) : Prop :=
  Forall (fun pc => forall delay time target, cmd pc <> PitchSlide delay time target) tr.

(** The keys a track slides to, in order. *)
Definition slide_keys (tr : track) : list Z :=
  flat_map (fun pc => match cmd pc with PitchSlide _ _ target => [target - 0x68] | _ => [] end) tr.
(** The keys struck on channel [c] of a file, track by track. *)
Definition struck_on (c : Z) (trs : list (list message)) : list Z :=
  flat_map (fun m => match m with
    | MidiEvent _ (NoteOn c' key velocity) => if (c' =? c) && (0 <? velocity) then [key] else []
    | _ => [] end) (concat trs).

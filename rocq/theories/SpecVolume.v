(** SpecVolume.v: the volumes of a file's channels (C65). *)
From Coq Require Import ZArith List Bool.
From Verif Require Import Base Messages SpecMidi SpecNotes SpecVoices SpecFile SpecHeard.

(** Controller 7 is the channel volume. *)
Definition volume_of (m : message) : option Z :=
  match m with MidiEvent _ (ControlChange _ n d) => if n =? 7 then Some d else None | _ => None end.
Definition is_volume (x : tmsg) : bool := match volume_of (fst x) with Some _ => true | None => false end.
(** The last volume set in a list; the volume of a channel at time [t]. *)
Fixpoint last_volume (l : list tmsg) : option Z :=
  match l with
  | [] => None
  | x :: r => match last_volume r with Some d => Some d | None => volume_of (fst x) end
  end.
Definition volume_at (l : list tmsg) (t : Z) : option Z := last_volume (filter (fun x => snd x <=? t) l).
(** The driver's volume of a channel, which every voice of a song has at first. *)
Definition channel_volume (o : option Z) : Z := match o with Some d => 2 * d | None => 0xc8 end.

(** The channel sets its volume, and not after its first note. *)
Definition volume_first (l : list tmsg) : Prop :=
  last_volume l <> None /\
  forall l1 x l2, l = l1 ++ x :: l2 -> note_on (fst x) = true -> Forall (fun y => is_volume y = false) l2.
(** The channel sets its volume only when the keys struck before have been released. *)
Definition volume_between (l : list tmsg) : Prop :=
  forall l1 x l2 y l3, l = l1 ++ x :: l2 ++ y :: l3 -> note_on (fst x) = true -> is_volume y = true ->
  exists z, In z l2 /\ note_key (fst z) = note_key (fst x).
(** Channel [c] plays with its own volumes: every other channel either sounds together with it somewhere, so
    that they get different voices, or sets no volume; and either [c] sets its volume before its first note, or
    it sets volumes between its notes and plays one note at a time, never while a channel sounds that has no
    note together with it. *)
Definition keeps_volume (ts : list (list message)) (c : nat) : Prop :=
  (c < 16)%nat /\ forall l, stable_sort_of (file_order ts c) l ->
  (forall i l', (i < 16)%nat -> i <> c -> stable_sort_of (file_order ts i) l' -> together l l' \/ last_volume l' = None) /\
  (volume_first l \/ (volume_between l /\ one_at_a_time l /\
     forall i l', (i < 16)%nat -> i <> c -> stable_sort_of (file_order ts i) l' -> together l l' \/ apart l l')).

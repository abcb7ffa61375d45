(** SpecNotes.v: notes of a channel and of a voice, for C11, C18-C20, C22, C23. *)
From Coq Require Import ZArith List Bool.
From Verif Require Import Base Messages SpecMidi.

(** A note: channel, key, time switched on, time switched off (if ever), velocity. *)
Record note := mk_note { nt_ch : Z; nt_key : Z; nt_on : Z; nt_off : option Z; nt_vel : Z }.

(** In a channel, a note of key [k] ends at the next note-off or note-on message for key [k]. *)
Fixpoint note_end (k : Z) (l : list tmsg) : option Z :=
  match l with
  | [] => None
  | (MidiEvent _ (NoteOff _ k' _), t) :: r => if k' =? k then Some t else note_end k r
  | (MidiEvent _ (NoteOn _ k' _), t) :: r => if k' =? k then Some t else note_end k r
  | _ :: r => note_end k r
  end.
(** The notes of a channel: one for every note-on of non-zero velocity. *)
Fixpoint channel_notes (l : list tmsg) : list note :=
  match l with
  | [] => []
  | (MidiEvent _ (NoteOn c k v), t) :: r =>
      if v =? 0 then channel_notes r else mk_note c k t (note_end k r) v :: channel_notes r
  | _ :: r => channel_notes r
  end.

(** In a voice, a note ends at the next note-off. *)
Fixpoint voice_end (l : list tmsg) : option Z :=
  match l with
  | [] => None
  | (MidiEvent _ (NoteOff _ _ _), t) :: _ => Some t
  | _ :: r => voice_end r
  end.
Fixpoint voice_notes (l : list tmsg) : list note :=
  match l with
  | [] => []
  | (MidiEvent _ (NoteOn c k v), t) :: r => mk_note c k t (voice_end r) v :: voice_notes r
  | _ :: r => voice_notes r
  end.

(** The percussion channel is number 9 counting from 0; its snare notes sound at key 68. *)
Definition drum_key (c k : Z) : Z := if (c =? 9) && ((k =? 38) || (k =? 40)) then 68 else k.
Definition drum (n : note) : note := mk_note (nt_ch n) (drum_key (nt_ch n) (nt_key n)) (nt_on n) (nt_off n) (nt_vel n).

(** Note-ons and note-offs strictly alternate, starting with [open] (channel and key of a sounding note);
    a note-off is for the channel and key that is sounding (on the percussion channel it may carry the
    original key instead). *)
Fixpoint alternates (open : option (Z * Z)) (l : list tmsg) : Prop :=
  match l with
  | [] => True
  | (MidiEvent _ (NoteOn c k v), _) :: r => open = None /\ v <> 0 /\ alternates (Some (c, k)) r
  | (MidiEvent _ (NoteOff c k _), _) :: r =>
      (exists k', open = Some (c, k') /\ (k = k' \/ (c = 9 /\ drum_key c k = k'))) /\ alternates None r
  | _ :: r => alternates open r
  end.

(** The last program change of a list of messages: its channel and its program. *)
Fixpoint last_program (l : list tmsg) : option (Z * Z) :=
  match l with
  | [] => None
  | (MidiEvent _ (ProgramChange c p), _) :: r =>
      match last_program r with Some q => Some q | None => Some (c, p) end
  | _ :: r => last_program r
  end.

(** A voice is sounding after [l] if its last note message is a note-on. *)
Fixpoint sounding_after (open : bool) (l : list tmsg) : bool :=
  match l with
  | [] => open
  | (MidiEvent _ (NoteOn _ _ _), _) :: r => sounding_after true r
  | (MidiEvent _ (NoteOff _ _ _), _) :: r => sounding_after false r
  | _ :: r => sounding_after open r
  end.

(** (time, key) of the note-ons of a channel; two equal pairs are a double hit. *)
Fixpoint hits (l : list tmsg) : list (Z * Z) :=
  match l with
  | [] => []
  | (MidiEvent _ (NoteOn _ k v), t) :: r => if v =? 0 then hits r else (t, k) :: hits r
  | _ :: r => hits r
  end.

(** In time order; and any note-off after a note-on is strictly later. *)
Definition offs_before_ons (l : list tmsg) : Prop :=
  forall l1 l2 l3 d1 c1 k1 v1 t1 d2 c2 k2 v2 t2,
  l = l1 ++ (MidiEvent d1 (NoteOn c1 k1 v1), t1) :: l2 ++ (MidiEvent d2 (NoteOff c2 k2 v2), t2) :: l3 -> t1 < t2.

Definition time_le (x y : tmsg) : Prop := snd x <= snd y.

(** The program change in force in a channel at time [t], given the channel's messages. *)
Definition program_at (ch : list tmsg) (t : Z) : option (Z * Z) := last_program (filter (fun x => snd x <=? t) ch).
Definition is_pc (m : message) : bool := match m with MidiEvent _ (ProgramChange _ _) => true | _ => false end.
(** All program changes of a channel come before its first note. *)
Definition programs_first (ch : list tmsg) : Prop :=
  forall l1 x l2, ch = l1 ++ x :: l2 -> note_on (fst x) = true -> Forall (fun y => is_pc (fst y) = false) l2.
(** Other channels with the same base voice send no program changes (and are not a percussion channel
    with notes). *)
Definition quiet_sharers (chs : list (list tmsg)) (base : list nat) (c : nat) : Prop :=
  forall i, (i < 16)%nat -> i <> c -> nth i base 0%nat = nth c base 0%nat ->
    last_program (nth i chs []) = None /\ (i = 9%nat -> channel_notes (nth i chs []) = []).
(** Instrument of a percussion note: 19 is the snare, 12 the cymbal. *)
Definition drum_instrument (k : Z) : Z := if (k =? 38) || (k =? 40) then 19 else 12.

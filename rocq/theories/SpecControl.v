(** SpecControl.v: the instrument, volume and tempo changes of a voice, and those of a converted track
    (C50, C51). *)
From Coq Require Import Sorted.
From Verif Require Import Base F32 Messages Command Track SpecTime SpecVoice.

(** The instrument of each of the 128 MIDI programs, as (run length, instrument number). *)
Definition program_runs : list (nat * Z) :=
  [(8%nat, 24); (8%nat, 14); (5%nat, 21); (1%nat, 9); (1%nat, 13); (1%nat, 23); (16%nat, 24); (6%nat,
   9); (1%nat, 15); (1%nat, 2); (4%nat, 9); (3%nat, 21); (1%nat, 9); (1%nat, 17); (1%nat, 11); (1%nat,
   18); (1%nat, 17); (4%nat, 18); (2%nat, 17); (2%nat, 11); (3%nat, 18); (3%nat, 22); (4%nat, 13);
   (1%nat, 8); (1%nat, 13); (1%nat, 3); (1%nat, 4); (1%nat, 13); (3%nat, 6); (2%nat, 7); (3%nat, 5);
   (1%nat, 21); (4%nat, 5); (8%nat, 1); (5%nat, 24); (1%nat, 18); (1%nat, 9); (1%nat, 18); (2%nat, 14);
   (1%nat, 2); (1%nat, 19); (3%nat, 2); (1%nat, 12); (2%nat, 23); (1%nat, 16); (1%nat, 8); (1%nat, 14);
   (1%nat, 23); (1%nat, 1); (1%nat, 23)].
Definition instrument_of_program (p : Z) : Z :=
  nth (Z.to_nat p) (flat_map (fun r => repeat (snd r) (fst r)) program_runs) 0.

(** The command a MIDI message asks for, if any: on channel 9 (percussion) a program number is used as it
    is; controller 7 is the channel volume; the byte of a tempo change is the subject of C13. *)
Definition control_of (tf : f32) (m : message) : option command :=
  match m with
  | MidiEvent _ (ProgramChange ch p) => Some (SetInstrument (if ch =? 9 then p else instrument_of_program p))
  | MidiEvent _ (ControlChange _ c d) => if c =? 7 then Some (ChannelVolume (2 * d)) else None
  | MetaEvent _ SetTempo (x :: y :: z :: _) => Some (Tempo (tempo_byte (65536 * x + 256 * y + z) tf))
  | _ => None
  end.

(** ** In which order. The outline of a voice: its control changes and its notes (by velocity), a note
    standing where its note-off stands. *)
Inductive mark := Control (c : command) | Sounds (v : Z).
Fixpoint outline_from (tf : f32) (sounding : option Z) (events : list tmsg) : list mark :=
  match events with
  | [] => []
  | (m, _) :: r =>
      match control_of tf m with
      | Some c => Control c :: outline_from tf sounding r
      | None =>
          match m, sounding with
          | MidiEvent _ (NoteOn _ _ v), _ => outline_from tf (Some v) r
          | MidiEvent _ (NoteOff _ _ _), Some v => Sounds (v / 8) :: outline_from tf None r
          | _, _ => outline_from tf sounding r
          end
      end
  end.
Definition outline_of (tf : f32) (events : list tmsg) : list mark := outline_from tf None events.

(** The outline of a track. *)
Definition is_control (c : command) : bool :=
  match c with SetInstrument _ | ChannelVolume _ | Tempo _ => true | _ => false end.
Definition track_outline (l : list pcmd) : list mark :=
  flat_map (fun pc => if is_control (cmd pc) then [Control (cmd pc)]
                      else match velocity pc with Some v => [Sounds v] | None => [] end) l.

(** ** When. The control commands of a track with the steps before them. *)
Fixpoint timed_controls (now : Z) (l : list pcmd) : list (Z * command) :=
  match l with
  | [] => []
  | pc :: r => (if is_control (cmd pc) then [(now, cmd pc)] else []) ++ timed_controls (now + steps pc) r
  end.

(** The control changes of a voice, each with its MIDI time and its anchor: the time of the latest note-on,
    note-off or program change up to and including it. *)
Record change := mk_change { ch_time : Z; ch_anchor : Z; ch_cmd : command }.
Definition anchors (sounding : bool) (m : message) : bool :=
  match m with
  | MidiEvent _ (NoteOn _ _ _) | MidiEvent _ (ProgramChange _ _) => true
  | MidiEvent _ (NoteOff _ _ _) => sounding
  | _ => false
  end.
Definition still_sounding (sounding : bool) (m : message) : bool :=
  match m with
  | MidiEvent _ (NoteOn _ _ _) => true
  | MidiEvent _ (NoteOff _ _ _) => false
  | _ => sounding
  end.
Fixpoint changes_from (tf : f32) (anchor : Z) (sounding : bool) (events : list tmsg) : list change :=
  match events with
  | [] => []
  | (m, t) :: r =>
      let anchor' := if anchors sounding m then t else anchor in
      match control_of tf m with Some c => [mk_change t anchor' c] | None => [] end
      ++ changes_from tf anchor' (still_sounding sounding m) r
  end.
Definition changes_of (tf : f32) (events : list tmsg) : list change := changes_from tf 0 false events.
(** Events in time order. *)
Definition in_order (events : list tmsg) : Prop := StronglySorted (fun x y => snd x <= snd y) events.

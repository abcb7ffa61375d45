(** SpecHeard.v: the settings the driver is given while it plays, and the instrument of each note it starts
    (C61, C62). *)
From Coq Require Import ZArith List Bool.
From Verif Require Import Base Messages SpecNspc SpecMidi SpecNotes SpecVoices SpecVoice SpecAram SpecPlayback SpecFile.

(** The driver's commands with one argument that set the instrument, the tempo and the channel volume. *)
Definition INSTRUMENT : Z := 0xe0.
Definition TEMPO : Z := 0xe7.
Definition VOLUME : Z := 0xed.
Definition given (op : Z) (t : token) : option Z :=
  match t with TControl o [x] => if o =? op then Some x else None | _ => None end.
(** Steps taken by an event. *)
Definition event_steps (e : event) : Z := if SpecAram.sounding (ev_token e) then oelse (ev_dur e) 0 else 0.

(** The values given with command [op], with the steps before them. *)
Fixpoint told_from (op now : Z) (es : list event) : list (Z * Z) :=
  match es with
  | [] => []
  | e :: r =>
      match given op (ev_token e) with Some x => [(now, x)] | None => [] end ++ told_from op (now + event_steps e) r
  end.
Definition told (op : Z) (es : list event) : list (Z * Z) := told_from op 0 es.

(** The notes started (as in [attacks]), each with the last value of command [op] given before. *)
Record sound := mk_sound { so_on : Z; so_pitch : Z; so_set : option Z }.
Fixpoint sounds_from (op now : Z) (set : option Z) (prev : option token) (es : list event) : list sound :=
  match es with
  | [] => []
  | e :: r =>
      match attack_of prev (ev_token e) with Some p => [mk_sound now p set] | None => [] end ++
      sounds_from op (now + event_steps e) (match given op (ev_token e) with Some x => Some x | None => set end)
        (Some (ev_token e)) r
  end.
Definition sounds_with (op : Z) (es : list event) : list sound := sounds_from op 0 None None es.

(** The tempo changes of a file, in time order. *)
Definition is_tempo (x : tmsg) : bool := match fst x with MetaEvent _ SetTempo _ => true | _ => false end.
Definition file_tempos (ts : list (list message)) (l : list tmsg) : Prop :=
  stable_sort_of (filter is_tempo (flat_map (timed 0) ts)) l.

(** Some note of the channel [l] (sorted) sounds at time [t]: it was struck at or before [t] and its key is
    not released at or before [t]. *)
Definition sounds_at (l : list tmsg) (t : Z) : Prop :=
  exists l1 m t1 l2, l = l1 ++ (m, t1) :: l2 /\ note_on m = true /\ t1 <= t /\
  forall z, In z l2 -> note_key (fst z) = note_key m -> t < snd z \/ (t = snd z /\ note_on (fst z) = true).
(** No note of [l] starts while [l'] sounds. *)
Definition apart (l l' : list tmsg) : Prop := forall x, In x l -> note_on (fst x) = true -> ~ sounds_at l' (snd x).
(** When a note starts, every other key struck before has been released. *)
Definition one_at_a_time (l : list tmsg) : Prop :=
  forall l1 x l2 y l3, l = l1 ++ x :: l2 ++ y :: l3 -> note_on (fst x) = true -> note_on (fst y) = true ->
  note_key (fst x) <> note_key (fst y) -> exists z, In z l2 /\ note_key (fst z) = note_key (fst x).

(** Channel [c] (not the percussion channel) plays with its own programs: every other channel either sounds
    together with it somewhere, so that they get different voices, or chooses no program (nor is a percussion
    channel with notes); and either the programs of [c] are chosen before its first note, or it plays one note
    at a time, never while a channel sounds that has no note together with it. *)
Definition keeps_program (ts : list (list message)) (c : nat) : Prop :=
  (c < 16)%nat /\ c <> 9%nat /\ forall l, stable_sort_of (file_order ts c) l ->
  (forall i l', (i < 16)%nat -> i <> c -> stable_sort_of (file_order ts i) l' ->
     together l l' \/ (last_program l' = None /\ (i = 9%nat -> channel_notes l' = []))) /\
  (programs_first l \/ (one_at_a_time l /\
     forall i l', (i < 16)%nat -> i <> c -> stable_sort_of (file_order ts i) l' -> together l l' \/ apart l l')).
(** The same for the percussion channel, which chooses its instruments by itself. *)
Definition keeps_drums (ts : list (list message)) : Prop :=
  forall l, stable_sort_of (file_order ts 9) l -> last_program l = None /\ one_at_a_time l /\
  forall i l', (i < 16)%nat -> i <> 9%nat -> stable_sort_of (file_order ts i) l' ->
    together l l' \/ (last_program l' = None /\ apart l l').

(** ** The end of a song (C64) *)
(** The steps a voice plays. *)
Definition played_steps (es : list event) : Z := zsum (map event_steps es).
(** The file ends at tick [t]: at the last of its channel events (notes, controllers and programs). *)
Definition channel_times (ts : list (list message)) : list Z :=
  map snd (filter (fun x : tmsg => match fst x with MidiEvent _ _ => true | _ => false end) (flat_map (timed 0) ts)).
Definition file_end (ts : list (list message)) (t : Z) : Prop :=
  Forall (fun u => u <= t) (channel_times ts) /\ (In t (channel_times ts) \/ (channel_times ts = [] /\ t = 0)).

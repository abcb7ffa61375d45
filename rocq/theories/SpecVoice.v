(** SpecVoice.v: what a voice's MIDI event list means, and how a converted track is read, for stating
    theorems about the conversion (C08-C10, C12, C14, C48). [tpb] is the number of ticks per beat; a step
    is 1/24 beat, so [n] steps last [n * tpb / 24] ticks. Times are compared multiplied by 24. *)
From Verif Require Import Base Messages Command SpecTime.

(** ** Reading a track: walk through its commands, adding up durations. A "head" is a command that
    carries a velocity: the start of a sounding note. *)
Record head := mk_head {
  h_onset : Z;             (* steps from the start of the track *)
  h_cmd : command;
  h_vel : Z;
  h_slide : option pcmd;   (* the last pitch slide since the previous head, if any *)
  h_tied : bool            (* the command just before is that slide *)
}.
Record walk := mk_walk { w_now : Z; w_slide : option pcmd; w_last_slide : bool; w_heads : list head }.
Definition walk0 : walk := mk_walk 0 None false [].
Definition slide_cmd (pc : pcmd) : bool := match cmd pc with PitchSlide _ _ _ => true | _ => false end.
Definition walk_step (w : walk) (pc : pcmd) : walk :=
  mk_walk (w_now w + steps pc)
    (if slide_cmd pc then Some pc else match velocity pc with Some _ => None | None => w_slide w end)
    (slide_cmd pc)
    (match velocity pc with
     | Some v => w_heads w ++ [mk_head (w_now w) (cmd pc) v (w_slide w) (w_last_slide w)]
     | None => w_heads w
     end).
Definition heads (l : list pcmd) : list head := w_heads (fold_left walk_step l walk0).

(** ** The notes of a voice: each note-on paired with the next note-off. *)
Record vnote := mk_vnote { n_on : Z; n_off : Z; n_key : Z; n_vel : Z }.
Fixpoint notes_from (open : option (Z * Z)) (events : list tmsg) : list vnote :=
  match events with
  | [] => []
  | (MidiEvent _ (NoteOn _ _ v), t) :: r => notes_from (Some (t, v)) r
  | (MidiEvent _ (NoteOff _ k _), t) :: r =>
      match open with
      | Some (on, v) => mk_vnote on t k v :: notes_from None r
      | None => notes_from None r
      end
  | _ :: r => notes_from open r
  end.
Definition notes_of (events : list tmsg) : list vnote := notes_from None events.

(** How far, in 1/24 ticks, a position may be from its MIDI time: less than one step when a step is a
    whole number of ticks; otherwise one step plus less than one tick per event of the voice. *)
Definition tolerance (tpb : Z) (events : nat) : Z :=
  if tpb mod 24 =? 0 then tpb else tpb + 23 * Z.of_nat events.

(** A head renders a note: it starts less than [tol] away from the note-on, carries its velocity
    over 8, is a Note with its pitch (or a Tie when it directly follows a slide), and any slide since
    the previous note aims at its pitch. *)
Definition renders (tpb tol : Z) (h : head) (n : vnote) : Prop :=
  Z.abs (h_onset h * tpb - 24 * n_on n) < tol /\
  h_vel h = n_vel n / 8 /\
  h_cmd h = (if h_tied h then Tie else Note (n_key n + 0x68)) /\
  (forall sl p q target, h_slide h = Some sl -> cmd sl = PitchSlide p q target -> target = n_key n + 0x68) /\
  (h_tied h = true -> h_slide h <> None).

(** ** Well-behaved voices. *)
(** Data bytes of a well-formed MIDI file. *)
Definition midi_valid (m : message) : Prop :=
  match m with
  | MidiEvent _ (NoteOn _ k v) => 0 <= k < 128 /\ 0 <= v < 128
  | MidiEvent _ (NoteOff _ k _) => 0 <= k < 128
  | MidiEvent _ (ControlChange _ _ d) => 0 <= d < 128
  | MidiEvent _ (ProgramChange _ p) => 0 <= p < 128
  | MetaEvent _ SetTempo data => (3 <= length data)%nat
  | _ => True
  end.
(** Times at most about 1354 beats and 2^24 ticks apart. *)
Definition near (tpb prev t : Z) : Prop :=
  prev <= t /\ 24 * (t - prev + 1) <= 32510 * tpb /\ t - prev + tpb < 2 ^ 24.

(** Time [t] is well after the end [fin] of the previous note, if any: at least a step after it, or, when a step is a
    whole number of ticks, a whole number of steps from the start falls between the two. *)
Definition apart (tpb : Z) (fin : option Z) (t : Z) : Prop :=
  match fin with
  | None => True
  | Some e => 24 * e + tpb <= 24 * t \/ (tpb mod 24 = 0 /\ exists n, 24 * e <= n * tpb < 24 * t)
  end.
(** A note from [on] to [t] is at least one step long; or it is shorter, ends less than 349525 ticks (less a step) after
    the start, and its end is well after that of the note before. *)
Definition long_enough (tpb : Z) (fin : option Z) (on t : Z) : Prop :=
  24 * on + tpb <= 24 * t \/ (on < t /\ 24 * (t + 1) + tpb < 2 ^ 23 /\ apart tpb fin t).

(** Monophonic, in time order, notes not too short, no program change during a note. [prev] is the time of the previous
    note or program event, [fin] the end of the last note that ended, [open] the sounding note. *)
Fixpoint voice_from (tpb max_time prev : Z) (fin : option Z) (open : option (Z * Z)) (events : list tmsg) : Prop :=
  match events with
  | [] => near tpb prev max_time /\ max_time < 2 ^ 31
  | (m, t) :: r =>
      midi_valid m /\ 0 <= t < 2 ^ 31 /\
      match m with
      | MidiEvent _ (NoteOn _ k _) => open = None /\ near tpb prev t /\ voice_from tpb max_time t fin (Some (t, k)) r
      | MidiEvent _ (NoteOff _ k _) =>
          match open with
          | Some (on, k') => k = k' /\ long_enough tpb fin on t /\ near tpb on t /\ voice_from tpb max_time t (Some t) None r
          | None => voice_from tpb max_time prev fin None r
          end
      | MidiEvent _ (ProgramChange _ _) => open = None /\ near tpb prev t /\ voice_from tpb max_time t fin None r
      | _ => voice_from tpb max_time prev fin open r
      end
  end.
Definition voice_ok (tpb max_time : Z) (events : list tmsg) : Prop := voice_from tpb max_time 0 None None events.

(** Every pitch slide (delay [p], time [q]) directly follows a command other than a rest with a duration
    [d], and delay + min(time, d) = d. *)
Fixpoint slides_fit (prev : option pcmd) (l : list pcmd) : Prop :=
  match l with
  | [] => True
  | c :: r =>
      match cmd c with
      | PitchSlide p q _ =>
          exists pc d, prev = Some pc /\ cmd pc <> Rest /\ duration pc = Some d /\ 0 <= p /\ p + Z.min q d = d
      | _ => True
      end /\ slides_fit (Some c) r
  end.

(** SpecPorta.v: the pitch slides a voice asks for (C71). *)
From Verif Require Import Base Messages Command SpecVoice.

(** What a voice asks for at the start of a note: whether portamento (controller 65) is on, the portamento time
    in ticks (controller 5 counts 256 ticks and controller 37 one), the end of the note before it, unless a change
    of instrument, volume or tempo lies between them, its own start, and whether no such change falls inside it. *)
Record asked := mk_asked { a_on : bool; a_time : Z; a_after : option Z; a_start : Z; a_plain : bool }.
Definition spoiled (a : asked) : asked := mk_asked (a_on a) (a_time a) (a_after a) (a_start a) false.

(** [sw], [coarse] and [fine] are the controllers' values, [last] the end of the last note if nothing was changed
    since, [open] the sounding note. *)
Fixpoint asked_from (sw : bool) (coarse fine : Z) (last : option Z) (open : option asked) (events : list tmsg) : list asked :=
  match events with
  | [] => []
  | (m, t) :: r =>
      match m with
      | MidiEvent _ (NoteOn _ _ _) => asked_from sw coarse fine last (Some (mk_asked sw (256 * coarse + fine) last t true)) r
      | MidiEvent _ (NoteOff _ _ _) =>
          match open with
          | Some a => a :: asked_from sw coarse fine (Some t) None r
          | None => asked_from sw coarse fine last None r
          end
      | MidiEvent _ (ControlChange _ c d) =>
          if c =? 5 then asked_from sw d fine last open r
          else if c =? 7 then asked_from sw coarse fine None (option_map spoiled open) r
          else if c =? 37 then asked_from sw coarse d last open r
          else if c =? 65 then asked_from (64 <=? d) coarse fine last open r
          else asked_from sw coarse fine last open r
      | MidiEvent _ (ProgramChange _ _) | MetaEvent _ SetTempo _ => asked_from sw coarse fine None (option_map spoiled open) r
      | _ => asked_from sw coarse fine last open r
      end
  end.
(** One entry for each note of the voice that is switched off. *)
Definition asked_of (events : list tmsg) : list asked := asked_from false 0 0 None None events.

(** A slide is there only if portamento is on and the note follows the one before it by less than two steps with
    no change between them. It lasts the portamento time rounded up to steps (times of up to 127 steps), and the
    note is tied to it, not struck again, unless there is a change inside the note. A slide is missing only if
    portamento is off, there is a change or no note before, or the note before ended earlier. *)
Definition slide_as_asked (tpb : Z) (sl : option pcmd) (tied : bool) (a : asked) : Prop :=
  match sl with
  | Some pc =>
      a_on a = true /\ (exists off, a_after a = Some off /\ 24 * (a_start a - off) < 2 * tpb) /\
      (exists delay time target, cmd pc = PitchSlide delay time target /\
         (24 * a_time a <= 127 * tpb -> 24 * a_time a <= time * tpb < 24 * a_time a + tpb)) /\
      tied = a_plain a
  | None => tied = false /\ (a_on a = false \/ a_after a = None \/ exists off, a_after a = Some off /\ off < a_start a)
  end.

(** Each slide follows the command of a note or a tie and ends when that command does; a slide that takes longer
    starts with it. *)
Definition slides_placed (tr : list pcmd) : Prop :=
  (forall sl post delay time target, tr = sl :: post -> cmd sl <> PitchSlide delay time target) /\
  forall pre x sl post delay time target, tr = pre ++ x :: sl :: post -> cmd sl = PitchSlide delay time target ->
    (cmd x = Tie \/ exists k, cmd x = Note k) /\
    exists d, duration x = Some d /\ (time <= d -> delay + time = d) /\ (d < time -> delay = 0).

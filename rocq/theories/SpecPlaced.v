(** SpecPlaced.v: where a converted voice puts its notes, for any lengths and any program changes (C08, C09, C10). *)
From Verif Require Import Base Messages.

(** A gap of [q] steps is written as pieces of up to 127 steps, and at most 256 pieces of it are kept. *)
Definition shown (q : Z) : Z := if q <=? 0 then 0 else (q - 1) mod 32512 + 1.
(** The clock of a voice: the time it has reached in ticks, the steps written so far, and the time at which the note
    that is on was started. A step is 1/24 beat; [tpb] ticks are a beat. *)
Record vclock := mk_vclock { k_ticks : Z; k_steps : Z; k_start : option Z }.
Definition vclock0 : vclock := mk_vclock 0 0 None.
(** Waiting until [t] takes the whole steps there are until [t]. *)
Definition wait (tpb : Z) (c : vclock) (t : Z) : vclock :=
  if k_ticks c <? t then
    let q := 24 * (t - k_ticks c) / tpb in mk_vclock (k_ticks c + q * tpb / 24) (k_steps c + shown q) (k_start c)
  else c.
(** The steps before each completed note, and the clock at the end; [None] if a note is switched on while another is on,
    or off before the time at which the clock started it. A note takes all steps it touches. *)
Fixpoint placed (tpb : Z) (c : vclock) (events : list tmsg) : option (list Z * vclock) :=
  match events with
  | [] => Some ([], c)
  | (MidiEvent _ (NoteOn _ _ _), t) :: r =>
      match k_start c with
      | None => let c' := wait tpb c t in placed tpb (mk_vclock (k_ticks c') (k_steps c') (Some (k_ticks c'))) r
      | Some _ => None
      end
  | (MidiEvent _ (NoteOff _ _ _), t) :: r =>
      match k_start c with
      | None => placed tpb c r
      | Some s =>
          if t <? s then None
          else
            let q := (24 * (t - s) + tpb - 1) / tpb in
            match placed tpb (mk_vclock (s + q * tpb / 24) (k_steps c + shown q) None) r with
            | Some (l, e) => Some (k_steps c :: l, e)
            | None => None
            end
      end
  | (MidiEvent _ (ProgramChange _ _), t) :: r => placed tpb (wait tpb c t) r
  | _ :: r => placed tpb c r
  end.

(** No gap between the note and program events of a voice, and no note, is longer than about 349525 ticks less a step. *)
Definition calm_gap (tpb prev t : Z) : Prop := 24 * (t - prev + 1) + tpb < 2 ^ 23.
Fixpoint calm (tpb prev : Z) (on : option Z) (events : list tmsg) (max_time : Z) : Prop :=
  match events with
  | [] => calm_gap tpb prev max_time
  | (MidiEvent _ (NoteOn _ _ _), t) :: r => calm_gap tpb prev t /\ calm tpb t (Some t) r max_time
  | (MidiEvent _ (NoteOff _ _ _), t) :: r =>
      match on with
      | Some o => calm_gap tpb o t /\ calm tpb t None r max_time
      | None => calm tpb prev None r max_time
      end
  | (MidiEvent _ (ProgramChange _ _), t) :: r => calm_gap tpb prev t /\ calm tpb t on r max_time
  | _ :: r => calm tpb prev on r max_time
  end.

(** Time order, no program change during a note, no gap of more than 32510 steps. Notes may be of any length. *)
Definition orderly_gap (tpb prev t : Z) : Prop := prev <= t /\ 24 * (t - prev + 1) <= 32510 * tpb.
Fixpoint orderly (tpb prev : Z) (on : option Z) (events : list tmsg) (max_time : Z) : Prop :=
  match events with
  | [] => orderly_gap tpb prev max_time
  | (MidiEvent _ (NoteOn _ _ _), t) :: r => orderly_gap tpb prev t /\ orderly tpb t (Some t) r max_time
  | (MidiEvent _ (NoteOff _ _ _), t) :: r =>
      match on with
      | Some o => orderly_gap tpb o t /\ orderly tpb t None r max_time
      | None => orderly tpb prev None r max_time
      end
  | (MidiEvent _ (ProgramChange _ _), t) :: r => on = None /\ orderly_gap tpb prev t /\ orderly tpb t None r max_time
  | _ :: r => orderly tpb prev on r max_time
  end.

(** SpecGate.v: how long a converted note sounds, for C60. Used only to state theorems. *)
From Verif Require Import Base Messages Command SpecTime SpecVoice SpecNspc SpecAram SpecPlayback.

(** A tie that prolongs the note before it: it carries no velocity of its own. *)
Definition bare_tie (c : pcmd) : bool :=
  match cmd c, velocity c with Tie, None => true | _, _ => false end.
Fixpoint tie_steps (l : list pcmd) : Z :=
  match l with c :: r => if bare_tie c then steps c + tie_steps r else 0 | [] => 0 end.

(** The notes of a track (commands carrying a velocity): when the note starts, whether it is struck (or
    reached by a slide), the length of its command, its velocity, its sustain (in eighths of that length) and the length of the ties that prolong it. *)
Record slot := mk_slot { s_onset : Z; s_struck : bool; s_steps : Z; s_vel : Z; s_sustain : option Z; s_ties : Z }.
Fixpoint slots_from (now : Z) (l : list pcmd) : list slot :=
  match l with
  | [] => []
  | c :: r =>
      match velocity c with Some v => [mk_slot now (is_note (cmd c)) (steps c) v (sustain c) (tie_steps r)] | None => [] end ++
      slots_from (now + steps c) r
  end.
Definition slots (l : list pcmd) : list slot := slots_from 0 l.

(** The note of slot [s] sounds for [k] steps: sustain 7 lets it sound to the end of its command and ties;
    a struck note without ties may also have a shorter sustain, which then is exactly [k] steps, or sustain 7
    and end in a rest of less than a sixteenth of the note. *)
Definition sounds_for (s : slot) (k : Z) : Prop :=
  (s_sustain s = Some 7 /\ k = s_steps s + s_ties s) \/
  (s_struck s = true /\ s_ties s = 0 /\ exists e, s_sustain s = Some e /\ 1 <= e <= 7 /\ 8 * k = e * s_steps s) \/
  (s_struck s = true /\ s_ties s = 0 /\ s_sustain s = Some 7 /\ k < s_steps s /\ 16 * (s_steps s - k) < k).

(** Slot [s] renders the length and velocity of note [n]: it starts and stops less than [tol] from the
    note's times. *)
Definition lasts (tpb tol : Z) (s : slot) (n : vnote) : Prop :=
  Z.abs (s_onset s * tpb - 24 * n_on n) < tol /\ s_vel s = n_vel n / 8 /\
  exists k, 1 <= k /\ sounds_for s k /\ Z.abs ((s_onset s + k) * tpb - 24 * n_off n) < tol.

(** ** What the driver plays
    A note struck by the driver: time, pitch, length of its command and of the ties that prolong it, whether
    it is reached by a slide (a tie after a pitch slide) instead of struck, and the quantisation/velocity byte
    in force when it starts. *)
Record strike := mk_strike { k_on : Z; k_pitch : Z; k_steps : Z; k_ties : Z; k_slid : bool; k_vs : option Z }.
Fixpoint held (es : list event) : Z :=
  match es with
  | e :: r => match ev_token e with TTie => oelse (ev_dur e) 0 + held r | _ => 0 end
  | [] => 0
  end.
Fixpoint strikes_from (now : Z) (prev : option token) (es : list event) : list strike :=
  match es with
  | [] => []
  | e :: r =>
      match attack_of prev (ev_token e) with
      | Some p => [mk_strike now p (oelse (ev_dur e) 0) (held r) (negb (is_tnote (ev_token e))) (ev_vs e)]
      | None => []
      end ++ strikes_from (now + if sounding (ev_token e) then oelse (ev_dur e) 0 else 0) (Some (ev_token e)) r
  end.
Definition strikes (es : list event) : list strike := strikes_from 0 None es.

(** [x] is a note of key [key] and velocity [vel] from tick [on] to tick [off]. The upper half of the byte
    is the sustain, the lower half the velocity (MIDI velocities have seven bits, the driver's four). *)
Definition heard_fully (tpb tol : Z) (x : strike) (on off key vel : Z) : Prop :=
  Z.abs (k_on x * tpb - 24 * on) < tol /\ k_pitch x = driver_pitch key /\
  exists k, 1 <= k /\ Z.abs ((k_on x + k) * tpb - 24 * off) < tol /\
    if k_slid x then k = k_steps x + k_ties x
    else exists vs, k_vs x = Some vs /\ vs mod 16 = vel / 8 /\
      sounds_for (mk_slot (k_on x) true (k_steps x) (vs mod 16) (Some (vs / 16)) (k_ties x)) k.

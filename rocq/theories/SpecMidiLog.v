(** SpecMidiLog.v: what the verbose output of the MIDI reader says (C83). Used only to state theorems. *)
From Coq Require Import ZArith List Bool.
From Verif Require Import Base Messages Midi MidiLog.
Import ListNotations.
Open Scope Z_scope.

(** The voice that channel [c] was last said to try. *)
Definition last_tried (c : nat) (log : list line) : option nat :=
  fold_left (fun r l => match l with Trying c' v => if Nat.eqb c' c then Some v else r | _ => r end) log None.

(** The notes said to find their channel's voice occupied: channel, time, and the voice said to be used instead. *)
Fixpoint told_moves (log : list line) : list (nat * Z * option nat) :=
  match log with
  | [] => []
  | Occupied c t _ :: rest => (c, t, match rest with Using v :: _ => Some v | _ => None end) :: told_moves rest
  | _ :: rest => told_moves rest
  end.

(** The notes started in voice [v], with channel and time, that are of channels with another voice of their own. *)
Definition guests (own : nat -> option nat) (v : nat) (voice : list tmsg) : list (nat * Z) :=
  flat_map (fun x : tmsg => match x with
    | (MidiEvent _ (NoteOn c _ _), t) =>
        match own (Z.to_nat c) with
        | Some w => if Nat.eqb w v then [] else [(Z.to_nat c, t)]
        | None => [(Z.to_nat c, t)]
        end
    | _ => [] end) voice.
(** The notes said to use voice [v]. *)
Definition told_guests (v : nat) (log : list line) : list (nat * Z) :=
  flat_map (fun x : nat * Z * option nat => match x with
    | (c, t, Some w) => if Nat.eqb w v then [(c, t)] else []
    | (_, _, None) => [] end) (told_moves log).

(** The channel that a voice was last said to be searched for. *)
Definition last_searched (log : list line) : option nat :=
  fold_left (fun r l => match l with Searching c => Some c | _ => r end) log None.

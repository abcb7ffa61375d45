(** SpecTime.v: measuring time in a command list, for stating theorems. A command lasts as many
    1/24-beat steps as its duration says; a command without a duration takes no time. *)
From Verif Require Import Base Command.

Definition steps (pc : pcmd) : Z := match duration pc with Some d => d | None => 0 end.
Definition total_steps (l : list pcmd) : Z := zsum (map steps l).

(** A legal duration byte of the sound driver. *)
Definition legal_duration (pc : pcmd) : Prop := exists d, duration pc = Some d /\ 1 <= d <= 127.

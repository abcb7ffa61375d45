(** SpecTable.v: where a song may start (C36). *)
From Coq Require Import ZArith.
From Verif Require Import SpecRom.
Open Scope Z_scope.

(** A song of at least 20 bytes starts at the ARAM address [a], which is at [h] in the file: in the base block, whose first
    song starts at [fa], or in the overflow block [ovf]. The base block is loaded to ARAM 0xd000. *)
Definition song_place (base ovf : tblock) (fa a h : Z) : Prop :=
  (fa <= a <= 0xd000 + tb_len base - 20 /\ h = payload base + (a - 0xd000)) \/
  (tb_aram ovf <= a <= tb_aram ovf + tb_len ovf - 20 /\ h = payload ovf + (a - tb_aram ovf)).

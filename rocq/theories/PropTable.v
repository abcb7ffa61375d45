(** PropTable.v: properties C33 and C36 for every song: also for tracks that do not fit, for parts of more than eight tracks and
    for tracks with loop calls that are moved to the overflow block. Specification: SpecRom.v, SpecBank.v and SpecTable.v. *)
From Coq Require Import ZArith List.
From Verif Require Import Base F32 Command Track Song Paths Manifest Rom SpecRom SpecBank SpecTable TableProofs RomExamples.
Import ListNotations.
Open Scope Z_scope.

(** C36: whenever writing a bank succeeds, the table has one entry for each song, from entry [first] on: the ARAM address of a
    header in the song data, with the pointer to the song's first part behind the header. The remaining entries are zero. That
    the table has room is [C36_table_before_songs]. *)
Theorem C36_bank_table :
  forall (b : build) (verbose : bool) (bk : bank) (r : list Z) (L : layout) (fa : Z) (first : nat)
    (conv : path -> f32 -> outcome song) (r' : list Z),
  is_image r -> layout_ok r L -> 0xd000 <= fa -> fa - 0xd000 <= tb_len (lo_base L) ->
  2 * Z.of_nat (first + length (songs bk)) <= fa - 0xd000 ->
  write_bank b verbose bk r (lo_addr L) fa first conv = Ok r' ->
  (forall k sd, nth_error (songs bk) k = Some sd -> exists a h,
     song_place (lo_base L) (lo_ovf L) fa a h /\
     word r' (payload (lo_base L) + 2 * Z.of_nat (first + k)) = a /\
     word r' h = a + (if loops sd then 8 else 4)) /\
  (forall x, payload (lo_base L) + 2 * Z.of_nat (first + length (songs bk)) <= x < payload (lo_base L) + (fa - 0xd000) ->
     byte r' x = 0).
Proof. exact bank_table_full. Qed.
Print Assumptions C36_bank_table.
(** C33: and nothing changes before the bank's own table entries, nor does the size. *)
Theorem C33_keeps_before :
  forall (b : build) (verbose : bool) (bk : bank) (r : list Z) (L : layout) (fa : Z) (first : nat)
    (conv : path -> f32 -> outcome song) (r' : list Z),
  is_image r -> layout_ok r L -> 0xd000 <= fa -> fa - 0xd000 <= tb_len (lo_base L) ->
  2 * Z.of_nat (first + length (songs bk)) <= fa - 0xd000 ->
  write_bank b verbose bk r (lo_addr L) fa first conv = Ok r' ->
  size r' = size r /\ forall x, 0 <= x < payload (lo_base L) + 2 * Z.of_nat first -> byte r' x = byte r x.
Proof. exact bank_before. Qed.
Print Assumptions C33_keeps_before.
(** A song of nine tracks, and a bank whose moved track damages the header of the overflow block. *)
Example C36_bank_case :
  layout_ok nine_rom nine_layout /\ 0xd036 - 0xd000 <= tb_len (lo_base nine_layout) /\ length (songs nine_bank) = 1%nat /\
  write_bank Debug false nine_bank nine_rom (lo_addr nine_layout) 0xd036 0 (fun _ _ => Ok nine_song) = Ok nine_out /\
  layout_ok header_rom (one_bank_layout 145 184) /\ length (songs header_bank) = 2%nat /\
  write_bank Debug false header_bank header_rom (lo_addr (one_bank_layout 145 184)) 0xd036 0 ex_conv = Ok header_out.
Proof.
  split; [exact nine_layout_ok|]. split; [vm_compute; congruence|]. split; [reflexivity|]. split; [exact nine_written|].
  split; [exact header_layout|]. split; [reflexivity|exact header_written].
Qed.

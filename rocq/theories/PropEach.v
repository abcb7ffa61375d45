(** PropEach.v: properties C34, C36 and C39 for banks in which a track that calls loops is moved to the overflow block.
    Specification: SpecEach.v, SpecBank.v. *)
From Coq Require Import ZArith List String.
From Verif Require Import Base F32 Command Track Song Paths Manifest Rom SpecRom SpecBank SpecSafe SpecEach RomExamples RomFinal RomEach EachExamples.
Import ListNotations.
Open Scope Z_scope.
Open Scope list_scope.

(** C34: whatever happens to the tracks that are moved, every song that is laid out without moving a track that calls loops
    is found through the song table, and that is every song of the bank but at most one. Missing: the one song (C35_refuted),
    and images whose chain of blocks is damaged by it (C33_header_refuted). *)
Theorem C34_all_but_one_partial :
  forall (b : build) (verbose : bool) (bk : bank) (r : list Z) (L : layout) (fa : Z) (first : nat) (conv : path -> f32 -> outcome song)
    (r' : list Z) (ss : list song) (ls : list (bool * list (list Z * list call_loop_ref))),
  is_image r -> layout_ok r L -> 0xd000 <= fa -> bank_short b conv L fa first (songs bk) ss ls ->
  write_bank b verbose bk r (lo_addr L) fa first conv = Ok r' -> lo_in r' L ->
  bank_in_for (song_unmoved L fa ls) r' L fa first (songs bk) ss /\
  exists bad, bank_in_for (fun k => k <> bad) r' L fa first (songs bk) ss.
Proof. exact bank_each. Qed.
Print Assumptions C34_all_but_one_partial.
(** Two songs; the second one's first track, which calls a loop, is moved. *)
Example C34_all_but_one_case : is_image moved_rom /\ layout_ok moved_rom moved_layout /\
  bank_short Debug ex_conv moved_layout 0xd036 0 (songs header_bank) [ex_song; ex_song] moved_enc /\
  write_bank Debug false header_bank moved_rom (lo_addr moved_layout) 0xd036 0 ex_conv = Ok moved_out /\ lo_in moved_out moved_layout /\
  song_unmoved moved_layout 0xd036 moved_enc 0 /\ ~ song_unmoved moved_layout 0xd036 moved_enc 1.
Proof. exact (conj moved_image (conj moved_layout_ok (conj moved_short (conj moved_written (conj moved_in moved_second))))). Qed.

(** C36, C39: the same for several banks. Nothing changes outside the banks' blocks and the headers between them, so that a
    moved track in one bank does not harm another, and every bank whose chain is still there has its complete table and all
    its songs but at most one. *)
Theorem C39_all_but_one_partial :
  forall (b : build) (verbose : bool) (conv : path -> f32 -> outcome song) (bks : list bank) (Ls : list layout) (sss : list (list song))
    (lss : list (list (bool * list (list Z * list call_loop_ref)))) (r r' : list Z),
  banks_short b conv 0 0 bks Ls sss lss -> is_image r -> Forall (layout_ok r) Ls -> ForallOrdPairs separate Ls ->
  write_banks b verbose bks 0 0 r (map lo_addr Ls) conv = Ok r' ->
  same_outside (fun x => exists L, In L Ls /\ lo_span L x) r r' /\
  forall k bk L ss ls, nth_error bks k = Some bk -> nth_error Ls k = Some L -> nth_error sss k = Some ss -> nth_error lss k = Some ls -> lo_in r' L ->
    exists fa, nth_error first_songs k = Some fa /\ bank_in_for (song_unmoved L fa ls) r' L fa (count_songs (firstn k bks)) (songs bk) ss /\
    exists bad, bank_in_for (fun i => i <> bad) r' L fa (count_songs (firstn k bks)) (songs bk) ss.
Proof. exact banks_each. Qed.
Print Assumptions C39_all_but_one_partial.
Example C39_all_but_one_case : banks_short Debug ex_conv 0 0 three_banks three_layouts three_songs three_encs /\ is_image three_rom /\
  Forall (layout_ok three_rom) three_layouts /\ ForallOrdPairs separate three_layouts /\
  write_banks Debug true three_banks 0 0 three_rom (map lo_addr three_layouts) ex_conv = Ok three_out /\ Forall (lo_in three_out) three_layouts.
Proof. exact (conj three_short (conj three_image (conj (proj1 three_layouts_ok) (conj three_separate (conj three_written (proj2 three_layouts_ok)))))). Qed.

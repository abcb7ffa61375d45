(** PropReport.v: properties C80 (the progress display) and C81 (the verbose output) of a ROM build.
    Specification: SpecReport.v, SpecBank.v. *)
From Coq Require Import ZArith List String.
From Verif Require Import Base F32 Command Track Song Paths Manifest Rom SpecRom SpecBank RomExamples RomTotal Report SpecReport ReportProofs ReportTrue ReportMore.
Import ListNotations.
Open Scope Z_scope.
Open Scope list_scope.

(** C80: the display does not change the result of a build. *)
Theorem C80_same_result :
  forall (b : build) (verbose : bool) (m : manifest) (file : image) (openable : bool) (addrs : list Z) (conv : path -> f32 -> outcome song) (os : os_write),
  snd (show_write b verbose m file openable addrs conv os) = fst (rom_write b verbose m file openable addrs conv os).
Proof. exact write_snd. Qed.
Print Assumptions C80_same_result.

(** C80: a build that has written its banks never waits forever for the display thread: whatever the
    bars send and however the two threads are scheduled, the thread is joined. *)
Theorem C80_display_ends :
  forall (b : build) (verbose : bool) (m : manifest) (file : image) (openable : bool) (addrs : list Z) (conv : path -> f32 -> outcome song) (os : os_write)
    (log : list event) (ms : list message),
  show_write b verbose m file openable addrs conv os = (log, Ok tt) -> sends log ms ->
  always_joins (mk_threads ms [] (length (bars_made log)) false).
Proof. exact display_ends. Qed.
Print Assumptions C80_display_ends.
(** C80: that needs every bar to be finished. *)
Theorem C80_all_bars_needed :
  forall (log : list event) (ms : list message), sends log ms -> (length (bars_finished log) < length (bars_made log))%nat ->
  ~ always_joins (mk_threads ms [] (length (bars_made log)) false).
Proof. exact missing_blocks. Qed.
Print Assumptions C80_all_bars_needed.
Example C80_case : exists log, show_write Debug true ex_banks ex_rom true (map lo_addr ex_layouts) ex_conv (Wrote 1111) = (log, Ok tt) /\
  bars_made log = [(0%nat, 6); (1%nat, 1); (2%nat, 1); (3%nat, 1)] /\ bars_finished log = [1; 2; 3; 0]%nat /\ exists ms, sends log ms.
Proof. exact ex_shown. Qed.

(** C80: the bar for the songs never shows more songs than the manifest has, and ends at that number. *)
Theorem C80_songs_bar :
  forall (b : build) (verbose : bool) (m : manifest) (file : image) (addrs : list Z) (conv : path -> f32 -> outcome song) (os : os_write) (log1 log2 : list event) (o : outcome unit),
  show_write b verbose m file true addrs conv os = (log1 ++ log2, o) ->
  In (0%nat, Z.of_nat (count_songs m)) (bars_made (log1 ++ log2)) /\
  (songs_counted log1 <= count_songs m)%nat /\ (o = Ok tt -> songs_counted (log1 ++ log2) = count_songs m).
Proof. exact songs_bar_shown. Qed.
Print Assumptions C80_songs_bar.

(** C80: the bar of a bank only moves forward and stays within its total. Missing: banks with a track
    that is longer than the overflow block, for which it is false. *)
Theorem C80_bank_bar_partial :
  forall (b : build) (verbose : bool) (bar : nat) (bk : bank) (r : image) (L : layout) (fa : Z) (first : nat) (conv : path -> f32 -> outcome song),
  is_image r -> layout_ok r L -> 0xd000 <= fa -> fa - 0xd000 <= tb_len (lo_base L) ->
  Forall (tracks_at_most b conv (tb_len (lo_ovf L))) (songs bk) ->
  let log := fst (show_bank b verbose bar bk r (lo_addr L) fa first conv) in
  totals_set bar log = [tb_len (lo_base L) + tb_len (lo_ovf L)] /\ advances (tb_len (lo_base L) + tb_len (lo_ovf L)) (values_shown bar log).
Proof. exact bank_bar. Qed.
Print Assumptions C80_bank_bar_partial.
Example C80_bank_case : is_image ex_rom /\ layout_ok ex_rom (ex_layout 0x8000 40) /\
  Forall (tracks_at_most Debug ex_conv 184) [ex_slot; ex_slot; ex_quiet] /\
  values_shown 1 (fst (show_bank Debug true 1 (mk_bank "a"%string [ex_slot; ex_slot; ex_quiet]) ex_rom 0x8000 0xd036 0 ex_conv)) = [54; 110; 168].
Proof. exact (conj ex_image (conj (ex_layout_in _ _ (or_introl eq_refl)) ex_bar)). Qed.
Theorem C80_bank_bar_refuted :
  exists r L bk conv, is_image r /\ layout_ok r L /\ 0xd036 - 0xd000 <= tb_len (lo_base L) /\
  exists v, In v (values_shown 1 (fst (show_bank Debug false 1 bk r (lo_addr L) 0xd036 0 conv))) /\ tb_len (lo_base L) + tb_len (lo_ovf L) < v.
Proof. exact refute_bar. Qed.
Print Assumptions C80_bank_bar_refuted.

(** C81: the addresses printed in verbose mode are those of the finished file, bank by bank: every song
    with its table entry, every track with its bytes, every part table, pointer and loop operand is named
    once, in order. Missing: songs that do not
    fit the bank's blocks (C33 to C35). The printed sizes are in PropSize.v. *)
Theorem C81_verbose_true_partial :
  forall (b : build) (m : manifest) (Ls : list layout) (sss : list (list song)) (r : image) (conv : path -> f32 -> outcome song) (n : nat) (r' : image),
  banks_fit b conv 0 0 m Ls sss -> is_image r -> Forall (layout_ok r) Ls -> ForallOrdPairs independent Ls ->
  rom_write b true m r true (map lo_addr Ls) conv (Wrote n) = (Ok tt, r') -> (length r <= n)%nat ->
  exists logs, said (fst (show_write b true m r true (map lo_addr Ls) conv (Wrote n))) = concat logs /\ length logs = length m /\
  forall k bk L ss log, nth_error m k = Some bk -> nth_error Ls k = Some L -> nth_error sss k = Some ss -> nth_error logs k = Some log ->
    exists ls, loaded b conv (songs bk) ss ls /\ bank_told L r' (count_songs (firstn k m)) ss ls log.
Proof. exact write_says. Qed.
Print Assumptions C81_verbose_true_partial.
Example C81_case : banks_fit Debug ex_conv 0 0 ex_banks ex_layouts [[ex_song; ex_song; quiet_song]; [quiet_song; ex_song]; [ex_song]] /\ is_image ex_rom /\
  Forall (layout_ok ex_rom) ex_layouts /\ ForallOrdPairs independent ex_layouts /\
  (exists r', rom_write Debug true ex_banks ex_rom true (map lo_addr ex_layouts) ex_conv (Wrote 1111) = (Ok tt, r')) /\
  said (fst (show_bank Debug true 1 (mk_bank "a"%string [ex_slot]) ex_rom 0x8000 0xd036 0 ex_conv)) =
    [BankStart 50 0 155; SongAddress 104 0xd036 50; TrackData 128 0xd04e; TrackData 147 0xd061; TrackData 153 0xd067; PartData 112 0xd03e;
     TrackAddress 0xd04e 112; TrackAddress 0xd061 114; LoopAddress 0xd067 141; SongSize 56].
Proof. exact (conj ex_banks_fit (conj ex_image (conj ex_layouts_ok (conj ex_independent ex_told)))). Qed.

(** C81: without the verbose flag nothing is printed. *)
Theorem C81_quiet :
  forall (b : build) (m : manifest) (file : image) (openable : bool) (addrs : list Z) (conv : path -> f32 -> outcome song) (os : os_write),
  said (fst (show_write b false m file openable addrs conv os)) = [].
Proof. exact quiet_write. Qed.
Print Assumptions C81_quiet.

(** C81: the size printed for a song can be smaller than one of its tracks, when the song starts in one
    block and ends in the other. *)
Theorem C81_size_refuted :
  exists r L bk s l conv r' log n d, is_image r /\ layout_ok r L /\ bank_fits Debug conv L 0xd036 0 (songs bk) [s] [(true, l)] /\
  show_bank Debug true 1 bk r (lo_addr L) 0xd036 0 conv = (log, Ok r') /\ In (SongSize n) (said log) /\ In d l /\ n < data_len d.
Proof. exact refute_size. Qed.
Print Assumptions C81_size_refuted.

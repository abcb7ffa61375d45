(** PropConsole.v: properties C55 (what a rebuilt ROM sounds like) and C56 (building again).
    Specification: SpecConsole.v, SpecBank.v, SpecFile.v, SpecPlayback.v. *)
From Coq Require Import ZArith List String.
From Verif Require Import Base F32 Messages Song Paths Manifest Midi Cli Rom SpecVoices SpecRom SpecBank SpecAram SpecPlayback SpecConsole RomBanks ConsoleProofs RomTwice
  MidiExamples FileExamples RomExamples.
Import ListNotations.
Open Scope Z_scope.
Open Scope list_scope.

(** C55: after a ROM has been rebuilt, every slot's entry in the song table of its bank, read from the
    memory the console loads, leads to a song that sounds like the slot's MIDI file, plays nothing if the
    slot is silent, and starts again or stops as the slot says. Missing: files that are not renderable
    (C52) and songs that do not fit the bank's blocks (C33 to C35). *)
Theorem C55_rom_heard_partial :
  forall (b : build) (verbose opt : bool) (w : world) (order : nat -> notes -> notes) (m : manifest) (Ls : list layout) (sss : list (list song))
    (r : image) (openable : bool) (n : nat) (r' : image) (k : nat) (bk : bank) (L : layout) (j : nat) (sd : song_def),
  (forall i, permutes (order i)) ->
  banks_fit b (converter b w order opt) 0 0 m Ls sss -> is_image r -> Forall (layout_ok r) Ls -> ForallOrdPairs independent Ls ->
  rom_write b verbose m r openable (map lo_addr Ls) (converter b w order opt) (Wrote n) = (Ok tt, r') -> (length r <= n)%nat ->
  nth_error m k = Some bk -> nth_error Ls k = Some L -> zero_free L -> nth_error (songs bk) j = Some sd ->
  lo_in r' L /\
  exists a, holds (aram r' (lo_blocks L)) (0xd000 + 2 * Z.of_nat (count_songs (firstn k m) + j)) a /\
    (if loops sd then starts_again (aram r' (lo_blocks L)) a else stops (aram r' (lo_blocks L)) a) /\
    (forall p cbs, input sd = Some p -> extension p = Some "mid"%string -> good_midi b w order opt p (tempo_factor sd) cbs ->
       sounds_like (aram r' (lo_blocks L)) a cbs) /\
    (input sd = None -> song_plays (aram r' (lo_blocks L)) a (repeat [] 8)).
Proof. exact console. Qed.
Print Assumptions C55_rom_heard_partial.
Example C55_case : forall b,
  banks_fit b (converter b con_world id_order true) 0 0 [con_bank] [ex_layout 0x8000 40] [[con_song; quiet_song]] /\
  good_midi b con_world id_order true "song.mid"%string f32_0_3 good_file /\ zero_free (ex_layout 0x8000 40) /\
  exists r', rom_write b true [con_bank] ex_rom true (map lo_addr [ex_layout 0x8000 40]) (converter b con_world id_order true) (Wrote (length ex_rom)) = (Ok tt, r').
Proof. exact (fun b => conj (con_fit b) (conj (con_good b) (conj con_free (con_written b)))). Qed.

(** C56: building the same ROM twice changes nothing the second time, however much of it is written. *)
Theorem C56_rebuild_partial :
  forall (b : build) (verbose : bool) (conv : path -> f32 -> outcome song) (m : manifest) (Ls : list layout) (sss : list (list song))
    (r r' : image) (n k : nat),
  banks_fit b conv 0 0 m Ls sss -> is_image r -> Forall (layout_ok r) Ls -> ForallOrdPairs independent Ls ->
  rom_write b verbose m r true (map lo_addr Ls) conv (Wrote n) = (Ok tt, r') -> (length r <= n)%nat ->
  rom_write b verbose m r' true (map lo_addr Ls) conv (Wrote k) = (Ok tt, r').
Proof. exact write_again. Qed.
Print Assumptions C56_rebuild_partial.
(** C56: a build that was interrupted can be repeated: from any mixture of the old and the new bytes the
    result is the one an uninterrupted build gives. *)
Theorem C56_resume_partial :
  forall (b : build) (verbose : bool) (conv : path -> f32 -> outcome song) (m : manifest) (Ls : list layout) (sss : list (list song))
    (r r' q : image) (n k : nat),
  banks_fit b conv 0 0 m Ls sss -> is_image r -> Forall (layout_ok r) Ls -> ForallOrdPairs independent Ls ->
  rom_write b verbose m r true (map lo_addr Ls) conv (Wrote n) = (Ok tt, r') -> (length r <= n)%nat -> half_written r r' q ->
  (length r <= k)%nat -> rom_write b verbose m q true (map lo_addr Ls) conv (Wrote k) = (Ok tt, r').
Proof. exact write_resume. Qed.
Print Assumptions C56_resume_partial.
(** C56: a write that stopped after [n] bytes leaves such a mixture (any ROM, any songs). *)
Theorem C56_cut_short :
  forall (b : build) (verbose : bool) (conv : path -> f32 -> outcome song) (m : manifest) (addrs : list Z) (r r' : image) (n k : nat),
  rom_write b verbose m r true addrs conv (Wrote k) = (Ok tt, r') -> (length r <= k)%nat ->
  exists q, rom_write b verbose m r true addrs conv (Wrote n) = (Ok tt, q) /\ half_written r r' q.
Proof. exact cut_short. Qed.
Print Assumptions C56_cut_short.
(** C56: one bank, without the layout conditions: enough that the same blocks are still found. *)
Theorem C56_bank_rebuild :
  forall (b : build) (verbose : bool) (bk : bank) (r : image) (base_addr first_addr : Z) (first : nat) (conv : path -> f32 -> outcome song) (r' : image),
  write_bank b verbose bk r base_addr first_addr first conv = Ok r' -> find_blocks b r' base_addr = find_blocks b r base_addr ->
  write_bank b verbose bk r' base_addr first_addr first conv = Ok r'.
Proof. exact bank_again. Qed.
Print Assumptions C56_bank_rebuild.
Example C56_case :
  banks_fit Debug ex_conv 0 0 ex_banks ex_layouts [[ex_song; ex_song; quiet_song]; [quiet_song; ex_song]; [ex_song]] /\
  is_image ex_rom /\ Forall (layout_ok ex_rom) ex_layouts /\ ForallOrdPairs independent ex_layouts /\
  exists r', rom_write Debug true ex_banks ex_rom true (map lo_addr ex_layouts) ex_conv (Wrote (length ex_rom)) = (Ok tt, r') /\ r' <> ex_rom.
Proof. exact (conj ex_banks_fit (conj ex_image (conj ex_layouts_ok (conj ex_independent ex_again)))). Qed.
(** C56 is false without the layout condition: the misplaced patch of C33 moves the overflow block's
    load address at every build. *)
Theorem C56_refuted :
  exists (r : image) (L : layout) (bk : bank) (r' r2 : image),
  layout_ok r L /\ write_bank Debug false bk r (lo_addr L) 0xd036 0 ex_conv = Ok r' /\
  write_bank Debug false bk r' (lo_addr L) 0xd036 0 ex_conv = Ok r2 /\ r2 <> r'.
Proof. exact refute_again. Qed.
Print Assumptions C56_refuted.

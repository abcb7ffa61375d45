(** PropRom.v: properties C30 to C40 and C45 (writing the ROM image).
    Specification: SpecRom.v (addresses, block chains, ARAM, songs in ARAM) and SpecBank.v (layouts,
    what fits, a readable bank). Concrete images: RomExamples.v. *)
From Coq Require Import ZArith List String.
From Verif Require Import Base F32 Command Track Song Paths Manifest Rom SpecRom SpecBank RomLib RomBanks RomTotal RomMore RomExamples RomFinal.
Import ListNotations.
Open Scope Z_scope.

(** C30: addresses of the upper halves of banks 00..FF correspond one to one to file offsets; the lower
    halves mirror them. *)
Theorem C30_lorom_bijection :
  (forall bank addr, 0 <= bank <= 255 -> 0 <= addr <= 0xffff ->
     snes_to_pc_addr (bank * 65536 + addr) = bank * 0x8000 + addr mod 0x8000) /\
  (forall bank high low, u8 bank -> u8 high -> u8 low ->
     snes_bytes_to_pc_addr bank high low = snes_to_pc_addr (bank * 65536 + high * 256 + low)) /\
  (forall o, 0 <= o < 0x800000 -> exists bank addr, 0 <= bank <= 255 /\ 0x8000 <= addr <= 0xffff /\
     snes_to_pc_addr (bank * 65536 + addr) = o /\
     forall bank' addr', 0 <= bank' <= 255 -> 0x8000 <= addr' <= 0xffff ->
       snes_to_pc_addr (bank' * 65536 + addr') = o -> bank' = bank /\ addr' = addr) /\
  (forall a, 0 <= a < 0x1000000 -> 0 <= snes_to_pc_addr a < 0x800000).
Proof. exact lorom_bijection. Qed.
Print Assumptions C30_lorom_bijection.
Example C30_case : snes_to_pc_addr 0x1a9ef5 = 0xd1ef5 /\ snes_bytes_to_pc_addr 0x1a 0x9e 0xf5 = 0xd1ef5 /\ snes_to_pc_addr 0x1a1ef5 = 0xd1ef5.
Proof. vm_compute. auto. Qed.

(** C31: block headers round-trip and change four bytes. *)
Theorem C31_header_round_trip :
  forall (r : list Z) (a len ad : Z), 0 <= a -> a + 4 <= size r -> 0 <= len < 65536 -> 0 <= ad < 65536 ->
  exists r', write_header (mk_chunk (a + 4) len ad) r a = Ok r' /\
    chunk_load r' a = Ok (mk_chunk (a + 4) len ad) /\ same_outside (fun x => a <= x < a + 4) r r'.
Proof. exact header_roundtrip. Qed.
Print Assumptions C31_header_round_trip.
(** C31: a header that would cross the end of the image is never read or written. *)
Theorem C31_header_outside :
  forall (r : list Z) (a : Z) (c : chunk), 0 <= a -> size r < a + 4 ->
  chunk_load r a = Panic PIndex /\ forall r', write_header c r a <> Ok r'.
Proof. exact header_outside. Qed.
Print Assumptions C31_header_outside.
(** C31: splitting an address into bytes loses nothing. *)
Theorem C31_address_bytes :
  forall a : Z, 0 <= a < 65536 ->
  exists h l, addr_to_bytes a = (h, l) /\ 0 <= h < 256 /\ 0 <= l < 256 /\ 256 * h + l = a.
Proof. exact address_bytes. Qed.
Print Assumptions C31_address_bytes.
Example C31_case : chunk_load [1; 0x34; 0x12; 0x00; 0xd0] 1 = Ok (mk_chunk 5 0x1234 0xd000).
Proof. reflexivity. Qed.

(** C32: whatever the image, the scan ends. *)
Theorem C32_scan_terminates :
  forall (b : build) (r : list Z) (base_addr : Z), is_image r -> 0 <= base_addr ->
  (exists bl, find_blocks b r base_addr = Ok bl) \/ find_blocks b r base_addr = Err ENoBaseChunk \/
  exists p, find_blocks b r base_addr = Panic p.
Proof. exact find_blocks_total. Qed.
Print Assumptions C32_scan_terminates.
(** C32: on a well-formed chain it finds the last block loaded at D000 and the block after it. *)
Theorem C32_scan_finds :
  forall (b : build) (r : list Z) (base_addr : Z) (pre : list tblock) (base ovf : tblock) (post : list tblock),
  is_image r -> pointers_in r base_addr -> song_blocks r base_addr pre base ovf post ->
  exists bl, find_blocks b r base_addr = Ok bl /\
    base_chunk_addr bl = payload base /\ base_chunk_len bl = tb_len base /\
    overflow_chunk_addr bl = payload ovf /\ overflow_chunk_len bl = tb_len ovf /\ aram_overflow_base bl = tb_aram ovf.
Proof. exact scan_found. Qed.
Print Assumptions C32_scan_finds.
(** C32: without a block at D000 it reports so. *)
Theorem C32_scan_reports :
  forall (b : build) (r : list Z) (base_addr : Z) (bs : list tblock) (t : tblock),
  is_image r -> pointers_in r base_addr -> chain r (bank_chain r base_addr) bs t ->
  Forall (fun x => tb_aram x <> 0xd000) (bs ++ [t]) -> find_blocks b r base_addr = Err ENoBaseChunk.
Proof. exact find_blocks_none. Qed.
Print Assumptions C32_scan_reports.
Example C32_case : is_image ex_rom /\ Forall (layout_ok ex_rom) ex_layouts.
Proof. exact (conj ex_image ex_layouts_ok). Qed.

(** C33, for songs that fit the layout ([bank_fits]): only the payloads of the two blocks change. Without
    [bank_fits] the statement is false: [C33_header_refuted], [C33_terminator_refuted]. *)
Theorem C33_writes_inside_partial :
  forall (b : build) (verbose : bool) (bk : bank) (r : list Z) (L : layout) (fa : Z) (first : nat)
    (conv : path -> f32 -> outcome song) (r' : list Z) (ss : list song) (ls : list (bool * list (list Z * list call_loop_ref))),
  is_image r -> layout_ok r L -> 0xd000 <= fa -> bank_fits b conv L fa first (songs bk) ss ls ->
  write_bank b verbose bk r (lo_addr L) fa first conv = Ok r' ->
  same_outside (fun x => in_payload (lo_base L) x \/ in_payload (lo_ovf L) x) r r'.
Proof. exact frame_weaken. Qed.
Print Assumptions C33_writes_inside_partial.
(** C33, same case: the table entries of earlier banks, at the start of the base block, are also kept. *)
Theorem C33_keeps_table_start_partial :
  forall (b : build) (verbose : bool) (bk : bank) (r : list Z) (L : layout) (fa : Z) (first : nat)
    (conv : path -> f32 -> outcome song) (r' : list Z) (ss : list song) (ls : list (bool * list (list Z * list call_loop_ref))),
  is_image r -> layout_ok r L -> 0xd000 <= fa -> bank_fits b conv L fa first (songs bk) ss ls ->
  write_bank b verbose bk r (lo_addr L) fa first conv = Ok r' ->
  same_outside (fun x => lo_data L x /\ payload (lo_base L) + 2 * Z.of_nat first <= x) r r'.
Proof. exact bank_write_frame. Qed.
Print Assumptions C33_keeps_table_start_partial.
Example C33_case : is_image ex_rom /\ layout_ok ex_rom (ex_layout 0x8000 40) /\
  bank_fits Debug ex_conv (ex_layout 0x8000 40) 0xd036 0 [ex_slot; ex_slot; ex_quiet] [ex_song; ex_song; quiet_song] place_table /\
  exists r', write_bank Debug true (mk_bank "a"%string [ex_slot; ex_slot; ex_quiet]) ex_rom 0x8000 0xd036 0 ex_conv = Ok r'.
Proof. exact (conj ex_image (conj (ex_layout_in _ _ (or_introl eq_refl)) (conj ex_fits0 ex_written0))). Qed.

(** C33: when the track moved to the overflow block calls a loop, the call's operand is written relative
    to the base block and can land in the overflow block's header. *)
Theorem C33_header_refuted :
  exists r L bk r', layout_ok r L /\ write_bank Debug false bk r (lo_addr L) 0xd036 0 ex_conv = Ok r' /\
  exists x, byte r' x <> byte r x /\ tb_start (lo_ovf L) <= x < payload (lo_ovf L).
Proof. exact refute_header. Qed.
Print Assumptions C33_header_refuted.
(** C33: a track moved to the overflow block is not checked against that block's length; here the block
    after the base block ends the chain and data is written behind it. *)
Theorem C33_terminator_refuted :
  exists r base ovf bk r', is_image r /\ pointers_in r 0x8000 /\ song_blocks r 0x8000 [] base ovf [] /\
  write_bank Debug false bk r 0x8000 0xd036 0 ex_conv = Ok r' /\
  exists x, byte r' x <> byte r x /\ ~ in_payload base x /\ ~ in_payload ovf x.
Proof. exact refute_terminator. Qed.
Print Assumptions C33_terminator_refuted.

(** C34, for songs that fit the layout: following the pointers in ARAM finds every song. False in general:
    [C34_refuted], [C35_refuted]. *)
Theorem C34_songs_found_partial :
  forall (b : build) (verbose : bool) (bk : bank) (r : list Z) (L : layout) (fa : Z) (first : nat)
    (conv : path -> f32 -> outcome song) (r' : list Z) (ss : list song) (ls : list (bool * list (list Z * list call_loop_ref))),
  is_image r -> layout_ok r L -> 0xd000 <= fa -> bank_fits b conv L fa first (songs bk) ss ls ->
  write_bank b verbose bk r (lo_addr L) fa first conv = Ok r' ->
  bank_in r' L fa first (songs bk) ss.
Proof. exact bank_write_in. Qed.
Print Assumptions C34_songs_found_partial.
(** C34: and the write succeeds exactly when the songs end inside the overflow block. *)
Theorem C34_succeeds_when_fits :
  forall (b : build) (verbose : bool) (bk : bank) (r : list Z) (L : layout) (fa : Z) (first : nat)
    (conv : path -> f32 -> outcome song) (ss : list song) (ls : list (bool * list (list Z * list call_loop_ref))),
  is_image r -> layout_ok r L -> 0xd000 <= fa -> bank_fits b conv L fa first (songs bk) ss ls -> closed_all (songs bk) ss ls ->
  ((exists r', write_bank b verbose bk r (lo_addr L) fa first conv = Ok r') <->
   songs_end (lo_base L) (lo_ovf L) (payload (lo_base L) + (fa - 0xd000)) ls <= payload_end (lo_ovf L)).
Proof. exact bank_total. Qed.
Print Assumptions C34_succeeds_when_fits.
Example C34_case : closed_all [ex_slot; ex_slot; ex_quiet] [ex_song; ex_song; quiet_song] place_table /\
  songs_end (lo_base (ex_layout 0x8000 40)) (lo_ovf (ex_layout 0x8000 40)) (payload (lo_base (ex_layout 0x8000 40)) + (0xd036 - 0xd000)) place_table
    <= payload_end (lo_ovf (ex_layout 0x8000 40)).
Proof. exact example_total. Qed.
(** C34: the condition on moved tracks ([songs_stay]) holds for songs without loop calls whose tracks are not longer
    than the overflow block, and for songs that stay in the base block. *)
Theorem C34_condition_without_loops :
  forall (base ovf : tblock) (ls : list (bool * list (list Z * list call_loop_ref))),
  Forall (fun x => Forall (fun d => snd d = [] /\ data_len d <= tb_len ovf) (snd x)) ls -> forall p, songs_stay base ovf p ls.
Proof. exact songs_stay_noloops. Qed.
Print Assumptions C34_condition_without_loops.
Theorem C34_condition_in_base :
  forall (base ovf : tblock) (ls : list (bool * list (list Z * list call_loop_ref))) (p : Z),
  p + fold_right (fun x acc => song_len x + acc) 0 ls <= payload_end base -> songs_stay base ovf p ls.
Proof. exact songs_stay_small. Qed.
Print Assumptions C34_condition_in_base.
(** C34: a part of nine tracks overwrites its first track. *)
Theorem C34_refuted :
  exists r L bk r' s, layout_ok r L /\ write_bank Debug false bk r (lo_addr L) 0xd036 0 (fun _ _ => Ok s) = Ok r' /\
  length (songs bk) = 1%nat /\ ~ bank_in r' L 0xd036 0 (songs bk) [s].
Proof. exact refute_part. Qed.
Print Assumptions C34_refuted.

(** C35, for songs that fit the layout: there are track addresses such that every track's bytes are at its
    address and every loop operand holds the address of the loop's track. *)
Theorem C35_operands_patched_partial :
  forall (b : build) (verbose : bool) (bk : bank) (r : list Z) (L : layout) (fa : Z) (first : nat)
    (conv : path -> f32 -> outcome song) (r' : list Z) (ss : list song) (ls : list (bool * list (list Z * list call_loop_ref))),
  is_image r -> layout_ok r L -> 0xd000 <= fa -> bank_fits b conv L fa first (songs bk) ss ls ->
  write_bank b verbose bk r (lo_addr L) fa first conv = Ok r' ->
  forall k s, nth_error ss k = Some s -> exists at_ : nat -> Z,
  (forall i data refs j, (i < length (tracks s))%nat -> write_track s [] i [] = Ok (data, refs) -> (j < length data)%nat -> ~ operand refs j ->
     aram r' (lo_blocks L) (at_ i + Z.of_nat j) = Some (nth j data 0)) /\
  (forall i data refs x, (i < length (tracks s))%nat -> write_track s [] i [] = Ok (data, refs) -> In x refs ->
     (target_track x < length (tracks s))%nat /\ holds (aram r' (lo_blocks L)) (at_ i + Z.of_nat (ref_pos x)) (at_ (target_track x))).
Proof. exact operands_patched. Qed.
Print Assumptions C35_operands_patched_partial.
(** C35: a loop call in the track that is moved to the overflow block is not patched. *)
Theorem C35_refuted :
  exists r L bk r' s, layout_ok r L /\ write_bank Debug false bk r (lo_addr L) 0xd036 0 (fun _ _ => Ok s) = Ok r' /\
  Forall (fun part => (length part <= 8)%nat) (parts s) /\ length (songs bk) = 2%nat /\ lo_in r' L /\
  ~ bank_in r' L 0xd036 0 (songs bk) [s; s].
Proof. exact refute_operand. Qed.
Print Assumptions C35_refuted.

(** C36: for every manifest the program can construct, the table entries of bank [k] follow those of the
    earlier banks and end before the first song. *)
Theorem C36_table_before_songs :
  forall (m : list bank) (k : nat) (bk : bank) (fa : Z),
  program_manifest m -> nth_error m k = Some bk -> nth_error first_songs k = Some fa ->
  0xd000 + 2 * Z.of_nat (count_songs (firstn k m) + length (songs bk)) <= fa.
Proof. exact table_room. Qed.
Print Assumptions C36_table_before_songs.
(** C36: in the written image the entries lead to songs and the rest of each table is zero. *)
Theorem C36_tables_partial :
  forall (b : build) (verbose : bool) (conv : path -> f32 -> outcome song) (m : list bank) (Ls : list layout)
    (sss : list (list song)) (r r' : list Z),
  program_manifest m -> banks_fit b conv 0 0 m Ls sss -> is_image r -> Forall (layout_ok r) Ls -> ForallOrdPairs independent Ls ->
  write_banks b verbose m 0 0 r (map lo_addr Ls) conv = Ok r' ->
  forall k bk L, nth_error m k = Some bk -> nth_error Ls k = Some L -> exists fa,
    nth_error first_songs k = Some fa /\
    0xd000 + 2 * Z.of_nat (count_songs (firstn k m) + length (songs bk)) <= fa /\
    (forall i, (i < length (songs bk))%nat -> exists a,
       holds (aram r' (lo_blocks L)) (0xd000 + 2 * Z.of_nat (count_songs (firstn k m) + i)) a /\
       (fa <= a \/ tb_aram (lo_ovf L) <= a < tb_aram (lo_ovf L) + tb_len (lo_ovf L))) /\
    (forall x, 0xd000 + 2 * Z.of_nat (count_songs (firstn k m) + length (songs bk)) <= x < fa -> aram r' (lo_blocks L) x = Some 0).
Proof. exact tables. Qed.
Print Assumptions C36_tables_partial.
Example C36_case : banks_fit Debug ex_conv 0 0 (manifest_file_select "x.mid"%string) big_layouts select_songs /\
  is_image big_rom /\ Forall (layout_ok big_rom) big_layouts /\ ForallOrdPairs independent big_layouts /\
  exists r', write_banks Debug true (manifest_file_select "x.mid"%string) 0 0 big_rom (map lo_addr big_layouts) ex_conv = Ok r'.
Proof. exact (conj big_fit (conj big_image (conj big_layouts_ok (conj big_independent big_written)))). Qed.

(** C37: unless the build succeeds, the file keeps its content. *)
Theorem C37_failure_keeps_file :
  forall (b : build) (verbose : bool) (m : list bank) (file : list Z) (openable : bool) (addrs : list Z)
    (conv : path -> f32 -> outcome song) (os : os_write),
  fst (rom_write b verbose m file openable addrs conv os) <> Ok tt ->
  snd (rom_write b verbose m file openable addrs conv os) = file.
Proof. exact failed_write. Qed.
Print Assumptions C37_failure_keeps_file.
Example C37_case : exists e, rom_write Debug true ex_banks ex_rom true (map lo_addr ex_layouts) (fun _ _ => Err EIo) (Wrote 3000) = (Err e, ex_rom).
Proof. exact example_failed. Qed.

(** C38, when the operating system's single write takes all bytes: the file is the new image, of the same
    size. For shorter writes see [C38_short_write_refuted]. *)
Theorem C38_success_writes_image_partial :
  forall (b : build) (verbose : bool) (m : list bank) (file : list Z) (openable : bool) (addrs : list Z)
    (conv : path -> f32 -> outcome song) (n : nat) (file' : list Z),
  rom_write b verbose m file openable addrs conv (Wrote n) = (Ok tt, file') -> (length file <= n)%nat ->
  write_banks b verbose m 0 0 file addrs conv = Ok file' /\ length file' = length file.
Proof. exact good_write. Qed.
Print Assumptions C38_success_writes_image_partial.
(** C38: the size never changes, whatever the outcome. *)
Theorem C38_size_kept :
  forall (b : build) (verbose : bool) (m : list bank) (file : list Z) (openable : bool) (addrs : list Z)
    (conv : path -> f32 -> outcome song) (os : os_write),
  length (snd (rom_write b verbose m file openable addrs conv os)) = length file.
Proof. exact any_write_length. Qed.
Print Assumptions C38_size_kept.
Example C38_case : exists r', rom_write Debug true ex_banks ex_rom true (map lo_addr ex_layouts) ex_conv (Wrote (length ex_rom)) = (Ok tt, r') /\ r' <> ex_rom.
Proof. exact example_written. Qed.
(** C38: a short write is reported as success and leaves a mixture of the old and the new image. *)
Theorem C38_short_write_refuted :
  exists m file addrs conv n file' new, rom_write Release false m file true addrs conv (Wrote n) = (Ok tt, file') /\
  write_banks Release false m 0 0 file addrs conv = Ok new /\ file' <> new /\ file' <> file.
Proof. exact refute_short. Qed.
Print Assumptions C38_short_write_refuted.

(** C39, for songs that fit their layouts: after a whole build every bank is readable and nothing outside
    the banks' blocks has changed. *)
Theorem C39_banks_independent_partial :
  forall (b : build) (verbose : bool) (conv : path -> f32 -> outcome song) (m : list bank) (Ls : list layout)
    (sss : list (list song)) (r r' : list Z),
  banks_fit b conv 0 0 m Ls sss -> is_image r -> Forall (layout_ok r) Ls -> ForallOrdPairs independent Ls ->
  write_banks b verbose m 0 0 r (map lo_addr Ls) conv = Ok r' ->
  same_outside (fun x => exists L, In L Ls /\ lo_data L x) r r' /\
  forall k bk L ss, nth_error m k = Some bk -> nth_error Ls k = Some L -> nth_error sss k = Some ss ->
    exists fa, nth_error first_songs k = Some fa /\ bank_in r' L fa (count_songs (firstn k m)) (songs bk) ss.
Proof. exact banks_read. Qed.
Print Assumptions C39_banks_independent_partial.
Example C39_case : banks_fit Debug ex_conv 0 0 ex_banks ex_layouts [[ex_song; ex_song; quiet_song]; [quiet_song; ex_song]; [ex_song]] /\
  is_image ex_rom /\ Forall (layout_ok ex_rom) ex_layouts /\ ForallOrdPairs independent ex_layouts /\
  exists r', write_banks Debug true ex_banks 0 0 ex_rom (map lo_addr ex_layouts) ex_conv = Ok r'.
Proof. exact (conj ex_banks_fit (conj ex_image (conj ex_layouts_ok (conj ex_independent ex_written)))). Qed.

(** C40: the dummy image keeps length, pointers and chains, is zero elsewhere, and is its own dummy. *)
Theorem C40_dummy_image :
  forall (b : build) (r : list Z) (addrs : list Z) (out : list Z),
  is_image r -> Forall addr_ok addrs -> fake_image b r addrs = Ok out ->
  length out = length r /\
  (forall a, In a addrs -> bank_chain out a = bank_chain r a /\
     exists bs t, chain r (bank_chain r a) bs t /\ chain out (bank_chain out a) bs t) /\
  (forall x, 0 <= x -> ~ (exists a, In a addrs /\ bank_kept r a x) -> byte out x = 0) /\
  (forall x, 0 <= x -> (exists a, In a addrs /\ bank_kept r a x) -> byte out x = byte r x) /\
  fake_image b out addrs = Ok out.
Proof. exact dummy. Qed.
Print Assumptions C40_dummy_image.
(** C40: generation succeeds on every image with well-formed chains and never loops. *)
Theorem C40_dummy_total :
  forall (b : build) (r : list Z) (addrs : list Z), is_image r ->
  Forall (fun a => pointers_in r a /\ exists bs t, chain r (bank_chain r a) bs t) addrs ->
  exists out, fake_image b r addrs = Ok out.
Proof. exact fake_total. Qed.
Print Assumptions C40_dummy_total.
Theorem C40_dummy_terminates :
  forall (b : build) (r : list Z) (addrs : list Z), is_image r -> Forall addr_ok addrs -> fake_image b r addrs <> Diverge.
Proof. exact fake_stops. Qed.
Print Assumptions C40_dummy_terminates.
(** C40, the file: it is exactly the dummy when the old file is not longer and the write is complete. *)
Theorem C40_dummy_file_partial :
  forall (b : build) (r : list Z) (addrs old : list Z) (n : nat) (file' : list Z),
  gen_fake_rom b r addrs old (Wrote n) = (Ok tt, file') -> (length r <= n)%nat -> (length old <= length r)%nat ->
  is_image r -> Forall addr_ok addrs -> fake_image b r addrs = Ok file'.
Proof. exact dummy_file. Qed.
Print Assumptions C40_dummy_file_partial.
Example C40_case : exists out, fake_image Debug ex_rom (map lo_addr ex_layouts) = Ok out /\ byte out 4 = 0x80 /\
  byte out 41 = byte ex_rom 41 /\ byte out 44 = 0 /\ byte ex_rom 44 <> 0.
Proof. exact example_dummy. Qed.
(** C40: a longer old output file keeps its tail. *)
Theorem C40_file_refuted :
  exists r addrs old file' out, fake_image Debug r addrs = Ok out /\
  gen_fake_rom Debug r addrs old (Wrote (length out)) = (Ok tt, file') /\ file' <> out.
Proof. exact refute_dummy. Qed.
Print Assumptions C40_file_refuted.

(** C45, release build: the verbose flag makes no difference. *)
Theorem C45_verbose_release :
  forall (verbose : bool) (m : list bank) (file : list Z) (openable : bool) (addrs : list Z)
    (conv : path -> f32 -> outcome song) (os : os_write),
  rom_write Release verbose m file openable addrs conv os = rom_write Release false m file openable addrs conv os.
Proof. exact rom_verbose_release. Qed.
Print Assumptions C45_verbose_release.
(** C45, any build: at worst the verbose flag adds a panic, with the file unchanged. *)
Theorem C45_verbose_adds_panic_only :
  forall (b : build) (m : list bank) (file : list Z) (openable : bool) (addrs : list Z)
    (conv : path -> f32 -> outcome song) (os : os_write),
  rom_write b true m file openable addrs conv os = rom_write b false m file openable addrs conv os \/
  exists p, rom_write b true m file openable addrs conv os = (Panic p, file).
Proof. exact verbose_rom. Qed.
Print Assumptions C45_verbose_adds_panic_only.
(** C45, any build, when every base block is at least as long as its song table. *)
Theorem C45_verbose_bank_partial :
  forall (b : build) (verbose : bool) (bk : bank) (r : list Z) (L : layout) (fa : Z) (first : nat)
    (conv : path -> f32 -> outcome song),
  is_image r -> layout_ok r L -> 0xd000 <= fa -> fa - 0xd000 <= tb_len (lo_base L) ->
  write_bank b verbose bk r (lo_addr L) fa first conv = write_bank b false bk r (lo_addr L) fa first conv.
Proof. exact verbose_debug_bank. Qed.
Print Assumptions C45_verbose_bank_partial.
(** C45: in a build with overflow checks a base block shorter than the table makes the message panic. *)
Theorem C45_debug_refuted :
  exists r bk r', write_bank Debug true bk r 0x8000 0xd036 0 ex_conv = Panic POverflow /\
  write_bank Debug false bk r 0x8000 0xd036 0 ex_conv = Ok r'.
Proof. exact refute_verbose. Qed.
Print Assumptions C45_debug_refuted.

(** Rom.v: model of src/rom/mod.rs. A ROM image is a list of bytes; addresses are [Z]. The progress
    bars (crate pbr), the listener thread and what is printed by [println!] are in Report.v, not here;
    the arithmetic evaluated to print is here too. *)
From Coq Require String.
From Verif Require Import Base F32 Messages Command Track SeqTree Song Paths Manifest.
Open Scope Z_scope.

(** src/rom/mod.rs:14-16. *)
Definition DEFAULT_BANK_BASE_ADDRS : list Z := [0x914; 0x926; 0x932].
Definition BANK_FIRST_SONG_ADDRS : list Z := [0xD036; 0xD046; 0xD046].
Definition ARAM_BASE : Z := 0xd000.

Definition image := list Z.

(** [romdata[a]] as a read, and [romdata[a] = v]. Addresses are non-negative. *)
Definition rd (r : image) (a : Z) : outcome Z := or_panic PIndex (nth_error r (Z.to_nat a)).
Definition wr (r : image) (a v : Z) : outcome image := or_panic PIndex (set_nth r (Z.to_nat a) v).

(** src/rom/mod.rs:18-20. *)
Definition snes_to_pc_addr (a : Z) : Z := Z.land a 0x7FFF + Z.land (a / 2) 0xFF8000.

(** src/rom/mod.rs:22-24. *)
Definition snes_bytes_to_pc_addr (bank high low : Z) : Z :=
  snes_to_pc_addr (Z.shiftl bank 16 + Z.shiftl high 8 + low).

(** src/rom/mod.rs:26-28: (high byte, low byte). *)
Definition addr_to_bytes (addr : Z) : Z * Z := (Z.land (Z.shiftr addr 8) 0xFF, Z.land addr 0xFF).

(** src/rom/mod.rs:30-34 [struct RomCallLoopRef]. *)
Record rom_ref := mk_rom_ref { rr_target : nat; rr_chunk_base : Z; rr_ref_pos : nat }.

(** src/rom/mod.rs:36-40 [struct Chunk]. *)
Record chunk := mk_chunk { offset_addr : Z; c_length : Z; aram_addr : Z }.

(** src/rom/mod.rs:43-53 [Chunk::load]. *)
Definition chunk_load (r : image) (start : Z) : outcome chunk :=
  let* b1 := rd r (start + 1) in
  let* b0 := rd r start in
  let* b3 := rd r (start + 3) in
  let* b2 := rd r (start + 2) in
  Ok (mk_chunk (start + 4) (Z.shiftl b1 8 + b0) (Z.shiftl b3 8 + b2)).

(** src/rom/mod.rs:55-60 [Chunk::write_header]. *)
Definition write_header (c : chunk) (r : image) (start : Z) : outcome image :=
  let* r1 := wr r start (Z.land (c_length c) 0xff) in
  let* r2 := wr r1 (start + 1) (Z.land (Z.shiftr (c_length c) 8) 0xff) in
  let* r3 := wr r2 (start + 2) (Z.land (aram_addr c) 0xff) in
  wr r3 (start + 3) (Z.land (Z.shiftr (aram_addr c) 8) 0xff).

(** src/rom/mod.rs:140-143: file offset of a bank's first transfer block. *)
Definition bank_start (b : build) (r : image) (base_addr : Z) : outcome Z :=
  let* a8 := arith b 32 (base_addr + 8) in
  let* bank_addr := rd r (snes_to_pc_addr a8) in
  let* a4 := arith b 32 (base_addr + 4) in
  let* high_addr := rd r (snes_to_pc_addr a4) in
  let* low_addr := rd r (snes_to_pc_addr base_addr) in
  Ok (snes_bytes_to_pc_addr bank_addr high_addr low_addr).

(** Local variables of [write_bank] set by the scan, src/rom/mod.rs:145-149. *)
Record blocks := mk_blocks {
  base_chunk_addr : Z; base_chunk_len : Z;
  overflow_chunk_addr : Z; overflow_chunk_len : Z;
  aram_overflow_base : Z
}.

(** src/rom/mod.rs:150-164: the scan. In the body, the inner [chunk] shadows the outer one only inside
    the [if]; the final assignment of [addr] uses the outer chunk in both cases. Every iteration
    advances by at least four bytes, so [fuel > length r] suffices (proved). *)
Fixpoint scan_blocks (fuel : nat) (r : image) (addr last_len : Z) (st : blocks) : outcome blocks :=
  if last_len =? 0 then Ok st
  else match fuel with
  | O => Diverge
  | S fuel' =>
      let* c := chunk_load r addr in
      if aram_addr c =? ARAM_BASE then
        let* c2 := chunk_load r (offset_addr c + c_length c) in
        scan_blocks fuel' r (offset_addr c + c_length c) (c_length c2)
          (mk_blocks (offset_addr c) (c_length c) (offset_addr c2) (c_length c2) (aram_addr c2))
      else scan_blocks fuel' r (offset_addr c + c_length c) (c_length c) st
  end.

(** src/rom/mod.rs:139-174: locating the bank's base and overflow blocks. *)
Definition find_blocks (b : build) (r : image) (base_addr : Z) : outcome blocks :=
  let* addr := bank_start b r base_addr in
  let* st := scan_blocks (S (length r)) r addr 0xffff (mk_blocks 0 0 0 0 0) in
  if base_chunk_addr st =? 0 then Err ENoBaseChunk
  else if overflow_chunk_addr st =? 0 then Err ENoOverflowChunk
  else Ok st.

(** Mutable local variables of the song loop, src/rom/mod.rs:175-190. *)
Record wstate := mk_wstate {
  ws_rom : image;
  song_offset : Z;
  rom_addr : Z;
  chunk_length : Z;
  aram_base_addr : Z;
  song_table_addr : Z
}.

(** The argument of a [println!] that computes [chunk_length - song_offset] on usize
    (src/rom/mod.rs:218-223, 292-297); only its possible panic matters. *)
Definition verbose_sub (b : build) (verbose : bool) (x y : Z) : outcome unit :=
  if verbose then let* _ := arith b 64 (x - y) in Ok tt else Ok tt.

(** src/rom/mod.rs:211-228: make room for the song header, switching to the overflow block. *)
Definition reserve_header (b : build) (verbose : bool) (bl : blocks) (loops : bool) (st : wstate)
  : outcome wstate :=
  if chunk_length st <? song_offset st + (if loops then 8 else 4) + 16 then
    if aram_base_addr st =? aram_overflow_base bl then Err EDoesNotFit
    else
      let* _ := verbose_sub b verbose (chunk_length st) (song_offset st) in
      Ok (mk_wstate (ws_rom st) 0 (overflow_chunk_addr bl) (overflow_chunk_len bl)
            (aram_overflow_base bl) (song_table_addr st))
  else Ok st.

(** Write a list of (address, byte) pairs in order. *)
Definition wr_all (r : image) (l : list (Z * Z)) : outcome image :=
  ofold (fun r av => wr r (fst av) (snd av)) l r.

(** src/rom/mod.rs:230-268: song table entry and song header. Returns the image. *)
Definition write_song_header (r : image) (rom_addr song_offset aram_base song_table_addr : Z) (loops : bool)
  : outcome image :=
  let '(sh, sl) := addr_to_bytes (aram_base + song_offset) in
  let part_data_offset := song_offset + (if loops then 8 else 4) in
  let '(ph, pl) := addr_to_bytes (aram_base + part_data_offset) in
  let a := rom_addr + song_offset in
  let* r1 := wr_all r [(song_table_addr + 1, sh); (song_table_addr, sl)] in
  let* r2 := wr_all r1 [(a + 1, ph); (a, pl)] in
  if loops
  then wr_all r2 [(a + 3, 0x00); (a + 2, 0xff); (a + 5, sh); (a + 4, sl); (a + 7, 0x00); (a + 6, 0x00)]
  else wr_all r2 [(a + 3, 0x00); (a + 2, 0x00)].

(** [Vec::splice(start..start+data.len(), data)], src/rom/mod.rs:314-318; panics past the end. *)
Definition splice (r : image) (start : Z) (data : list Z) : outcome image :=
  let s := Z.to_nat start in
  if Nat.leb (s + length data) (length r)
  then Ok (firstn s r ++ data ++ skipn (s + length data) r)
  else Panic PIndex.

(** Mutable local variables of the track loop, src/rom/mod.rs:271-283. *)
Record kstate := mk_kstate {
  ks_rom : image;
  track_data_offset : Z;
  ks_rom_addr : Z;
  ks_chunk_length : Z;
  ks_aram_base : Z;
  track_addrs : list Z;
  call_loops : list rom_ref
}.

(** src/rom/mod.rs:276-340: one track. *)
Definition write_one_track (b : build) (verbose : bool) (bl : blocks) (song_offset : Z) (sd : song)
  (st : kstate) (i : nat) : outcome kstate :=
  let track_start_offset := track_data_offset st in
  let* w := write_track sd [] i [] in
  let '(data, refs) := w in
  let len := Z.of_nat (length data) in
  let* sw :=
    if ks_chunk_length st <? track_data_offset st + len then
      if ks_aram_base st =? aram_overflow_base bl then Err EDoesNotFit
      else
        let* _ := verbose_sub b verbose (ks_chunk_length st) song_offset in
        Ok (mk_kstate (ks_rom st) 0 (overflow_chunk_addr bl) (overflow_chunk_len bl)
              (aram_overflow_base bl) (track_addrs st) (call_loops st), refs, [])
    else Ok (st, [], refs) in
  let '(st1, pre_refs, cur_refs) := sw in
  if 0 <? len then
    let* r := splice (ks_rom st1) (ks_rom_addr st1 + track_data_offset st1) data in
    Ok (mk_kstate r (track_data_offset st1 + len) (ks_rom_addr st1) (ks_chunk_length st1)
          (ks_aram_base st1) (track_addrs st1 ++ [ks_aram_base st1 + track_data_offset st1])
          (call_loops st1
           ++ map (fun x => mk_rom_ref (target_track x) (base_chunk_addr bl + track_start_offset) (ref_pos x))
                  pre_refs
           ++ map (fun x => mk_rom_ref (target_track x) (ks_rom_addr st1 + track_data_offset st1) (ref_pos x))
                  cur_refs))
  else
    Ok (mk_kstate (ks_rom st1) (track_data_offset st1) (ks_rom_addr st1) (ks_chunk_length st1)
          (ks_aram_base st1) (track_addrs st1 ++ [0]) (call_loops st1)).

(** src/rom/mod.rs:349-364: the part table: sixteen zero bytes, then the track addresses. *)
Fixpoint write_part (r : image) (a : Z) (addrs : list Z) (part : list nat) : outcome image :=
  match part with
  | [] => Ok r
  | ti :: part' =>
      let* ta := or_panic PIndex (nth_error addrs ti) in
      let '(h, l) := addr_to_bytes ta in
      let* r' := wr_all r [(a + 1, h); (a, l)] in
      write_part r' (a + 2) addrs part'
  end.
Definition zero_range (a : Z) (n : nat) : list (Z * Z) := map (fun i => (a + Z.of_nat i, 0)) (seq 0 n).

(** src/rom/mod.rs:366-377: patch the CallLoop operands. *)
Definition patch_loop (addrs : list Z) (r : image) (x : rom_ref) : outcome image :=
  let a := rr_chunk_base x + Z.of_nat (rr_ref_pos x) in
  let* ta := or_panic PIndex (nth_error addrs (rr_target x)) in
  let '(h, l) := addr_to_bytes ta in
  wr_all r [(a + 1, h); (a, l)].

(** src/rom/mod.rs:206-209: the song to write. [conv] is the converter argument. *)
Definition load_song (b : build) (conv : path -> f32 -> outcome song) (sd : song_def) : outcome song :=
  match input sd with
  | Some p => conv p (tempo_factor sd)
  | None => song_empty b
  end.

(** src/rom/mod.rs:193-196: the progress message needs the file name. *)
Definition check_file_name (sd : song_def) : outcome unit :=
  match input sd with
  | Some p => let* _ := or_panic PUnwrap (file_name p) in Ok tt
  | None => Ok tt
  end.

(** src/rom/mod.rs:211-394: writing one loaded song. *)
Definition write_song (b : build) (verbose : bool) (bl : blocks) (st : wstate) (lp : bool) (sd : song)
  : outcome wstate :=
  let* st1 := reserve_header b verbose bl lp st in
  let* r1 := write_song_header (ws_rom st1) (rom_addr st1) (song_offset st1) (aram_base_addr st1)
               (song_table_addr st1) lp in
  let part_data_offset := song_offset st1 + (if lp then 8 else 4) in
  let part_data_rom_addr := rom_addr st1 + part_data_offset in
  let* ks := ofold (write_one_track b verbose bl (song_offset st1) sd) (seq 0 (get_num_tracks sd))
               (mk_kstate r1 (part_data_offset + 16) (rom_addr st1) (chunk_length st1)
                  (aram_base_addr st1) [] []) in
  let* r2 := wr_all (ks_rom ks) (zero_range part_data_rom_addr 16) in
  let* part := get_part_tracks sd 0 in
  let* r3 := write_part r2 part_data_rom_addr (track_addrs ks) part in
  let* r4 := ofold (patch_loop (track_addrs ks)) (call_loops ks) r3 in
  Ok (mk_wstate r4 (track_data_offset ks) (ks_rom_addr ks) (ks_chunk_length ks) (ks_aram_base ks)
        (song_table_addr st1 + 2)).

(** src/rom/mod.rs:192-395: one iteration of the song loop. *)
Definition write_song_def (b : build) (verbose : bool) (bl : blocks)
  (conv : path -> f32 -> outcome song) (st : wstate) (sd : song_def) : outcome wstate :=
  let* _ := check_file_name sd in
  let* s := load_song b conv sd in
  write_song b verbose bl st (loops sd) s.

(** src/rom/mod.rs:175-190: initial state. [first_song_addr] is at least [ARAM_BASE]. *)
Definition wstate_init (r : image) (bl : blocks) (first_song_addr : Z) (first_song : nat) : wstate :=
  mk_wstate r (first_song_addr - ARAM_BASE) (base_chunk_addr bl) (base_chunk_len bl) ARAM_BASE
    (base_chunk_addr bl + Z.of_nat first_song * 2).

(** src/rom/mod.rs:396-398: clear the unused part of the song table. *)
Definition clear_table (r : image) (from to : Z) : outcome image :=
  wr_all r (zero_range from (Z.to_nat (to - from))).

(** src/rom/mod.rs:128-400 [write_bank]. *)
Definition write_bank (b : build) (verbose : bool) (bk : bank) (r : image) (base_addr first_song_addr : Z)
  (first_song : nat) (conv : path -> f32 -> outcome song) : outcome image :=
  let* bl := find_blocks b r base_addr in
  let* st := ofold (write_song_def b verbose bl conv) (songs bk)
               (wstate_init r bl first_song_addr first_song) in
  clear_table (ws_rom st) (song_table_addr st) (base_chunk_addr bl + first_song_addr - ARAM_BASE).

(** src/rom/mod.rs:99-119: all banks; [i] is the index of the first. *)
Fixpoint write_banks (b : build) (verbose : bool) (bks : list bank) (i first_song : nat) (r : image)
  (bank_base_addrs : list Z) (conv : path -> f32 -> outcome song) : outcome image :=
  match bks with
  | [] => Ok r
  | bk :: bks' =>
      let* ba := or_panic PIndex (nth_error bank_base_addrs i) in
      let* fa := or_panic PIndex (nth_error BANK_FIRST_SONG_ADDRS i) in
      let* r' := write_bank b verbose bk r ba fa first_song conv in
      write_banks b verbose bks' (S i) (first_song + length (songs bk)) r' bank_base_addrs conv
  end.

(** Files. [os_write] is what the operating system does with one [write] call on the data. *)
Inductive os_write := Wrote (n : nat) | WriteFailed.

(** Effect of writing at offset 0 of a file with the given content (no truncation). *)
Definition file_overwrite (content data : list Z) (n : nat) : list Z :=
  firstn n data ++ skipn (length (firstn n data)) content.

(** src/rom/mod.rs:63-126 [write] on an existing file: the outcome and the file's final content.
    [openable] is whether open and read succeed. *)
Definition rom_write (b : build) (verbose : bool) (m : manifest) (file : image) (openable : bool)
  (bank_base_addrs : list Z) (conv : path -> f32 -> outcome song) (os : os_write)
  : outcome unit * image :=
  if openable then
    match write_banks b verbose m 0 0 file bank_base_addrs conv with
    | Ok r =>
        match os with
        | Wrote n => (Ok tt, file_overwrite file r n)
        | WriteFailed => (Err EIo, file)
        end
    | Err e => (Err e, file)
    | Panic p => (Panic p, file)
    | Diverge => (Diverge, file)
    end
  else (Err EIo, file).

(** src/rom/mod.rs:454-461: copy the chain of block headers. *)
Fixpoint copy_headers (fuel : nat) (r out : image) (addr last_len : Z) : outcome image :=
  if last_len =? 0 then Ok out
  else match fuel with
  | O => Diverge
  | S fuel' =>
      let* c := chunk_load r addr in
      let* out' := write_header c out addr in
      copy_headers fuel' r out' (offset_addr c + c_length c) (c_length c)
  end.

(** src/rom/mod.rs:446-462: one bank of [gen_fake_rom]. *)
Definition fake_bank (b : build) (r out : image) (base_addr : Z) : outcome image :=
  let* a8 := arith b 32 (base_addr + 8) in
  let* bank_addr := rd r (snes_to_pc_addr a8) in
  let* a4 := arith b 32 (base_addr + 4) in
  let* high_addr := rd r (snes_to_pc_addr a4) in
  let* low_addr := rd r (snes_to_pc_addr base_addr) in
  let* o1 := wr out (snes_to_pc_addr a8) bank_addr in
  let* o2 := wr o1 (snes_to_pc_addr a4) high_addr in
  let* o3 := wr o2 (snes_to_pc_addr base_addr) low_addr in
  copy_headers (S (length r)) r o3 (snes_bytes_to_pc_addr bank_addr high_addr low_addr) 0xffff.

(** src/rom/mod.rs:444-462: the generated image. *)
Definition fake_image (b : build) (r : image) (bank_base_addrs : list Z) : outcome image :=
  ofold (fake_bank b r) bank_base_addrs (repeat 0 (length r)).

(** src/rom/mod.rs:436-470 [gen_fake_rom]: outcome and final content of the output file. The file is
    opened with create and write, not truncate, so old content beyond the data stays. *)
Definition gen_fake_rom (b : build) (r : image) (bank_base_addrs : list Z) (old_output : image)
  (os : os_write) : outcome unit * image :=
  match fake_image b r bank_base_addrs with
  | Ok out =>
      match os with
      | Wrote n => (Ok tt, file_overwrite old_output out n)
      | WriteFailed => (Err EIo, old_output)
      end
  | Err e => (Err e, old_output)
  | Panic p => (Panic p, old_output)
  | Diverge => (Diverge, old_output)
  end.

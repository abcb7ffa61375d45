(** Report.v: model of what src/rom/mod.rs shows while it writes a ROM: the calls on the progress bars and
    the addresses printed in verbose mode. The functions are those of Rom.v with the calls added; that
    the results are the same is proved (C80_same_result). *)
From Verif Require Import Base F32 Messages Command Track SeqTree Song Paths Manifest Rom.
Open Scope Z_scope.

(** What the [println!]s of [write_bank] print, without the wording and the names (of a bank, of a file). *)
Inductive report :=
| BankStart (rom first len : Z)        (* src/rom/mod.rs:179-184 *)
| Switching (left : Z)                 (* src/rom/mod.rs:218-223, 292-297 *)
| SongAddress (rom ram table : Z)      (* src/rom/mod.rs:231-238 *)
| TrackData (rom ram : Z)              (* src/rom/mod.rs:306-312 *)
| PartData (rom ram : Z)               (* src/rom/mod.rs:343-348 *)
| TrackAddress (addr at_ : Z)          (* src/rom/mod.rs:354-359 *)
| LoopAddress (addr at_ : Z)           (* src/rom/mod.rs:368-373 *)
| SongSize (n : Z).                    (* src/rom/mod.rs:379-392 *)

(** Calls on progress bars. Bar 0 counts songs; bar [S i] belongs to bank [i]. [message], [format] and
    the [show_*] fields only change how a bar looks and are left out. *)
Inductive event :=
| BarNew (bar : nat) (total : Z)       (* [create_bar] *)
| BarTotal (bar : nat) (total : Z)     (* [pb.total = ...] *)
| BarSet (bar : nat) (v : Z)           (* [set] *)
| BarInc (bar : nat)                   (* [inc] *)
| BarDone (bar : nat)                  (* [finish_print] *)
| Said (m : report).                   (* [println!] *)

(** Code that shows something: what it showed, even if it failed, and its outcome. *)
Definition shown (A : Type) : Type := list event * outcome A.
Definition sbind {A B} (m : shown A) (f : A -> shown B) : shown B :=
  match snd m with
  | Ok a => (fst m ++ fst (f a), snd (f a))
  | Err e => (fst m, Err e)
  | Panic p => (fst m, Panic p)
  | Diverge => (fst m, Diverge)
  end.
Notation "'show*' x ':=' e 'in' k" := (sbind e (fun x => k))
  (at level 200, x binder, e at level 100, k at level 200, right associativity) : outcome_scope.
(** Code that shows nothing, and code that only shows. *)
Definition silent {A} (o : outcome A) : shown A := ([], o).
Definition show (l : list event) : shown unit := (l, Ok tt).
Definition say (verbose : bool) (m : report) : shown unit := (if verbose then [Said m] else [], Ok tt).
Fixpoint sfold {A S} (f : S -> A -> shown S) (l : list A) (s : S) : shown S :=
  match l with
  | [] => silent (Ok s)
  | x :: l' => show* s' := f s x in sfold f l' s'
  end.

(** src/rom/mod.rs:218-223 and 292-297. *)
Definition say_switch (b : build) (verbose : bool) (x y : Z) : shown unit :=
  if verbose then show* n := silent (arith b 64 (x - y)) in say true (Switching n) else silent (Ok tt).

(** src/rom/mod.rs:211-228. *)
Definition show_reserve (b : build) (verbose : bool) (bl : blocks) (loops : bool) (st : wstate) : shown wstate :=
  if chunk_length st <? song_offset st + (if loops then 8 else 4) + 16 then
    if aram_base_addr st =? aram_overflow_base bl then silent (Err EDoesNotFit)
    else
      show* _ := say_switch b verbose (chunk_length st) (song_offset st) in
      silent (Ok (mk_wstate (ws_rom st) 0 (overflow_chunk_addr bl) (overflow_chunk_len bl)
                    (aram_overflow_base bl) (song_table_addr st)))
  else silent (Ok st).

(** src/rom/mod.rs:276-340. *)
Definition show_track (b : build) (verbose : bool) (bl : blocks) (song_offset : Z) (sd : song)
  (st : kstate) (i : nat) : shown kstate :=
  let track_start_offset := track_data_offset st in
  show* w := silent (write_track sd [] i []) in
  let '(data, refs) := w in
  let len := Z.of_nat (length data) in
  show* sw :=
    if ks_chunk_length st <? track_data_offset st + len then
      if ks_aram_base st =? aram_overflow_base bl then silent (Err EDoesNotFit)
      else
        show* _ := say_switch b verbose (ks_chunk_length st) song_offset in
        silent (Ok (mk_kstate (ks_rom st) 0 (overflow_chunk_addr bl) (overflow_chunk_len bl)
                      (aram_overflow_base bl) (track_addrs st) (call_loops st), refs, []))
    else silent (Ok (st, [], refs)) in
  let '(st1, pre_refs, cur_refs) := sw in
  show* _ := say verbose (TrackData (ks_rom_addr st1 + track_data_offset st1) (ks_aram_base st1 + track_data_offset st1)) in
  if 0 <? len then
    show* r := silent (splice (ks_rom st1) (ks_rom_addr st1 + track_data_offset st1) data) in
    silent (Ok (mk_kstate r (track_data_offset st1 + len) (ks_rom_addr st1) (ks_chunk_length st1)
          (ks_aram_base st1) (track_addrs st1 ++ [ks_aram_base st1 + track_data_offset st1])
          (call_loops st1
           ++ map (fun x => mk_rom_ref (target_track x) (base_chunk_addr bl + track_start_offset) (ref_pos x))
                  pre_refs
           ++ map (fun x => mk_rom_ref (target_track x) (ks_rom_addr st1 + track_data_offset st1) (ref_pos x))
                  cur_refs)))
  else
    silent (Ok (mk_kstate (ks_rom st1) (track_data_offset st1) (ks_rom_addr st1) (ks_chunk_length st1)
          (ks_aram_base st1) (track_addrs st1 ++ [0]) (call_loops st1))).

(** src/rom/mod.rs:353-364. *)
Fixpoint show_part (verbose : bool) (r : image) (a : Z) (addrs : list Z) (part : list nat) : shown image :=
  match part with
  | [] => silent (Ok r)
  | ti :: part' =>
      show* ta := silent (or_panic PIndex (nth_error addrs ti)) in
      show* _ := say verbose (TrackAddress ta a) in
      let '(h, l) := addr_to_bytes ta in
      show* r' := silent (wr_all r [(a + 1, h); (a, l)]) in
      show_part verbose r' (a + 2) addrs part'
  end.

(** src/rom/mod.rs:366-377. *)
Definition show_patch (verbose : bool) (addrs : list Z) (r : image) (x : rom_ref) : shown image :=
  let a := rr_chunk_base x + Z.of_nat (rr_ref_pos x) in
  show* ta := silent (or_panic PIndex (nth_error addrs (rr_target x))) in
  show* _ := say verbose (LoopAddress ta a) in
  let '(h, l) := addr_to_bytes ta in
  silent (wr_all r [(a + 1, h); (a, l)]).

(** src/rom/mod.rs:211-394; the call of [inc] at the end is in [show_song_def]. *)
Definition show_song (b : build) (verbose : bool) (bl : blocks) (st : wstate) (lp : bool) (sd : song) : shown wstate :=
  show* st1 := show_reserve b verbose bl lp st in
  show* _ := say verbose (SongAddress (rom_addr st1 + song_offset st1) (aram_base_addr st1 + song_offset st1) (song_table_addr st1)) in
  show* r1 := silent (write_song_header (ws_rom st1) (rom_addr st1) (song_offset st1) (aram_base_addr st1)
                        (song_table_addr st1) lp) in
  let part_data_offset := song_offset st1 + (if lp then 8 else 4) in
  let part_data_rom_addr := rom_addr st1 + part_data_offset in
  show* ks := sfold (show_track b verbose bl (song_offset st1) sd) (seq 0 (get_num_tracks sd))
               (mk_kstate r1 (part_data_offset + 16) (rom_addr st1) (chunk_length st1)
                  (aram_base_addr st1) [] []) in
  show* _ := say verbose (PartData part_data_rom_addr (aram_base_addr st1 + part_data_offset)) in
  show* r2 := silent (wr_all (ks_rom ks) (zero_range part_data_rom_addr 16)) in
  show* part := silent (get_part_tracks sd 0) in
  show* r3 := show_part verbose r2 part_data_rom_addr (track_addrs ks) part in
  show* r4 := sfold (show_patch verbose (track_addrs ks)) (call_loops ks) r3 in
  show* _ := say verbose (SongSize (if song_offset st1 <? track_data_offset ks then track_data_offset ks - song_offset st1
                                    else track_data_offset ks)) in
  silent (Ok (mk_wstate r4 (track_data_offset ks) (ks_rom_addr ks) (ks_chunk_length ks) (ks_aram_base ks)
                (song_table_addr st1 + 2))).

(** src/rom/mod.rs:192-395. The bank's bar is set before the song is read. *)
Definition show_song_def (b : build) (verbose : bool) (bar : nat) (bl : blocks)
  (conv : path -> f32 -> outcome song) (st : wstate) (sd : song_def) : shown wstate :=
  show* _ := silent (check_file_name sd) in
  show* _ := show [BarSet bar (song_offset st + (if rom_addr st =? base_chunk_addr bl then 0 else base_chunk_len bl))] in
  show* s := silent (load_song b conv sd) in
  show* st' := show_song b verbose bl st (loops sd) s in
  show* _ := show [BarInc 0] in
  silent (Ok st').

(** src/rom/mod.rs:128-400 [write_bank]. *)
Definition show_bank (b : build) (verbose : bool) (bar : nat) (bk : bank) (r : image) (base_addr first_song_addr : Z)
  (first_song : nat) (conv : path -> f32 -> outcome song) : shown image :=
  show* bl := silent (find_blocks b r base_addr) in
  show* _ := say verbose (BankStart (base_chunk_addr bl) (Z.of_nat first_song) (base_chunk_len bl)) in
  show* _ := show [BarTotal bar (base_chunk_len bl + overflow_chunk_len bl)] in
  show* st := sfold (show_song_def b verbose bar bl conv) (songs bk)
               (wstate_init r bl first_song_addr first_song) in
  silent (clear_table (ws_rom st) (song_table_addr st) (base_chunk_addr bl + first_song_addr - ARAM_BASE)).

(** src/rom/mod.rs:99-119. *)
Fixpoint show_banks (b : build) (verbose : bool) (bks : list bank) (i first_song : nat) (r : image)
  (bank_base_addrs : list Z) (conv : path -> f32 -> outcome song) : shown image :=
  match bks with
  | [] => silent (Ok r)
  | bk :: bks' =>
      show* ba := silent (or_panic PIndex (nth_error bank_base_addrs i)) in
      show* fa := silent (or_panic PIndex (nth_error BANK_FIRST_SONG_ADDRS i)) in
      show* r' := show_bank b verbose (S i) bk r ba fa first_song conv in
      show* _ := show [BarDone (S i)] in
      show_banks b verbose bks' (S i) (first_song + length (songs bk)) r' bank_base_addrs conv
  end.

(** src/rom/mod.rs:74-93: the bars of a build. *)
Definition new_bars (m : manifest) : list event :=
  BarNew 0 (Z.of_nat (fold_left (fun acc bk => acc + length (songs bk))%nat m 0%nat))
  :: flat_map (fun i => [BarNew (S i) 1; BarSet (S i) 0]) (seq 0 (length m)).

(** src/rom/mod.rs:63-126 [write]: what is shown, up to the point where the caller waits for the display
    thread (on success) or returns (otherwise). *)
Definition show_write (b : build) (verbose : bool) (m : manifest) (file : image) (openable : bool)
  (bank_base_addrs : list Z) (conv : path -> f32 -> outcome song) (os : os_write) : shown unit :=
  if openable then
    show* _ := show (new_bars m) in
    show* _ := show_banks b verbose m 0 0 file bank_base_addrs conv in
    show* _ := silent (match os with Wrote _ => Ok tt | WriteFailed => Err EIo end) in
    show [BarDone 0]
  else silent (Err EIo).

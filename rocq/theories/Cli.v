(** Cli.v: model of src/lib.rs (argument handling, converter selection and the top-level operations).
    The argument parser (crate clap, src/main.rs) is not modelled: its matches are arguments. *)
From Coq Require Import String Ascii.
From Verif Require Import Base F32 Messages Command Track SeqTree Song Paths Manifest Midi Json.
From Verif Require Rom.
Open Scope string_scope.
Open Scope Z_scope.

(** Value of an ASCII hexadecimal digit ([char::to_digit(16)]). *)
Definition hex_digit (c : ascii) : option Z :=
  let n := Z.of_nat (nat_of_ascii c) in
  if (48 <=? n) && (n <=? 57) then Some (n - 48)
  else if (97 <=? n) && (n <=? 102) then Some (n - 87)
  else if (65 <=? n) && (n <=? 70) then Some (n - 55)
  else None.

(** [u32::from_str_radix(s, 16)] after the sign: checked multiply and add, digit by digit. *)
Fixpoint parse_digits (s : string) (acc : Z) : option Z :=
  match s with
  | EmptyString => Some acc
  | String c s' =>
      match hex_digit c with
      | None => None
      | Some d =>
          if acc * 16 <? 2 ^ 32 then
            if acc * 16 + d <? 2 ^ 32 then parse_digits s' (acc * 16 + d) else None
          else None
      end
  end.
(** A single leading plus sign is accepted; the empty string is an error. *)
Definition from_str_radix_16 (s : string) : option Z :=
  match s with
  | EmptyString => None
  | String c s' =>
      if Ascii.eqb c "+" then (match s' with EmptyString => None | _ => parse_digits s' 0 end)
      else parse_digits s 0
  end.

(** src/lib.rs:131-143 [read_bank_addrs]; the argument is [matches.values_of("bank_addrs")]. *)
Definition read_bank_addrs (values : option (list string)) : outcome (list Z) :=
  match values with
  | None => Ok Rom.DEFAULT_BANK_BASE_ADDRS
  | Some vs =>
      match mapM from_str_radix_16 vs with
      | None => Err EParseInt
      | Some l =>
          let* a := or_panic PIndex (nth_error l 0) in
          let* b := or_panic PIndex (nth_error l 1) in
          let* c := or_panic PIndex (nth_error l 2) in
          Ok [a; b; c]
      end
  end.

(** What the file system holds, as seen through the two parsers: MIDI reader callbacks (and whether
    the reader finished), and JSON values. *)
Record world := mk_world {
  midi_file : path -> list callback * bool;
  json_file : path -> option json
}.

(** src/lib.rs:145-154 [song_from_midi]. *)
Definition song_from_midi_file (b : build) (w : world) (order : nat -> notes -> notes) (optimize : bool)
  (p : path) (tempo : f32) : outcome song :=
  let '(cbs, complete) := midi_file w p in
  let* h := midi_read b cbs complete order in
  song_from_midi b (h_voices h) (h_ticks_per_beat h) (h_max_time h) tempo optimize.

(** src/lib.rs:120-129 [converter]. *)
Definition converter (b : build) (w : world) (order : nat -> notes -> notes) (optimize : bool)
  (p : path) (tempo : f32) : outcome song :=
  match extension p with
  | Some ext => if (ext =? "mid")%string then song_from_midi_file b w order optimize p tempo
                else from_json (json_file w p)
  | None => from_json (json_file w p)
  end.

(** src/lib.rs:68-84 [build_rom], on the ROM file's content; [parent] is the manifest's directory. *)
Definition build_rom (b : build) (verbose optimize : bool) (w : world) (order : nat -> notes -> notes)
  (manifest_path parent : path) (rom : Rom.image) (openable : bool) (addrs : list Z) (os : Rom.os_write)
  : outcome unit * Rom.image :=
  match json_file w manifest_path with
  | None => (Err EJson, rom)
  | Some v =>
      match manifest_new v parent with
      | Ok m => Rom.rom_write b verbose m rom openable addrs (converter b w order optimize) os
      | Err e => (Err e, rom)
      | Panic p => (Panic p, rom)
      | Diverge => (Diverge, rom)
      end
  end.

(** src/lib.rs:86-101 and src/rom/mod.rs:402-418 [write_all_overworld]. *)
Definition write_all_overworld (b : build) (verbose optimize : bool) (w : world)
  (order : nat -> notes -> notes) (input : path) (rom : Rom.image) (openable : bool) (addrs : list Z)
  (os : Rom.os_write) : outcome unit * Rom.image :=
  Rom.rom_write b verbose (manifest_single_song input) rom openable addrs (converter b w order optimize) os.

(** src/lib.rs:103-118 and src/rom/mod.rs:419-434 [write_file_select]. *)
Definition write_file_select (b : build) (verbose optimize : bool) (w : world)
  (order : nat -> notes -> notes) (input : path) (rom : Rom.image) (openable : bool) (addrs : list Z)
  (os : Rom.os_write) : outcome unit * Rom.image :=
  Rom.rom_write b verbose (manifest_file_select input) rom openable addrs (converter b w order optimize) os.

(** src/lib.rs:49-55 [midi2json]: the JSON value written. *)
Definition midi2json (b : build) (w : world) (order : nat -> notes -> notes) (optimize : bool) (input : path)
  : outcome json :=
  let* s := song_from_midi_file b w order optimize input DEFAULT_TEMPO_ADJUST in
  Ok (song_to_json s).

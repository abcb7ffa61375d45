(** Run.v: model of the commands of src/lib.rs over a file system (src/lib.rs:23-118, src/main.rs).
    The argument parser (crate clap) is not modelled: its result is a [cmdline]. Reading a file gives all
    its bytes; a path stands for one file (no links, and two spellings of one path are not identified).
    The MIDI parser (crate ghakuf) and the JSON parser and printer (crate serde_json) are arguments. *)
From Coq Require Import String Ascii.
From Verif Require Import Base F32 Messages Command Track SeqTree Song Paths Manifest Midi Json Cli.
From Verif Require Rom.
Open Scope string_scope.
Open Scope Z_scope.

(** ** [Path::parent] *)
(** Drop trailing empty and [.] components (the list is in reverse); the first component of a relative
    path is kept when it is [.]. *)
Fixpoint trim_back (keep_dot : bool) (l : list string) : list string :=
  match l with
  | [] => []
  | x :: l' =>
      if String.eqb x "" then trim_back keep_dot l'
      else if String.eqb x "." then (match l' with [] => if keep_dot then [x] else [] | _ => trim_back keep_dot l' end)
      else l
  end.
(** std::path::Path::parent, used at src/manifest/mod.rs:115: all but the last component. *)
Definition parent (p : path) : option path :=
  let pieces := split_slash p in
  let abs := is_absolute p in
  let body := if abs then tl pieces else pieces in
  match trim_back (negb abs) (rev body) with
  | [] => None
  | _ :: rest => Some ((if abs then "/" else "") ++ String.concat "/" (rev (trim_back (negb abs) rest)))
  end.

(** ** Files *)
Definition files := path -> option (list Z).
Definition store (f : files) (p : path) (content : list Z) : files := fun q => if String.eqb q p then Some content else f q.

(** The external parsers and the JSON printer. *)
Record tools := mk_tools {
  parse_midi : list Z -> list callback * bool;
  parse_json : list Z -> option json;
  print_json : json -> list Z
}.
(** The files as seen through the parsers. A file that cannot be opened gives no callback and a reader
    error (src/midi/mod.rs:146-153), or no JSON value. *)
Definition world_of (t : tools) (f : files) : world :=
  mk_world (fun p => match f p with Some c => parse_midi t c | None => ([], false) end)
           (fun p => match f p with Some c => parse_json t c | None => None end).

(** What the operating system does: whether a file can be opened for reading and writing, whether it can
    be created, what [write] does with the ROM image, and after how many bytes writing JSON fails. *)
Record os := mk_os {
  os_open : path -> bool;
  os_create : path -> bool;
  os_rom : Rom.os_write;
  os_json : option nat
}.

(** src/main.rs:9-44: flags and subcommands. [gen_fake_rom] and [midi2json] have no address option. *)
Record flags := mk_flags { skip_optimization : bool; verbose_flag : bool }.
Inductive cmdline :=
| CBuildRom (manifest rom : path) (bank_addrs : option (list string))
| CAllOverworld (input rom : path) (bank_addrs : option (list string))
| CFileSelect (input rom : path) (bank_addrs : option (list string))
| CDumpMidi (input : path)
| CMidi2Json (input output : path)
| CGenFakeRom (input output : path).

(** An operation on an existing ROM file: what it does to the content ([false]: it cannot be opened). *)
Definition on_rom (f : files) (o : os) (rom : path) (op : Rom.image -> bool -> outcome unit * Rom.image) : outcome unit * files :=
  match f rom with
  | Some content => let '(r, content') := op content (os_open o rom) in (r, store f rom content')
  | None => (fst (op [] false), f)
  end.

(** src/lib.rs:26-30, 68-84. A manifest that parses is a file, so its path has a parent
    (src/manifest/mod.rs:115); the model panics otherwise. *)
Definition run_build_rom (b : build) (t : tools) (order : nat -> notes -> notes) (o : os) (verbose optimize : bool) (f : files)
  (manifest rom : path) (bank_addrs : option (list string)) : outcome unit * files :=
  match read_bank_addrs bank_addrs with
  | Ok addrs =>
      match json_file (world_of t f) manifest, parent manifest with
      | Some _, None => (Panic PUnwrap, f)
      | _, d => on_rom f o rom (fun content openable =>
          build_rom b verbose optimize (world_of t f) order manifest (match d with Some d => d | None => "" end) content openable addrs (os_rom o))
      end
  | Err e => (Err e, f)
  | Panic p => (Panic p, f)
  | Diverge => (Diverge, f)
  end.
(** src/lib.rs:31-40, 86-118: the two commands taking one song. *)
Definition run_one_song (b : build) (t : tools) (order : nat -> notes -> notes) (o : os) (verbose optimize : bool) (f : files)
  (write : build -> bool -> bool -> world -> (nat -> notes -> notes) -> path -> Rom.image -> bool -> list Z -> Rom.os_write -> outcome unit * Rom.image)
  (input rom : path) (bank_addrs : option (list string)) : outcome unit * files :=
  match read_bank_addrs bank_addrs with
  | Ok addrs => on_rom f o rom (fun content openable => write b verbose optimize (world_of t f) order input content openable addrs (os_rom o))
  | Err e => (Err e, f)
  | Panic p => (Panic p, f)
  | Diverge => (Diverge, f)
  end.
(** src/lib.rs:41-48: reader errors are printed; the result is printed. *)
Definition run_dump_midi (b : build) (t : tools) (order : nat -> notes -> notes) (f : files) (input : path) : outcome unit * files :=
  let '(cbs, complete) := midi_file (world_of t f) input in
  match midi_read b cbs complete order with
  | Panic p => (Panic p, f)
  | Diverge => (Diverge, f)
  | _ => (Ok tt, f)
  end.
(** src/lib.rs:49-55 and src/nspc/mod.rs:164-167: the output file is created (and emptied) and the JSON text
    written to it; failures abort. *)
Definition run_midi2json (b : build) (t : tools) (order : nat -> notes -> notes) (o : os) (optimize : bool) (f : files) (input output : path)
  : outcome unit * files :=
  match midi2json b (world_of t f) order optimize input with
  | Ok v =>
      if os_create o output then
        match os_json o with
        | None => (Ok tt, store f output (print_json t v))
        | Some n => (Panic PUnwrap, store f output (firstn n (print_json t v)))
        end
      else (Panic PUnwrap, f)
  | Err e => (Err e, f)
  | Panic p => (Panic p, f)
  | Diverge => (Diverge, f)
  end.
(** src/lib.rs:56-64 and src/rom/mod.rs:436-470: the output file is created if need be, not emptied. *)
Definition run_gen_fake_rom (b : build) (o : os) (f : files) (input output : path) : outcome unit * files :=
  match f input with
  | None => (Err EIo, f)
  | Some content =>
      match Rom.fake_image b content Rom.DEFAULT_BANK_BASE_ADDRS with
      | Ok _ =>
          if os_create o output then
            let '(r, content') := Rom.gen_fake_rom b content Rom.DEFAULT_BANK_BASE_ADDRS (match f output with Some c => c | None => [] end) (os_rom o) in
            (r, store f output content')
          else (Err EIo, f)
      | Err e => (Err e, f)
      | Panic p => (Panic p, f)
      | Diverge => (Diverge, f)
      end
  end.

(** src/lib.rs:23-66 [run]. *)
Definition run (b : build) (t : tools) (order : nat -> notes -> notes) (o : os) (fl : flags) (c : cmdline) (f : files) : outcome unit * files :=
  let optimize := negb (skip_optimization fl) in
  let verbose := verbose_flag fl in
  match c with
  | CBuildRom manifest rom addrs => run_build_rom b t order o verbose optimize f manifest rom addrs
  | CAllOverworld input rom addrs => run_one_song b t order o verbose optimize f write_all_overworld input rom addrs
  | CFileSelect input rom addrs => run_one_song b t order o verbose optimize f write_file_select input rom addrs
  | CDumpMidi input => run_dump_midi b t order f input
  | CMidi2Json input output => run_midi2json b t order o optimize f input output
  | CGenFakeRom input output => run_gen_fake_rom b o f input output
  end.

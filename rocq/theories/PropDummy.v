(** PropDummy.v: property C59 again, for single banks whatever the songs, and for commands that report success.
    Specification: SpecBank.v (layouts), SpecRun.v ([same_changes]), SpecRendered.v (a successful build). *)
From Coq Require Import ZArith List String.
From Verif Require Import Base F32 Messages Command Track Song Paths Manifest Midi Json Cli SpecMidi SpecNotes SpecVoices SpecRom SpecBank Run SpecRun SpecCommand SpecSuccess
  SpecRendered MidiExamples CommandExamples SuccessExamples RenderExamples RomFinal DummyProofs DummyExamples.
From Verif Require Rom.
Import ListNotations.
Open Scope Z_scope.
Open Scope list_scope.

(** C59, one bank, whatever its songs and whether they fit or not: writing it into the dummy succeeds exactly when writing
    it into the ROM does, and then the same bytes are written at the same places. *)
Theorem C59_bank :
  forall (b : build) (verbose : bool) (bk : bank) (r d : list Z) (Ls : list layout) (L : layout) (fa : Z) (first : nat) (conv : path -> f32 -> outcome song),
  is_image r -> Forall (layout_ok r) Ls -> Rom.fake_image b r (map lo_addr Ls) = Ok d -> In L Ls ->
  (forall r', Rom.write_bank b verbose bk r (lo_addr L) fa first conv = Ok r' ->
     exists d', Rom.write_bank b verbose bk d (lo_addr L) fa first conv = Ok d' /\ same_changes r r' d d') /\
  (forall d', Rom.write_bank b verbose bk d (lo_addr L) fa first conv = Ok d' ->
     exists r', Rom.write_bank b verbose bk r (lo_addr L) fa first conv = Ok r' /\ same_changes r r' d d').
Proof. exact bank_dummy. Qed.
Print Assumptions C59_bank.
(** C59: a command that succeeds on a ROM succeeds on every ROM of the same size with the same blocks, whatever else is in
    it, and writes the same bytes at the same places. Missing: the moved tracks of C72. *)
Theorem C59_any_rom_partial :
  forall (b : build) (t : tools) (order : nat -> notes -> notes) (o : os) (fl : flags) (c : cmdline) (rom : path) (f f' : files)
    (r : list Z) (m : manifest) (Ls : list layout) (q : list Z),
  built b t order o fl c rom f f' r m Ls -> reads_elsewhere c rom m -> is_image q -> length q = length r -> Forall (layout_ok q) Ls ->
  exists g' r' q', built b t order o fl c rom (store f rom q) g' q m Ls /\ f' rom = Some r' /\ g' rom = Some q' /\ same_changes r r' q q'.
Proof. exact built_any. Qed.
Print Assumptions C59_any_rom_partial.
(** C59: a command that succeeds on a ROM succeeds on its dummy. *)
Theorem C59_on_dummy_partial :
  forall (b : build) (t : tools) (order : nat -> notes -> notes) (o : os) (fl : flags) (c : cmdline) (rom : path) (f f' : files)
    (r : list Z) (m : manifest) (Ls : list layout) (d : list Z),
  built b t order o fl c rom f f' r m Ls -> reads_elsewhere c rom m -> Rom.fake_image b r (map lo_addr Ls) = Ok d ->
  exists g' r' d', built b t order o fl c rom (store f rom d) g' d m Ls /\ f' rom = Some r' /\ g' rom = Some d' /\ same_changes r r' d d'.
Proof. exact built_on_dummy. Qed.
Print Assumptions C59_on_dummy_partial.
(** C59: a command that succeeds on the dummy succeeds on the ROM it was made from. *)
Theorem C59_from_dummy_partial :
  forall (b : build) (t : tools) (order : nat -> notes -> notes) (o : os) (fl : flags) (c : cmdline) (rom : path) (f f' : files)
    (r : list Z) (m : manifest) (Ls : list layout) (d : list Z),
  built b t order o fl c rom f f' d m Ls -> reads_elsewhere c rom m ->
  is_image r -> Forall (layout_ok r) Ls -> Rom.fake_image b r (map lo_addr Ls) = Ok d ->
  exists g' d' r', built b t order o fl c rom (store f rom r) g' r m Ls /\ f' rom = Some d' /\ g' rom = Some r' /\ same_changes d d' r r'.
Proof. exact built_from_dummy. Qed.
Print Assumptions C59_from_dummy_partial.
Example C59_command_case : forall b skip,
  (exists f', built b cmd_tools id_order cmd_os (mk_flags skip false) cmd_line "rom.sfc"%string cmd_files f' big_rom cmd_manifest big_layouts) /\
  reads_elsewhere cmd_line "rom.sfc"%string cmd_manifest /\ is_image big_rom /\ Forall (layout_ok big_rom) big_layouts /\
  exists d, Rom.fake_image b big_rom (map lo_addr big_layouts) = Ok d /\
    exists f', built b cmd_tools id_order cmd_os (mk_flags skip false) cmd_line "rom.sfc"%string (store cmd_files "rom.sfc"%string d) f' d cmd_manifest big_layouts.
Proof. exact (fun b skip => conj (cmd_built b skip) (conj cmd_elsewhere (conj big_image (conj big_layouts_ok (cmd_dummy b skip))))). Qed.

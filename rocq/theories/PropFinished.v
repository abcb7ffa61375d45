(** PropFinished.v: properties C59, C72, C73 and C74 for builds in which tracks that call loops may have been moved to an
    overflow block. Specification: SpecFinished.v, SpecEach.v, SpecRendered.v, SpecSuccess.v, SpecCommand.v, SpecBank.v. *)
From Coq Require Import ZArith List String.
From Verif Require Import Base F32 Messages Command Track Song Paths Manifest Midi Json Cli SpecMidi SpecNotes SpecVoices SpecVoice SpecNspc SpecLoop SpecRom SpecBank SpecAram
  SpecSong SpecPlayback SpecFile SpecHeard SpecConsole SpecScore SpecJson Run SpecRun SpecCommand SpecSuccess SpecRendered SpecSafe SpecEach SpecFinished
  MidiExamples CommandExamples FinishedProofs FinishedExamples.
From Verif Require Rom.
Import ListNotations.
Open Scope Z_scope.
Open Scope list_scope.

(** C72, C73: a build that reported success has changed no file but the ROM, and there nothing but the banks' blocks and the
    bytes between them. In each bank whose chain of blocks is still in place, every slot has an address, and that of every
    slot but at most one leads to the song its file is converted to. Missing: that one song (C35_refuted). *)
Theorem C73_slots_but_one_partial :
  forall (b : build) (t : tools) (order : nat -> notes -> notes) (o : os) (fl : flags) (c : cmdline) (rom : path) (f f' : files)
    (r : list Z) (m : manifest) (Ls : list layout),
  finished b t order o fl c rom f f' r m Ls ->
  (forall x, x <> rom -> f' x = f x) /\
  exists r', f' rom = Some r' /\ is_image r' /\ same_outside (fun x => exists L, In L Ls /\ lo_span L x) r r' /\
  forall k L, nth_error Ls k = Some L -> lo_in r' L -> exists bad, forall j sd, in_slot m Ls k j L sd ->
    (exists a, holds (aram r' (lo_blocks L)) (slot_address m k j) a) /\
    (j <> bad -> exists s a at_,
      match Manifest.input sd with
      | Some p => converter b (world_of t f) order (negb (skip_optimization fl)) p (Manifest.tempo_factor sd) = Ok s
      | None => song_empty b = Ok s
      end /\
      holds (aram r' (lo_blocks L)) (slot_address m k j) a /\ song_in (aram r' (lo_blocks L)) a (loops sd) s at_).
Proof. exact finished_slots. Qed.
Print Assumptions C73_slots_but_one_partial.
(** A file-select build of a saved song whose first track calls a loop and is moved. *)
Example C73_slots_but_one_case : forall b skip,
  (exists f', finished b tight_tools id_order cmd_os (mk_flags skip false) tight_line "rom.sfc"%string tight_files f' tight_rom tight_manifest tight_layouts /\
     f' "rom.sfc"%string = Some tight_out) /\
  Forall (lo_in tight_out) tight_layouts /\
  in_slot tight_manifest tight_layouts 0 10 (nth 0 tight_layouts (tight_layout 0 0)) (song_def_default "a.json"%string) /\
  ~ moved_tracks_ok b (converter b (world_of tight_tools tight_files) id_order (negb skip)) tight_manifest tight_layouts.
Proof. intros b skip. exact (conj (tight_finished b skip) (conj (proj2 tight_layouts_ok) (conj tight_slot (tight_moved b (negb skip))))). Qed.

(** C73: what the console plays of such a build: every slot but at most one of each bank is played as its file demands. *)
Theorem C73_renders_but_one_partial :
  forall (b : build) (t : tools) (order : nat -> notes -> notes) (o : os) (fl : flags) (c : cmdline) (rom : path) (f f' : files)
    (r : list Z) (m : manifest) (Ls : list layout),
  finished b t order o fl c rom f f' r m Ls ->
  exists r', f' rom = Some r' /\ forall k L, nth_error Ls k = Some L -> lo_in r' L -> zero_free L -> exists bad, forall j sd, in_slot m Ls k j L sd -> j <> bad ->
  exists a, holds (aram r' (lo_blocks L)) (slot_address m k j) a /\
    (if loops sd then starts_again (aram r' (lo_blocks L)) a else stops (aram r' (lo_blocks L)) a) /\
    (forall p cbs, Manifest.input sd = Some p -> mid_file p ->
       good_midi b (world_of t f) order (negb (skip_optimization fl)) p (Manifest.tempo_factor sd) cbs ->
       renders (aram r' (lo_blocks L)) a (Manifest.tempo_factor sd) cbs
         (loud_file b (world_of t f) order (negb (skip_optimization fl)) p (Manifest.tempo_factor sd) cbs)) /\
    (Manifest.input sd = None -> song_plays (aram r' (lo_blocks L)) a (repeat [] 8)) /\
    (forall p s part loud, Manifest.input sd = Some p -> ~ mid_file p -> holds_song t f p s -> song_parts s part ->
       song_calls s -> Forall (fun tr : track => Forall playable tr) (tracks s) ->
       (loud = true -> Forall (fun tr : track => Forall full tr) (tracks s) /\
          Forall (fun i => forall tr, nth_error (tracks s) i = Some tr -> velocity_safe (tracks s) tr) part) ->
       exists ess, song_plays (aram r' (lo_blocks L)) a ess /\ plays_part (plays_track loud s) part ess).
Proof. exact finished_renders. Qed.
Print Assumptions C73_renders_but_one_partial.
Example C73_renders_but_one_case : Forall zero_free tight_layouts.
Proof. exact tight_free. Qed.

(** C74: repeating such a build changes nothing, as long as the banks' chains of blocks are still in place. *)
Theorem C74_again_moved_partial :
  forall (b : build) (t : tools) (order order2 : nat -> notes -> notes) (o o2 : os) (fl : flags) (c : cmdline) (rom : path) (f f' : files)
    (r r' : list Z) (m : manifest) (Ls : list layout) (k : nat) (f2 : files) (res : outcome unit),
  finished b t order o fl c rom f f' r m Ls -> f' rom = Some r' -> Forall (lo_in r') Ls -> (forall i, permutes (order2 i)) -> reads_elsewhere c rom m ->
  os_open o2 rom = true -> os_rom o2 = Rom.Wrote k -> run b t order2 o2 fl c f' = (res, f2) -> res = Ok tt /\ same_files f' f2.
Proof. exact finished_again. Qed.
Print Assumptions C74_again_moved_partial.

(** C74: a build whose write was cut short is completed by a second build, as long as the cut has left the chains in place. *)
Theorem C74_resume_moved_partial :
  forall (b : build) (t : tools) (order order1 order2 : nat -> notes -> notes) (o o1 o2 : os) (fl : flags) (c : cmdline) (rom : path)
    (f f' f1 f2 : files) (r1 : list Z) (res : outcome unit) (r : list Z) (m : manifest) (Ls : list layout) (n1 n2 : nat),
  finished b t order o fl c rom f f' r m Ls ->
  (forall i, permutes (order1 i)) -> (forall i, permutes (order2 i)) -> reads_elsewhere c rom m ->
  os_rom o1 = Rom.Wrote n1 -> run b t order1 o1 fl c f = (Ok tt, f1) -> f1 rom = Some r1 -> Forall (lo_in r1) Ls ->
  os_open o2 rom = true -> os_rom o2 = Rom.Wrote n2 -> (length r <= n2)%nat -> run b t order2 o2 fl c f1 = (res, f2) ->
  res = Ok tt /\ same_files f' f2.
Proof. exact finished_resume. Qed.
Print Assumptions C74_resume_moved_partial.
Example C74_moved_case : (forall i, permutes (id_order i)) /\ reads_elsewhere tight_line "rom.sfc"%string tight_manifest /\
  os_open cmd_os "rom.sfc"%string = true /\ os_rom cmd_os = Rom.Wrote 4000.
Proof. split; [intros i l; apply Permutation.Permutation_refl|]. exact (conj tight_elsewhere (conj eq_refl eq_refl)). Qed.

(** C59: the same build succeeds on every other image with the same blocks, and makes the same changes there. *)
Theorem C59_any_moved_partial :
  forall (b : build) (t : tools) (order : nat -> notes -> notes) (o : os) (fl : flags) (c : cmdline) (rom : path) (f f' : files)
    (r : list Z) (m : manifest) (Ls : list layout) (q : list Z),
  finished b t order o fl c rom f f' r m Ls -> reads_elsewhere c rom m -> is_image q -> length q = length r -> Forall (layout_ok q) Ls ->
  exists g' r' q', finished b t order o fl c rom (store f rom q) g' q m Ls /\ f' rom = Some r' /\ g' rom = Some q' /\ same_changes r r' q q'.
Proof. exact finished_any. Qed.
Print Assumptions C59_any_moved_partial.
(** C59: in particular on the dummy that is generated from the ROM. *)
Theorem C59_on_dummy_moved_partial :
  forall (b : build) (t : tools) (order : nat -> notes -> notes) (o : os) (fl : flags) (c : cmdline) (rom : path) (f f' : files)
    (r : list Z) (m : manifest) (Ls : list layout) (d : list Z),
  finished b t order o fl c rom f f' r m Ls -> reads_elsewhere c rom m -> Rom.fake_image b r (map lo_addr Ls) = Ok d ->
  exists g' r' d', finished b t order o fl c rom (store f rom d) g' d m Ls /\ f' rom = Some r' /\ g' rom = Some d' /\ same_changes r r' d d'.
Proof. exact finished_on_dummy. Qed.
Print Assumptions C59_on_dummy_moved_partial.
(** C59: and a build that succeeds on the dummy succeeds on the ROM, with the same changes. *)
Theorem C59_from_dummy_moved_partial :
  forall (b : build) (t : tools) (order : nat -> notes -> notes) (o : os) (fl : flags) (c : cmdline) (rom : path) (f f' : files)
    (r : list Z) (m : manifest) (Ls : list layout) (d : list Z),
  finished b t order o fl c rom f f' d m Ls -> reads_elsewhere c rom m ->
  is_image r -> Forall (layout_ok r) Ls -> Rom.fake_image b r (map lo_addr Ls) = Ok d ->
  exists g' d' r', finished b t order o fl c rom (store f rom r) g' r m Ls /\ f' rom = Some d' /\ g' rom = Some r' /\ same_changes d d' r r'.
Proof. exact finished_from_dummy. Qed.
Print Assumptions C59_from_dummy_moved_partial.
Example C59_moved_case : forall b, is_image tight_rom /\ Forall (layout_ok tight_rom) tight_layouts /\ reads_elsewhere tight_line "rom.sfc"%string tight_manifest /\
  exists d, Rom.fake_image b tight_rom (map lo_addr tight_layouts) = Ok d.
Proof. intros b. exact (conj tight_image (conj (proj1 tight_layouts_ok) (conj tight_elsewhere (tight_dummy b)))). Qed.

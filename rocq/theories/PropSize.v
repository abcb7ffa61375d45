(** PropSize.v: the sizes in C81. Specification: SpecSize.v and SpecReport.v. *)
From Coq Require Import ZArith List.
From Verif Require Import Base F32 Command Song Paths Manifest Rom Report SpecReport SpecSize SizeProofs.
Import ListNotations.
Open Scope Z_scope.

(** C81: in every successful build, the size printed for a song is the exact number of bytes it takes, unless the
    block is changed within the song. The number printed when the block is changed is the room left
    behind the songs before it. *)
Theorem C81_sizes_partial :
  forall (b : build) (m : manifest) (file : image) (addrs : list Z) (conv : path -> f32 -> outcome song) (os : os_write),
  snd (show_write b true m file true addrs conv os) = Ok tt ->
  exists logs, said (fst (show_write b true m file true addrs conv os)) = concat logs /\ length logs = length m /\
  forall k bk fa log, nth_error m k = Some bk -> nth_error [0xd036; 0xd046; 0xd046] k = Some fa -> nth_error logs k = Some log -> bank_sized b conv bk fa log.
Proof. exact write_sized. Qed.
Print Assumptions C81_sizes_partial.
Example C81_sizes_case : snd two_write = Ok tt /\ said (fst two_write) =
  [BankStart 50 0 100; SongAddress 104 0xd036 50; TrackData 128 0xd04e; PartData 112 0xd03e; TrackAddress 0xd04e 112; SongSize 35;
   Switching 11; SongAddress 154 0xe000 52; TrackData 178 0xe018; PartData 162 0xe008; TrackAddress 0xe018 162; SongSize 35].
Proof. exact two_sized. Qed.

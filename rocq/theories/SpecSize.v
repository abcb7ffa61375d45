(** SpecSize.v: the sizes printed in verbose mode, for C81. Used only to state theorems. *)
From Verif Require Import Base F32 Command Song Paths Manifest Rom SpecRom Report SpecReport.
Open Scope Z_scope.

Fixpoint sizes_told (l : list report) : list Z :=
  match l with [] => [] | SongSize n :: l' => n :: sizes_told l' | _ :: l' => sizes_told l' end.
Fixpoint switches_told (l : list report) : list Z :=
  match l with [] => [] | Switching n :: l' => n :: switches_told l' | _ :: l' => switches_told l' end.

(** Tracks of these lengths, one right behind the other: where they are in the file and in memory. *)
Fixpoint in_a_row (rom ram : Z) (lens : list Z) : list (Z * Z) :=
  match lens with [] => [] | n :: lens' => (rom, ram) :: in_a_row (rom + n) (ram + n) lens' end.

(** The lines [seg] printed for the song in slot [sd], whose tracks have the bytes [l]: where the song starts, then the rest,
    and its size at the end; before it, perhaps, that the block was changed. Unless the block is changed
    within the song, the size is exactly that of its header (8 bytes if the song loops, else 4), of its
    part table (16 bytes) and of its tracks, which lie in this order without gaps. *)
Definition song_sized (b : build) (conv : path -> f32 -> outcome song) (sd : song_def) (seg : list report) : Prop :=
  exists s l rom ram table pre mid n,
    match input sd with Some f => conv f (tempo_factor sd) = Ok s | None => song_empty b = Ok s end /\ encodes s l /\
    seg = pre ++ SongAddress rom ram table :: mid ++ [SongSize n] /\
    (pre = [] \/ exists k, pre = [Switching k]) /\ songs_told mid = [] /\ sizes_told mid = [] /\
    (switches_told mid = [] ->
      let head := (if loops sd then 8 else 4) + 16 in
      n = head + fold_right Z.add 0 (map data_len l) /\
      tracks_told mid = in_a_row (rom + head) (ram + head) (map data_len l)).

(** The lines printed for a bank with first song address [fa]. The block is changed once at most. The number
    printed then is the room behind the songs already printed in full: the length of the base block less
    the song table and their sizes (as a 64-bit number). *)
Definition bank_sized (b : build) (conv : path -> f32 -> outcome song) (bk : bank) (fa : Z) (log : list report) : Prop :=
  exists rom first len segs, log = BankStart rom first len :: concat segs /\
    Forall2 (song_sized b conv) (songs bk) segs /\ (length (switches_told log) <= 1)%nat /\
    forall before seg after k, segs = before ++ seg :: after -> In (Switching k) seg ->
      k = (len - (fa - 0xd000) - fold_right Z.add 0 (sizes_told (concat before))) mod 2 ^ 64.

(** SpecBank.v: what it means for a bank's songs to fit, and for a finished bank to be readable. Used
    only to state theorems. *)
From Verif Require Import Base F32 Command Track Song Paths Manifest Rom SpecRom SpecPath.
Open Scope Z_scope.

(** Two blocks load into disjoint parts of ARAM. *)
Definition apart (b1 b2 : tblock) : Prop :=
  tb_aram b1 + tb_len b1 <= tb_aram b2 \/ tb_aram b2 + tb_len b2 <= tb_aram b1.

(** [l] is the list of the song's encoded tracks, and the part has at most eight tracks. The last conjunct holds of
    every [Vec<u8>]. *)
Definition song_ready (s : song) (l : list (list Z * list call_loop_ref)) : Prop :=
  encodes s l /\
  (forall part, nth_error (parts s) 0 = Some part -> (length part <= 8)%nat) /\
  Forall (fun d => Forall u8 (fst d)) l.

(** The songs [ss] that the slots [sds] stand for, with their encoded tracks. *)
Inductive loaded (b : build) (conv : path -> f32 -> outcome song) :
  list song_def -> list song -> list (bool * list (list Z * list call_loop_ref)) -> Prop :=
| loaded_nil : loaded b conv [] [] []
| loaded_cons : forall sd s l sds ss ls,
    match input sd with Some f => conv f (tempo_factor sd) = Ok s | None => song_empty b = Ok s end ->
    song_ready s l -> loaded b conv sds ss ls ->
    loaded b conv (sd :: sds) (s :: ss) ((loops sd, l) :: ls).

(** The blocks of a bank: [base] and [ovf] receive the songs. *)
Record layout := mk_layout { lo_addr : Z; lo_pre : list tblock; lo_base : tblock; lo_ovf : tblock; lo_post : list tblock }.
Definition lo_blocks (L : layout) : list tblock := lo_pre L ++ lo_base L :: lo_ovf L :: lo_post L.
Definition lo_in (r : list Z) (L : layout) : Prop := song_blocks r (lo_addr L) (lo_pre L) (lo_base L) (lo_ovf L) (lo_post L).
(** File addresses of the bank's song data, and of what must stay: pointer bytes and block headers. *)
Definition lo_data (L : layout) (x : Z) : Prop := in_payload (lo_base L) x \/ in_payload (lo_ovf L) x.
Definition lo_frame (L : layout) (x : Z) : Prop :=
  pointer_bytes (lo_addr L) x \/ exists b, In b (lo_blocks L) /\ tb_start b <= x < payload b.

(** The image can hold the bank: the pointer is inside the image and not inside the song data, no
    block loaded later overwrites the song data in ARAM, and both blocks end within ARAM. *)
Record layout_ok (r : list Z) (L : layout) : Prop := mk_layout_ok {
  lk_addr : 0 <= lo_addr L /\ lo_addr L + 8 < 2 ^ 32;
  lk_ptr : forall a, pointer_bytes (lo_addr L) a -> a < size r /\ ~ lo_data L a;
  lk_in : lo_in r L;
  lk_apart : Forall (apart (lo_base L)) (lo_ovf L :: lo_post L) /\ Forall (apart (lo_ovf L)) (lo_post L);
  lk_aram : 0xd000 + tb_len (lo_base L) <= 65536 /\ tb_aram (lo_ovf L) + tb_len (lo_ovf L) <= 65536;
  lk_room : 24 <= tb_len (lo_ovf L)
}.

(** The songs fit: [fa] is the ARAM address of the first song and [first] the first table entry. *)
Record bank_fits (b : build) (conv : path -> f32 -> outcome song) (L : layout) (fa : Z) (first : nat)
  (sds : list song_def) (ss : list song) (ls : list (bool * list (list Z * list call_loop_ref))) : Prop := mk_bank_fits {
  bf_songs : loaded b conv sds ss ls;
  bf_table : 2 * Z.of_nat (first + length sds) <= fa - 0xd000;
  bf_first : fa - 0xd000 <= tb_len (lo_base L);
  bf_stay : songs_stay (lo_base L) (lo_ovf L) (payload (lo_base L) + (fa - 0xd000)) ls
}.

(** The bank as the console sees it: after the blocks of its chain have been loaded into ARAM, entry
    [first + k] of the song table at D000 is the address of song [k], the songs are where the table
    says, at or after [fa], and the rest of the table is zero. *)
Record bank_in (r : list Z) (L : layout) (fa : Z) (first : nat) (sds : list song_def) (ss : list song) : Prop := mk_bank_in {
  bi_blocks : lo_in r L;
  bi_songs : forall k sd s, nth_error sds k = Some sd -> nth_error ss k = Some s ->
    exists a at_, holds (aram r (lo_blocks L)) (0xd000 + 2 * Z.of_nat (first + k)) a /\
      (fa <= a \/ tb_aram (lo_ovf L) <= a < tb_aram (lo_ovf L) + tb_len (lo_ovf L)) /\
      song_in (aram r (lo_blocks L)) a (loops sd) s at_;
  bi_rest : forall a, 0xd000 + 2 * Z.of_nat (first + length sds) <= a < fa -> aram r (lo_blocks L) a = Some 0
}.

(** ARAM addresses of the first song of the three banks. *)
Definition first_songs : list Z := [0xd036; 0xd046; 0xd046].

(** The banks' layouts do not interfere: no bank's song data meets another's data, headers or pointer. *)
Definition independent (L1 L2 : layout) : Prop :=
  forall x, (lo_data L1 x -> ~ lo_data L2 x /\ ~ lo_frame L2 x) /\ (lo_data L2 x -> ~ lo_data L1 x /\ ~ lo_frame L1 x).

(** Every bank fits; [i] is the index of the first bank and [first] the number of songs before it. *)
Inductive banks_fit (b : build) (conv : path -> f32 -> outcome song) : nat -> nat -> list bank -> list layout -> list (list song) -> Prop :=
| banks_fit_nil : forall i first, banks_fit b conv i first [] [] []
| banks_fit_cons : forall i first fa bk L ss ls bks Ls sss,
    nth_error first_songs i = Some fa -> bank_fits b conv L fa first (songs bk) ss ls ->
    banks_fit b conv (S i) (first + length (songs bk)) bks Ls sss ->
    banks_fit b conv i first (bk :: bks) (L :: Ls) (ss :: sss).

(** The number of songs in a list of banks. *)
Definition count_songs (bks : list bank) : nat := list_sum (map (fun bk => length (songs bk)) bks).

(** Indices in the song are valid. *)
Definition song_closed (s : song) (l : list (list Z * list call_loop_ref)) : Prop :=
  (exists part, nth_error (parts s) 0 = Some part /\ Forall (fun ti => (ti < length (tracks s))%nat) part) /\
  Forall (fun d => Forall (fun x => (target_track x < length (tracks s))%nat) (snd d)) l.
(** The list of slots can be written. *)
Inductive closed_all : list song_def -> list song -> list (bool * list (list Z * list call_loop_ref)) -> Prop :=
| closed_nil : closed_all [] [] []
| closed_cons : forall sd s lp l sds ss ls, (forall f, input sd = Some f -> has_name f) -> song_closed s l ->
    closed_all sds ss ls -> closed_all (sd :: sds) (s :: ss) ((lp, l) :: ls).

(** The end of the last song. *)
Fixpoint songs_end (base ovf : tblock) (p : Z) (l : list (bool * list (list Z * list call_loop_ref))) : Z :=
  match l with [] => p | (lp, d) :: l' => songs_end base ovf (song_end base ovf p lp d) l' end.

(** The manifests the program builds: from a manifest file or from one of the two single-file modes. *)
Inductive program_manifest : manifest -> Prop :=
| pm_file : forall v parent m, manifest_new v parent = Ok m -> program_manifest m
| pm_single : forall p, program_manifest (manifest_single_song p)
| pm_select : forall p, program_manifest (manifest_file_select p).

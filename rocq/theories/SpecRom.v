(** SpecRom.v: an independent description of what the ROM tools are supposed to do: LoROM addresses,
    transfer-block chains, the sound processor's memory (ARAM) after a bank is loaded, and how a song
    is found there. Used only to state theorems. *)
From Verif Require Import Base Command Track Song.
Open Scope Z_scope.

(** ** Bytes of a file. *)
Definition byte (r : list Z) (a : Z) : Z := nth (Z.to_nat a) r 0.
Definition word (r : list Z) (a : Z) : Z := byte r a + 256 * byte r (a + 1).
Definition size (r : list Z) : Z := Z.of_nat (length r).
Definition is_image (r : list Z) : Prop := Forall u8 r.

(** [r'] is [r] with changes only at addresses satisfying [P]. *)
Definition same_outside (P : Z -> Prop) (r r' : list Z) : Prop :=
  length r' = length r /\ forall a, 0 <= a -> ~ P a -> byte r' a = byte r a.

(** ** LoROM: each bank holds 32 KB, in the upper half of its 64 KB address range. *)
Definition lorom (bank addr : Z) : Z := bank * 0x8000 + addr mod 0x8000.
Definition lorom24 (a : Z) : Z := lorom (a / 65536 mod 512) (a mod 65536).

(** ** Transfer blocks: length, ARAM address (both low byte first), then the payload. *)
Record tblock := mk_tblock { tb_start : Z; tb_len : Z; tb_aram : Z }.
Definition payload (b : tblock) : Z := tb_start b + 4.
Definition payload_end (b : tblock) : Z := tb_start b + 4 + tb_len b.
Definition in_payload (b : tblock) (a : Z) : Prop := payload b <= a < payload_end b.
Definition block_at (r : list Z) (a : Z) : tblock := mk_tblock a (word r a) (word r (a + 2)).

(** A chain of blocks from address [a]: blocks of non-zero length, then a header of length zero. *)
Inductive chain (r : list Z) : Z -> list tblock -> tblock -> Prop :=
| chain_end : forall a, 0 <= a -> a + 4 <= size r -> word r a = 0 -> chain r a [] (block_at r a)
| chain_block : forall a bs t, 0 <= a -> a + 4 <= size r -> word r a <> 0 ->
    chain r (a + 4 + word r a) bs t -> chain r a (block_at r a :: bs) t.

(** The pointer to a bank's chain: three bytes, four addresses apart (low, high, bank). *)
Definition bank_chain (r : list Z) (base_addr : Z) : Z :=
  lorom (byte r (lorom24 (base_addr + 8)))
        (256 * byte r (lorom24 (base_addr + 4)) + byte r (lorom24 base_addr)).
Definition pointer_bytes (base_addr a : Z) : Prop :=
  a = lorom24 (base_addr + 8) \/ a = lorom24 (base_addr + 4) \/ a = lorom24 base_addr.

(** The bank's song data goes into the last block loaded at ARAM D000 and the block after it. *)
Definition song_blocks (r : list Z) (base_addr : Z) (pre : list tblock) (base ovf : tblock) (post : list tblock) : Prop :=
  exists bs t, chain r (bank_chain r base_addr) bs t /\ bs ++ [t] = pre ++ base :: ovf :: post /\
    tb_aram base = 0xd000 /\ Forall (fun b => tb_aram b <> 0xd000) (ovf :: post).

(** ** ARAM after the blocks have been transferred in order: a later block overwrites an earlier one. *)
Fixpoint aram (r : list Z) (bs : list tblock) (a : Z) : option Z :=
  match bs with
  | [] => None
  | b :: bs' =>
      match aram r bs' a with
      | Some v => Some v
      | None => if (tb_aram b <=? a) && (a <? tb_aram b + tb_len b) then Some (byte r (payload b + (a - tb_aram b))) else None
      end
  end.

(** The two bytes at [a] hold [w], low byte first. *)
Definition holds (mem : Z -> option Z) (a w : Z) : Prop :=
  mem a = Some (w mod 256) /\ mem (a + 1) = Some (w / 256) /\ 0 <= w < 65536.

(** ** A song in ARAM.
    [a] is its address, [at_] the addresses of its tracks (0 for a track without bytes).
    The header is the address of the part table, then either "00FF, own address, 0000" (repeat
    forever) or "0000" (stop). The part table has eight words: the addresses of the part's tracks,
    then zeros. Every track's bytes are at its address, with each loop operand replaced by the address
    of the track it calls. *)
Definition header_size (lp : bool) : Z := if lp then 8 else 4.
Definition operand (refs : list call_loop_ref) (j : nat) : Prop :=
  exists x, In x refs /\ (j = ref_pos x \/ j = S (ref_pos x)).
Definition track_in (mem : Z -> option Z) (at_ : list Z) (i : nat) (data : list Z) (refs : list call_loop_ref) : Prop :=
  exists a, nth_error at_ i = Some a /\ (data = [] -> a = 0) /\
  (forall j, (j < length data)%nat -> ~ operand refs j -> mem (a + Z.of_nat j) = Some (nth j data 0)) /\
  (forall x, In x refs -> exists ta, nth_error at_ (target_track x) = Some ta /\ holds mem (a + Z.of_nat (ref_pos x)) ta).

Record song_in (mem : Z -> option Z) (a : Z) (lp : bool) (s : song) (at_ : list Z) : Prop := mk_song_in {
  si_header : holds mem a (a + header_size lp);
  si_after : if lp then holds mem (a + 2) 0xff /\ holds mem (a + 4) a /\ holds mem (a + 6) 0 else holds mem (a + 2) 0;
  si_count : length at_ = length (tracks s);
  si_part : exists part, nth_error (parts s) 0 = Some part /\
    forall k, (k < 8)%nat ->
      holds mem (a + header_size lp + 2 * Z.of_nat k)
        (match nth_error part k with Some ti => nth ti at_ 0 | None => 0 end);
  si_tracks : forall i, (i < length (tracks s))%nat ->
    exists data refs, write_track s [] i [] = Ok (data, refs) /\ track_in mem at_ i data refs
}.

(** ** Laying out a bank.
    Data is placed one item after another; an item that does not fit into the rest of the base block
    goes to the start of the overflow block. [p] is the next free file address. *)
Definition place (base ovf : tblock) (p n : Z) : Z :=
  if (p <=? payload_end base) && (payload_end base <? p + n) then payload ovf else p.
Definition data_len (d : list Z * list call_loop_ref) : Z := Z.of_nat (length (fst d)).
Fixpoint tracks_end (base ovf : tblock) (p : Z) (l : list (list Z * list call_loop_ref)) : Z :=
  match l with
  | [] => p
  | d :: l' => tracks_end base ovf (place base ovf p (data_len d) + data_len d) l'
  end.
Definition song_end (base ovf : tblock) (p : Z) (lp : bool) (l : list (list Z * list call_loop_ref)) : Z :=
  tracks_end base ovf (place base ovf p (header_size lp + 16) + (header_size lp + 16)) l.

(** A track that is moved to the overflow block calls no loops and is not longer than that block. *)
Fixpoint tracks_stay (base ovf : tblock) (p : Z) (l : list (list Z * list call_loop_ref)) : Prop :=
  match l with
  | [] => True
  | d :: l' =>
      (place base ovf p (data_len d) = p \/ snd d = [] /\ data_len d <= tb_len ovf) /\
      tracks_stay base ovf (place base ovf p (data_len d) + data_len d) l'
  end.
Definition song_stays (base ovf : tblock) (p : Z) (lp : bool) (l : list (list Z * list call_loop_ref)) : Prop :=
  tracks_stay base ovf (place base ovf p (header_size lp + 16) + (header_size lp + 16)) l.
Fixpoint songs_stay (base ovf : tblock) (p : Z) (l : list (bool * list (list Z * list call_loop_ref))) : Prop :=
  match l with
  | [] => True
  | (lp, d) :: l' => song_stays base ovf p lp d /\ songs_stay base ovf (song_end base ovf p lp d) l'
  end.

(** The bytes of all tracks of a song. *)
Definition encodes (s : song) (l : list (list Z * list call_loop_ref)) : Prop :=
  length l = length (tracks s) /\ forall i d, nth_error l i = Some d -> write_track s [] i [] = Ok d.

(** The three pointer bytes are inside the image. *)
Definition pointers_in (r : list Z) (base_addr : Z) : Prop :=
  0 <= base_addr /\ base_addr + 8 < 2 ^ 32 /\ forall a, pointer_bytes base_addr a -> a < size r.

(** ** The dummy ROM: addresses of the block headers of a chain, and what is kept of one bank. *)
Definition in_header (b : tblock) (x : Z) : Prop := tb_start b <= x < payload b.
Definition headers (bs : list tblock) (x : Z) : Prop := exists b, In b bs /\ in_header b x.
Definition bank_kept (r : list Z) (base_addr x : Z) : Prop :=
  pointer_bytes base_addr x \/ exists bs t, chain r (bank_chain r base_addr) bs t /\ headers (bs ++ [t]) x.
Definition addr_ok (a : Z) : Prop := 0 <= a /\ a + 8 < 2 ^ 32.

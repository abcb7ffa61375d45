(** SpecGame.v: the ROM of the game, as far as the program depends on it, and the sample dummy (/repo/sample/dummy.smc), for
    C77. Used only to state theorems. *)
From Coq Require Import ZArith List.
From Verif Require Import Base SpecRom SpecBank.
Import ListNotations.
Open Scope Z_scope.
Open Scope list_scope.

(** The game's three banks: where their pointers are, and the blocks for songs that the pointers lead to. *)
Definition game_bank (addr start base_len ovf_len ovf_aram : Z) : layout :=
  mk_layout addr [] (mk_tblock start base_len 0xd000) (mk_tblock (start + 4 + base_len) ovf_len ovf_aram)
    [mk_tblock (start + 8 + base_len + ovf_len) 0 0x800].
Definition game_layouts : list layout :=
  [game_bank 0x914 0xd1ef5 0x2dae 0x688 0x2b00; game_bank 0x926 0xd8000 0x2cbf 0x50c 0x2b00; game_bank 0x932 0xd5380 0x1060 0x1038 0x2900].
(** The bytes of the pointers: addresses and values. *)
Definition game_pointers : list (Z * Z) :=
  [(0x914, 0xf5); (0x918, 0x9e); (0x91c, 0x1a); (0x926, 0x00); (0x92a, 0x80); (0x92e, 0x1b); (0x932, 0x80); (0x936, 0xd3); (0x93a, 0x1a)].
(** An image of one megabyte with these pointers and the headers of these blocks. Everything else is arbitrary. *)
Record game_rom (r : list Z) : Prop := mk_game_rom {
  gr_image : is_image r;
  gr_size : size r = 0x100000;
  gr_pointers : Forall (fun x => byte r (fst x) = snd x) game_pointers;
  gr_blocks : Forall (fun L => Forall (fun x => block_at r (tb_start x) = x) (lo_blocks L)) game_layouts
}.

(** The file /repo/sample/dummy.smc: zero but for 29 bytes. [sparse a l n] is the part from address [a] of a file of [n] bytes
    that has the bytes [l], by address, and zeros elsewhere. *)
Fixpoint sparse (a : Z) (l : list (Z * Z)) (n : Z) : list Z :=
  match l with
  | [] => repeat 0 (Z.to_nat (n - a))
  | (x, v) :: l' => repeat 0 (Z.to_nat (x - a)) ++ v :: sparse (x + 1) l' n
  end.
Definition sample_bytes : list (Z * Z) :=
  [(0x914, 0xf5); (0x918, 0x9e); (0x91c, 0x1a); (0x92a, 0x80); (0x92e, 0x1b); (0x932, 0x80); (0x936, 0xd3); (0x93a, 0x1a);
   (0xd1ef5, 0xae); (0xd1ef6, 0x2d); (0xd1ef8, 0xd0); (0xd4ca7, 0x88); (0xd4ca8, 0x06); (0xd4caa, 0x2b); (0xd5336, 0x08);
   (0xd5380, 0x60); (0xd5381, 0x10); (0xd5383, 0xd0); (0xd63e4, 0x38); (0xd63e5, 0x10); (0xd63e7, 0x29); (0xd7423, 0x08);
   (0xd8000, 0xbf); (0xd8001, 0x2c); (0xd8003, 0xd0); (0xdacc3, 0x0c); (0xdacc4, 0x05); (0xdacc6, 0x2b); (0xdb1d6, 0x08)].
Definition sample_dummy : list Z := sparse 0 sample_bytes 0x100000.
(** The payloads of the game's six song blocks. *)
Definition game_song_data (x : Z) : Prop :=
  0xd1ef9 <= x < 0xd4ca7 \/ 0xd4cab <= x < 0xd5333 \/ 0xd8004 <= x < 0xdacc3 \/ 0xdacc7 <= x < 0xdb1d3 \/ 0xd5384 <= x < 0xd63e4 \/ 0xd63e8 <= x < 0xd7420.

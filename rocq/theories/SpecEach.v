(** SpecEach.v: banks whose songs are not known to fit without moving a track that calls loops. Used only to state
    theorems (C34, C36, C39). *)
From Coq Require Import ZArith List.
From Verif Require Import Base F32 Command Track Song Paths Manifest Rom SpecRom SpecBank SpecSafe.
Import ListNotations.
Open Scope Z_scope.

(** The songs can be written, and no track is longer than the overflow block. Unlike [bank_fits], nothing is said about
    the tracks that are moved to the overflow block. *)
Record bank_short (b : build) (conv : path -> f32 -> outcome song) (L : layout) (fa : Z) (first : nat)
  (sds : list song_def) (ss : list song) (ls : list (bool * list (list Z * list call_loop_ref))) : Prop := mk_bank_short {
  bs_songs : loaded b conv sds ss ls;
  bs_closed : closed_all sds ss ls;
  bs_table : 2 * Z.of_nat (first + length sds) <= fa - 0xd000;
  bs_first : fa - 0xd000 <= tb_len (lo_base L);
  bs_tracks : Forall (fun x => Forall (fun d => data_len d <= tb_len (lo_ovf L)) (snd x)) ls
}.

(** Song [k] is laid out without moving a track that calls loops; [ls] are the songs of the bank. *)
Definition song_unmoved (L : layout) (fa : Z) (ls : list (bool * list (list Z * list call_loop_ref))) (k : nat) : Prop :=
  forall lp l, nth_error ls k = Some (lp, l) ->
    song_stays (lo_base L) (lo_ovf L) (songs_end (lo_base L) (lo_ovf L) (payload (lo_base L) + (fa - 0xd000)) (firstn k ls)) lp l.

(** Like [bank_in], but only the songs of the slots in [good] need to be complete. The table entries of all slots lead into
    the song data. *)
Record bank_in_for (good : nat -> Prop) (r : list Z) (L : layout) (fa : Z) (first : nat) (sds : list song_def) (ss : list song) : Prop := mk_bank_in_for {
  bg_blocks : lo_in r L;
  bg_table : forall k, (k < length sds)%nat -> exists a, holds (aram r (lo_blocks L)) (0xd000 + 2 * Z.of_nat (first + k)) a /\
    (fa <= a \/ tb_aram (lo_ovf L) <= a < tb_aram (lo_ovf L) + tb_len (lo_ovf L));
  bg_songs : forall k sd s, nth_error sds k = Some sd -> nth_error ss k = Some s -> good k ->
    exists a at_, holds (aram r (lo_blocks L)) (0xd000 + 2 * Z.of_nat (first + k)) a /\ song_in (aram r (lo_blocks L)) a (loops sd) s at_;
  bg_rest : forall a, 0xd000 + 2 * Z.of_nat (first + length sds) <= a < fa -> aram r (lo_blocks L) a = Some 0
}.

(** Everything from the song table to the end of the overflow block of one bank is apart from what belongs to the other. *)
Definition separate (L1 L2 : layout) : Prop :=
  forall x, (lo_span L1 x -> ~ lo_span L2 x /\ ~ lo_frame L2 x) /\ (lo_span L2 x -> ~ lo_frame L1 x).

(** Several banks; [i] is the index of the first and [first] the number of songs before it. *)
Inductive banks_short (b : build) (conv : path -> f32 -> outcome song) : nat -> nat -> list bank -> list layout -> list (list song) ->
  list (list (bool * list (list Z * list call_loop_ref))) -> Prop :=
| banks_short_nil : forall i first, banks_short b conv i first [] [] [] []
| banks_short_cons : forall i first fa bk L ss ls bks Ls sss lss,
    nth_error first_songs i = Some fa -> bank_short b conv L fa first (songs bk) ss ls ->
    banks_short b conv (S i) (first + length (songs bk)) bks Ls sss lss ->
    banks_short b conv i first (bk :: bks) (L :: Ls) (ss :: sss) (ls :: lss).

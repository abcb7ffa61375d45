(** SpecAram.v: an independent description of the sound driver playing a track out of ARAM, with loop
    calls. Used only to state theorems. Builds on the byte format of SpecNspc.v and the memory layout
    of SpecRom.v. *)
From Verif Require Import Base Command Track Song SpecNspc SpecLoop.
Open Scope Z_scope.

(** Up to [n] bytes from address [a]. *)
Fixpoint read (mem : Z -> option Z) (a : Z) (n : nat) : list Z :=
  match n with
  | O => []
  | S n' => match mem a with Some b => b :: read mem (a + 1) n' | None => [] end
  end.
(** The token at address [a] (a token has at most four bytes) and the address after it. *)
Definition fetch (mem : Z -> option Z) (a : Z) : option (token * Z) :=
  match decode_token (read mem a 4) with
  | Some (t, r) => Some (t, a + Z.of_nat (length (read mem a 4) - length r))
  | None => None
  end.

Definition is_command (t : token) : Prop :=
  match t with TEnd => False | TDuration _ _ => False | TControl op _ => op <> 0xef | _ => True end.

(** [run mem calls a (dur, vs) es st]: started at address [a] with the running duration and
    quantisation/velocity byte [(dur, vs)], the driver executes the commands [es] until it reads an
    end marker, and is then in state [st]. Command EF calls the bytes at an address a number of times;
    the driver has one return address, so a called track may not call ([calls] is false inside). *)
Definition drv := (option Z * option Z)%type.
Inductive run (mem : Z -> option Z) : bool -> Z -> drv -> list event -> drv -> Prop :=
| run_end : forall calls a st a', fetch mem a = Some (TEnd, a') -> run mem calls a st [] st
| run_duration : forall calls a dur vs d v a' es st,
    fetch mem a = Some (TDuration d v, a') -> run mem calls a' (Some d, or_else v vs) es st ->
    run mem calls a (dur, vs) es st
| run_command : forall calls a dur vs t a' es st,
    fetch mem a = Some (t, a') -> is_command t -> run mem calls a' (dur, vs) es st ->
    run mem calls a (dur, vs) (mk_event t dur vs :: es) st
| run_call : forall a st lo hi n a' es1 st1 es2 st2,
    fetch mem a = Some (TControl 0xef [lo; hi; n], a') -> 0 < n ->
    run_times mem (Z.to_nat n) (lo + 256 * hi) st es1 st1 -> run mem true a' st1 es2 st2 ->
    run mem true a st (es1 ++ es2) st2
with run_times (mem : Z -> option Z) : nat -> Z -> drv -> list event -> drv -> Prop :=
| times_none : forall a st, run_times mem O a st [] st
| times_once : forall n a st es1 st1 es2 st2,
    run mem false a st es1 st1 -> run_times mem n a st1 es2 st2 -> run_times mem (S n) a st (es1 ++ es2) st2.

(** What is heard of an event: its command; for notes, ties and rests its length; for notes, if
    [loud], its quantisation/velocity byte. *)
Definition sounding (t : token) : bool :=
  match t with TNote _ => true | TTie => true | TRest => true | _ => false end.
Definition is_tnote (t : token) : bool := match t with TNote _ => true | _ => false end.
Definition heard (loud : bool) (e : event) : token * option Z * option Z :=
  (ev_token e, if sounding (ev_token e) then ev_dur e else None,
   if loud && is_tnote (ev_token e) then ev_vs e else None).

(** Commands that carry their own length: every note, tie and rest, and every command that sets
    quantisation or velocity. *)
Definition self_timed (pc : pcmd) : Prop :=
  sounding (token_of (cmd pc)) = true \/ needs_dur pc -> positive (duration pc) <> None.
(** A command of a song as written: in range, with its own length; a call is a bare call. *)
Definition playable (pc : pcmd) : Prop :=
  match cmd pc with
  | CallLoop _ k => 1 <= k <= 255 /\ duration pc = Some 0 /\ velocity pc = Some 0 /\ sustain pc = Some 0
  | _ => pcmd_ok pc /\ self_timed pc
  end.

(** Every command that sets one of the nibbles, and every note, sets both. *)
Definition full (pc : pcmd) : Prop :=
  needs_dur pc -> positive (velocity pc) <> None /\ positive (sustain pc) <> None.
(** The byte it sets. *)
Definition vs_byte (pc : pcmd) : option Z :=
  match positive (sustain pc), positive (velocity pc) with Some q, Some v => Some (q * 16 + v) | _, _ => None end.
(** The last byte set by a track. *)
Fixpoint last_byte (l : list pcmd) : option Z :=
  match l with [] => None | pc :: l' => match last_byte l' with Some b => Some b | None => vs_byte pc end end.
(** Whenever two byte-setting commands with the same byte have only loop calls and other commands
    between them, the tracks called in between set no other byte last. *)
Definition velocity_safe (song : list track) (tr : track) : Prop :=
  forall x n1 mid n2 y, tr = x ++ n1 :: mid ++ n2 :: y -> vs_byte n1 <> None -> vs_byte n2 = vs_byte n1 ->
  (forall pc, In pc mid -> vs_byte pc = None) ->
  forall pc t k body, In pc mid -> cmd pc = CallLoop t k -> nth_error song t = Some body ->
  last_byte body = None \/ last_byte body = vs_byte n1.

(** The commands that open track [i] of a written song: two volumes and percussion base when the track
    is the first of a part, its volume when it is another track of a part, none for a loop body. *)
Definition frame_cmds (s : song) (i : nat) (pre : list (Z * list Z)) : Prop :=
  ((exists q, In (i :: q) (parts s)) -> pre = [(0xfa, [0x19]); (0xe5, [0xc8]); (0xed, [0xc8])]) /\
  ((forall q, ~ In (i :: q) (parts s)) -> (exists p, In p (parts s) /\ In i p) -> pre = [(0xed, [0xc8])]) /\
  ((forall p, In p (parts s) -> ~ In i p) -> pre = []).

(** A song of [n] voices as the converter builds it: every part is a non-empty selection of the first
    [n] tracks; the tracks after those are loop bodies. *)
Definition song_shape (n : nat) (s : song) : Prop :=
  (n <= length (tracks s))%nat /\ well_formed_loops n (tracks s) /\
  (forall p, In p (parts s) -> p <> [] /\ Forall (fun t => (t < n)%nat) p).

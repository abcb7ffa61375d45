(** MidiDump.v: the handler [dump_midi] prints after reading a file, also when reading fails. *)
From Coq Require Import ZArith List.
From Verif Require Import Base Messages Paths Midi Json Cli Run.
Import ListNotations.
Open Scope Z_scope.

(** src/midi/mod.rs:69-74 [struct MidiChannel]. *)
Record channel := mk_channel { ch_messages : list tmsg; ch_intervals : list interval; ch_base : nat }.
(** src/midi/mod.rs:97-104 [struct MidiHandler], every field. *)
Record dump := mk_dump {
  d_tracks : list (list message); d_channels : list channel; d_voices : list (list tmsg); d_tpb : Z; d_max : Z
}.
(** src/midi/mod.rs:107-141 [MidiHandler::new]: the sixteen channels and eight voices of a new handler. *)
Definition new_channels : list channel := repeat (mk_channel [] [] O) 16.
Definition new_voices : list (list tmsg) := repeat [] 8.

(** src/midi/mod.rs:385-596: the voices after one event, and whether the event was placed. Only a note-on
    can fail, after its note-off has been written to the voice that was playing the key. *)
Definition step_state (base : list nat) (order : notes -> notes) (s : vstate) (m : tmsg) : outcome (bool * vstate) :=
  match voice_step base order s m with
  | Ok s' => Ok (true, s')
  | Err _ =>
      match fst m with
      | MidiEvent d (NoteOn ch note vel) => let* s' := v_retrigger s d ch note vel (snd m) in Ok (false, s')
      | _ => Ok (false, s)
      end
  | Panic p => Panic p
  | Diverge => Diverge
  end.

(** src/midi/mod.rs:366-597: the merge loop, which stops at the first event that cannot be placed. *)
Fixpoint loop_state (fuel : nat) (chs : list (list tmsg)) (base : list nat)
  (order : nat -> notes -> notes) (idx : list nat) (done : nat) (s : vstate) : outcome (bool * vstate) :=
  if Nat.ltb done (length chs) then
    match fuel with
    | O => Diverge
    | S fuel' =>
        let* nc := or_panic PUnwrap (next_channel chs idx) in
        let* ch := or_panic PIndex (nth_error chs nc) in
        let* k := or_panic PIndex (nth_error idx nc) in
        let* ev := or_panic PIndex (nth_error ch k) in
        let* idx' := or_panic PIndex (set_nth idx nc (S k)) in
        let done' := if Nat.eqb (S k) (length ch) then S done else done in
        let* r := step_state base (order fuel') s ev in
        if fst r then loop_state fuel' chs base order idx' done' (snd r) else Ok r
    end
  else Ok (true, s).

(** src/midi/mod.rs:330-599 [channels_to_voices]. *)
Definition merge_state (chs : list (list tmsg)) (base : list nat) (order : nat -> notes -> notes)
  : outcome (bool * list (list tmsg)) :=
  let* r := loop_state (S (list_sum (map (@length _) chs))) chs base order
              (repeat O (length chs)) (length (filter is_nil chs)) (vstate0 base) in
  Ok (fst r, v_voices (snd r)).

(** The sixteen channels from their messages, intervals and base voices. *)
Fixpoint channels_of (chs : list (list tmsg)) (ivs : list (list interval)) (base : list nat) : list channel :=
  match chs, ivs, base with
  | l :: chs', iv :: ivs', v :: base' => mk_channel l iv v :: channels_of chs' ivs' base'
  | _, _, _ => []
  end.

(** src/midi/mod.rs:144-328 [MidiHandler::read] on a new handler: the error returned, if any, and the handler
    it leaves. [find_base_voices] sets a channel's base voice only after the channels behind it have found
    theirs (src/midi/mod.rs:280-317), so a failed search leaves all of them 0. *)
Definition read_state (b : build) (cbs : list callback) (complete : bool) (order : nat -> notes -> notes)
  : outcome (option error * dump) :=
  let* r := ofold on_callback cbs (mk_rstate [] 0) in
  if complete then
    let* chs := tracks_to_channels b (r_tracks r) in
    let* iv := all_intervals b chs 0 0 in
    match find_base_voices (fst iv) (repeat [] 8) with
    | None => Ok (Some ECouldntFit, mk_dump (r_tracks r) (channels_of chs (fst iv) (repeat O 16)) new_voices (r_tpb r) (snd iv))
    | Some base =>
        let* m := merge_state chs base order in
        Ok (if fst m then None else Some ECouldntFit, mk_dump (r_tracks r) (channels_of chs (fst iv) base) (snd m) (r_tpb r) (snd iv))
    end
  else Ok (Some EMidiRead, mk_dump (r_tracks r) new_channels new_voices (r_tpb r) 0).

(** src/lib.rs:41-48: what the command prints: the error, if any, and the handler. The layout of Rust's
    [{:#?}] is not modelled. *)
Definition dump_midi (b : build) (t : tools) (order : nat -> notes -> notes) (f : files) (input : path)
  : outcome (option error * dump) :=
  let '(cbs, complete) := midi_file (world_of t f) input in read_state b cbs complete order.

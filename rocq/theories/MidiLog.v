(** MidiLog.v: model of what src/midi/mod.rs prints in verbose mode while it reads a MIDI file. The functions are those of
    Midi.v with the printing added; that the results are the same is proved (C83_same_result). *)
From Verif Require Import Base Messages Midi.
Open Scope Z_scope.

(** What the [println!]s print, without the wording and the path. The sounding notes printed with [Occupied] are left out. *)
Inductive line :=
| Reading                                             (* src/midi/mod.rs:145-147 *)
| Extracting (track : nat)                            (* src/midi/mod.rs:219-221 *)
| Searching (channel : nat)                           (* src/midi/mod.rs:263-265 *)
| Overlaps (voice : nat) (with_ : interval)           (* src/midi/mod.rs:276-278 *)
| Possible (voices : list nat)                        (* src/midi/mod.rs:289-291 *)
| Trying (channel voice : nat)                        (* src/midi/mod.rs:293-295 *)
| Occupied (channel : nat) (time : Z) (bases : list nat) (* src/midi/mod.rs:440-446 *)
| Using (voice : nat).                                (* src/midi/mod.rs:458-460 *)

(** Code that prints: what it printed, even if it failed, and its outcome. *)
Definition printing (A : Type) : Type := list line * outcome A.
Definition pbind {A B} (m : printing A) (f : A -> printing B) : printing B :=
  match snd m with
  | Ok a => let r := f a in (fst m ++ fst r, snd r)
  | Err e => (fst m, Err e)
  | Panic p => (fst m, Panic p)
  | Diverge => (fst m, Diverge)
  end.
Definition silent {A} (m : outcome A) : printing A := ([], m).
Definition print (l : list line) : printing unit := (l, Ok tt).

(** src/midi/mod.rs:218-245: the tracks, from number [i] on. *)
Fixpoint distribute_printing (b : build) (ts : list (list message)) (i : nat) (chs : list (list tmsg))
  : printing (list (list tmsg)) :=
  match ts with
  | [] => silent (Ok chs)
  | tr :: ts' =>
      pbind (print [Extracting i]) (fun _ =>
      pbind (silent (distribute_track b chs tr)) (fun chs' =>
      distribute_printing b ts' (S i) chs'))
  end.
(** src/midi/mod.rs:217-251 [tracks_to_channels]. *)
Definition extract_printing (b : build) (ts : list (list message)) : printing (list (list tmsg)) :=
  pbind (distribute_printing b ts 0 (repeat [] 16)) (fun chs => silent (Ok (map sort_msgs chs))).

(** src/midi/mod.rs:312-328 [overlapping_interval]. *)
Definition overlapping_interval (ch active : list interval) : option interval :=
  fold_right (fun a r => match find (overlaps a) active with Some e => Some e | None => r end) None ch.

(** src/midi/mod.rs:266-288, [i] being the index of the first of [active]. *)
Fixpoint voices_printing (ch : list interval) (active : list (list interval)) (i : nat) (found_empty : bool)
  : list line * list nat :=
  match active with
  | [] => ([], [])
  | v :: active' =>
      let empty := match v with [] => true | _ => false end in
      if (negb found_empty || negb empty)%bool then
        match overlapping_interval ch v with
        | Some e => let r := voices_printing ch active' (S i) found_empty in (Overlaps i e :: fst r, snd r)
        | None => let r := voices_printing ch active' (S i) (found_empty || empty) in (fst r, i :: snd r)
        end
      else voices_printing ch active' (S i) found_empty
  end.

(** src/midi/mod.rs:292-305: the voices tried for channel [c]; [rest] is the search for the channels after it. *)
Definition try_printing (rest : list (list interval) -> list line * option (list nat)) (c : nat) (ch : list interval)
  (active : list (list interval)) : list nat -> list line * option (list nat) :=
  fix try (vs : list nat) : list line * option (list nat) :=
    match vs with
    | [] => ([], None)
    | v :: vs' =>
        let r := rest (upd active v (fun l => l ++ ch)) in
        match snd r with
        | Some base => (Trying c v :: fst r, Some (v :: base))
        | None => let r' := try vs' in (Trying c v :: fst r ++ fst r', snd r')
        end
    end.
(** src/midi/mod.rs:253-310 [find_base_voices], [c] being the number of the first of [chs]. *)
Fixpoint find_printing (c : nat) (chs : list (list interval)) (active : list (list interval))
  : list line * option (list nat) :=
  match chs with
  | [] => ([], Some [])
  | ch :: chs' =>
      let vs := voices_printing ch active 0 false in
      let r := try_printing (find_printing (S c) chs') c ch active (snd vs) in
      (Searching c :: fst vs ++ Possible (snd vs) :: fst r, snd r)
  end.

(** src/midi/mod.rs:432-467: what is printed for a note-on, in the state [s] in which its voice is chosen. *)
Definition choice_printing (base : list nat) (ch : nat) (abs_time : Z) (s : vstate) : list line :=
  match nth_error base ch with
  | Some bv =>
      if voice_active (v_active s) bv then
        Occupied ch abs_time base ::
        match choose_voice base bv (v_active s) with Some v => [Using v] | None => [] end
      else []
  | None => []
  end.
(** src/midi/mod.rs:385-596: only the [NoteOn] arm prints. *)
Definition step_printing (base : list nat) (order : notes -> notes) (s : vstate) (m : tmsg) : printing vstate :=
  match m with
  | (MidiEvent d (NoteOn ch note vel), abs_time) =>
      match v_retrigger s d ch note vel abs_time with
      | Ok s' => (if 0 <? vel then choice_printing base (Z.to_nat ch) abs_time s' else [], voice_step base order s m)
      | _ => silent (voice_step base order s m)
      end
  | _ => silent (voice_step base order s m)
  end.

(** src/midi/mod.rs:366-597: the merge loop, as [voices_loop]. *)
Fixpoint loop_printing (fuel : nat) (chs : list (list tmsg)) (base : list nat)
  (order : nat -> notes -> notes) (idx : list nat) (done : nat) (s : vstate) : printing vstate :=
  if Nat.ltb done (length chs) then
    match fuel with
    | O => silent Diverge
    | S fuel' =>
        pbind (silent (or_panic PUnwrap (next_channel chs idx))) (fun nc =>
        pbind (silent (or_panic PIndex (nth_error chs nc))) (fun ch =>
        pbind (silent (or_panic PIndex (nth_error idx nc))) (fun k =>
        pbind (silent (or_panic PIndex (nth_error ch k))) (fun ev =>
        pbind (silent (or_panic PIndex (set_nth idx nc (S k)))) (fun idx' =>
        let done' := if Nat.eqb (S k) (length ch) then S done else done in
        pbind (step_printing base (order fuel') s ev) (fun s' =>
        loop_printing fuel' chs base order idx' done' s'))))))
    end
  else silent (Ok s).

(** src/midi/mod.rs:330-599 [channels_to_voices]. *)
Definition merge_printing (chs : list (list tmsg)) (base : list nat) (order : nat -> notes -> notes)
  : printing (list (list tmsg)) :=
  pbind (loop_printing (S (list_sum (map (@length _) chs))) chs base order
           (repeat O (length chs)) (length (filter is_nil chs)) (vstate0 base)) (fun s =>
  silent (Ok (v_voices s))).

(** src/midi/mod.rs:144-215 [MidiHandler::read] with its [verbose] argument. *)
Definition read_printing (b : build) (verbose : bool) (cbs : list callback) (complete : bool) (order : nat -> notes -> notes)
  : printing handler :=
  let r :=
    pbind (print [Reading]) (fun _ =>
    pbind (silent (ofold on_callback cbs (mk_rstate [] 0))) (fun r =>
    if complete then
      pbind (extract_printing b (r_tracks r)) (fun chs =>
      pbind (silent (all_intervals b chs 0 0)) (fun iv =>
      let f := find_printing 0 (fst iv) (repeat [] 8) in
      pbind (print (fst f)) (fun _ =>
      match snd f with
      | None => silent (Err ECouldntFit)
      | Some base =>
          pbind (merge_printing chs base order) (fun vs =>
          silent (Ok (mk_handler vs (r_tpb r) (snd iv))))
      end)))
    else silent (Err EMidiRead))) in
  if verbose then r else silent (snd r).

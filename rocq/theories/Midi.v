(** Midi.v: model of src/midi/mod.rs. The MIDI file parser (crate ghakuf) is not modelled: its result
    is the list of handler callbacks it makes and whether it finished without error. The [verbose]
    printing has no effect on the state and is omitted. [path.to_str().unwrap()] in the error value
    succeeds because paths come from UTF-8 strings. *)
From Verif Require Import Base Messages Track.

Definition SNARE_NOTE : Z := 68.   (* src/midi/mod.rs:9 *)

(** src/midi/mod.rs:17-28 [channel]. *)
Definition channel (e : midi_event) : nat :=
  Z.to_nat (match e with
  | NoteOff ch _ _ => ch
  | NoteOn ch _ _ => ch
  | PolyphonicKeyPressure ch _ _ => ch
  | ControlChange ch _ _ => ch
  | ProgramChange ch _ => ch
  | ChannelPressure ch _ => ch
  | PitchBendChange ch _ => ch
  | UnknownEvent ch => ch
  end).

(** src/midi/mod.rs:30-45 [priority]. *)
Definition priority (m : message) : Z :=
  match m with
  | MidiEvent _ (NoteOff _ _ _) => 0
  | MidiEvent _ (NoteOn _ _ v) => if v =? 0 then 0 else 2
  | _ => 1
  end.

(** src/midi/mod.rs:47-53 [struct VoiceInterval]; [voices] is a usize. *)
Record interval := mk_interval { i_start : Z; i_end : Z; i_channel : nat; i_voices : Z }.

(** Callbacks made by the MIDI reader (trait ghakuf::Handler, src/midi/mod.rs:606-652). *)
Inductive callback :=
| CHeader (format track time_base : Z)
| CMeta (delta_time : Z) (event : meta_event) (data : list Z)
| CMidi (delta_time : Z) (event : midi_event)
| CSysEx (delta_time : Z) (event : Z) (data : list Z)
| CTrackChange.

(** The handler's state while the reader runs: tracks and ticks per beat. *)
Record rstate := mk_rstate { r_tracks : list (list message); r_tpb : Z }.

(** [self.tracks.last_mut().unwrap().messages.push(m)], src/midi/mod.rs:614-647. *)
Definition push_last (ts : list (list message)) (m : message) : outcome (list (list message)) :=
  match rev ts with
  | [] => Panic PUnwrap
  | t :: r => Ok (rev r ++ [t ++ [m]])
  end.

(** src/midi/mod.rs:606-652: the handler callbacks. *)
Definition on_callback (s : rstate) (c : callback) : outcome rstate :=
  match c with
  | CHeader format _ time_base =>
      if format =? 1 then Ok (mk_rstate (r_tracks s) time_base) else Panic PUnimplemented
  | CMeta d e data => let* ts := push_last (r_tracks s) (MetaEvent d e data) in Ok (mk_rstate ts (r_tpb s))
  | CMidi d e => let* ts := push_last (r_tracks s) (MidiEvent d e) in Ok (mk_rstate ts (r_tpb s))
  | CSysEx d e data => let* ts := push_last (r_tracks s) (SysExEvent d e data) in Ok (mk_rstate ts (r_tpb s))
  | CTrackChange => Ok (mk_rstate (r_tracks s ++ [[]]) (r_tpb s))
  end.

(** Append to element [i] of a vector of vectors; panics when out of range. *)
Definition push_at {A} (l : list (list A)) (i : nat) (x : A) : outcome (list (list A)) :=
  match nth_error l i with
  | Some y => or_panic PIndex (set_nth l i (y ++ [x]))
  | None => Panic PIndex
  end.

(** src/midi/mod.rs:222-244: distribute one message of a track; state is (channels, abs_time). *)
Definition distribute_message (b : build) (st : list (list tmsg) * Z) (m : message)
  : outcome (list (list tmsg) * Z) :=
  let '(chs, abs_time) := st in
  match m with
  | MetaEvent delta_time _ _ =>
      let* t := arith b 32 (abs_time + delta_time) in
      let* chs' := push_at chs 0 (m, t) in Ok (chs', t)
  | MidiEvent delta_time event =>
      let* t := arith b 32 (abs_time + delta_time) in
      let* chs' := push_at chs (channel event) (m, t) in Ok (chs', t)
  | SysExEvent delta_time _ _ =>
      let* t := arith b 32 (abs_time + delta_time) in
      let* chs' := push_at chs 0 (m, t) in Ok (chs', t)
  | TrackChange => Ok st
  end.

(** src/midi/mod.rs:218-245. *)
Definition distribute_track (b : build) (chs : list (list tmsg)) (tr : list message)
  : outcome (list (list tmsg)) :=
  let* r := ofold (distribute_message b) tr (chs, 0) in Ok (fst r).

(** Sort key of src/midi/mod.rs:249: (abs_time, priority), lexicographic. *)
Definition key (m : tmsg) : Z * Z := (snd m, priority (fst m)).
Definition key_leb (a b : Z * Z) : bool :=
  (fst a <? fst b) || ((fst a =? fst b) && (snd a <=? snd b)).
Definition key_ltb (a b : Z * Z) : bool :=
  (fst a <? fst b) || ((fst a =? fst b) && (snd a <? snd b)).

(** [sort_by_key] is a stable sort; modelled by stable insertion sort. *)
Fixpoint insert_msg (m : tmsg) (l : list tmsg) : list tmsg :=
  match l with
  | [] => [m]
  | x :: l' => if key_leb (key m) (key x) then m :: l else x :: insert_msg m l'
  end.
Definition sort_msgs (l : list tmsg) : list tmsg := fold_right insert_msg [] l.

(** src/midi/mod.rs:217-251 [tracks_to_channels]. *)
Definition tracks_to_channels (b : build) (ts : list (list message)) : outcome (list (list tmsg)) :=
  let* chs := ofold (distribute_track b) ts (repeat [] 16) in
  Ok (map sort_msgs chs).

(** Local variables of src/midi/mod.rs:157-159 and the handler's [max_time]. *)
Record istate := mk_istate {
  is_intervals : list interval; is_last_end : Z; is_active : Z; is_max : Z
}.

(** src/midi/mod.rs:165-172 (and 177-184). *)
Definition push_interval (i : nat) (s : istate) (abs_time : Z) : list interval :=
  if is_last_end s <? abs_time
  then is_intervals s ++ [mk_interval (is_last_end s) abs_time i (is_active s)]
  else is_intervals s.

(** src/midi/mod.rs:160-200: one message of channel [i]. *)
Definition interval_step (b : build) (i : nat) (s : istate) (m : tmsg) : outcome istate :=
  match m with
  | (MidiEvent _ event, abs_time) =>
      let mx := if is_max s <? abs_time then abs_time else is_max s in
      match event with
      | NoteOff _ _ _ =>
          let* a := arith b 64 (is_active s - 1) in
          Ok (mk_istate (push_interval i s abs_time) abs_time a mx)
      | NoteOn _ _ vel =>
          let* a := arith b 64 (if vel =? 0 then is_active s - 1 else is_active s + 1) in
          Ok (mk_istate (push_interval i s abs_time) abs_time a mx)
      | _ => Ok (mk_istate (is_intervals s) (is_last_end s) (is_active s) mx)
      end
  | _ => Ok s
  end.

(** src/midi/mod.rs:156-201: intervals of every channel, and the maximum time. *)
Fixpoint all_intervals (b : build) (chs : list (list tmsg)) (i : nat) (mx : Z)
  : outcome (list (list interval) * Z) :=
  match chs with
  | [] => Ok ([], mx)
  | ch :: chs' =>
      let* s := ofold (interval_step b i) ch (mk_istate [] 0 0 mx) in
      let* r := all_intervals b chs' (S i) (is_max s) in
      Ok (is_intervals s :: fst r, snd r)
  end.

(** src/midi/mod.rs:312-328 [overlapping_interval], as a predicate. *)
Definition overlaps (a e : interval) : bool :=
  (0 <? i_voices a) && (0 <? i_voices e) && (i_start e <? i_end a) && (i_start a <? i_end e).
Definition overlapping (ch active : list interval) : bool :=
  existsb (fun a => existsb (overlaps a) active) ch.

(** src/midi/mod.rs:266-288: voices to try, [i] being the index of the first of [active]. *)
Fixpoint valid_voices (ch : list interval) (active : list (list interval)) (i : nat) (found_empty : bool)
  : list nat :=
  match active with
  | [] => []
  | v :: active' =>
      let empty := match v with [] => true | _ => false end in
      if (negb found_empty || negb empty)%bool then
        if overlapping ch v then valid_voices ch active' (S i) found_empty
        else i :: valid_voices ch active' (S i) (found_empty || empty)
      else valid_voices ch active' (S i) found_empty
  end.

(** src/midi/mod.rs:253-310 [find_base_voices]: base voices of the remaining channels, or [None] for
    the CouldntFit error. *)
Fixpoint find_base_voices (chs : list (list interval)) (active : list (list interval))
  : option (list nat) :=
  match chs with
  | [] => Some []
  | ch :: chs' =>
      (fix try (vs : list nat) : option (list nat) :=
         match vs with
         | [] => None
         | v :: vs' =>
             match find_base_voices chs' (upd active v (fun l => l ++ ch)) with
             | Some r => Some (v :: r)
             | None => try vs'
             end
         end) (valid_voices ch active 0 false)
  end.

(** Active notes of one channel: [HashMap<u8, usize>] as an association list (note, voice). *)
Definition notes := list (Z * nat).
Definition notes_get (n : notes) (k : Z) : option nat :=
  option_map snd (find (fun x => fst x =? k) n).
Definition notes_remove (n : notes) (k : Z) : notes := filter (fun x => negb (fst x =? k)) n.
Definition notes_insert (n : notes) (k : Z) (v : nat) : notes := notes_remove n k ++ [(k, v)].

(** Local variables of [channels_to_voices], src/midi/mod.rs:332-342, that affect the result. The
    [last_*_per_voice] vectors of messages are only ever written and are omitted. *)
Record vstate := mk_vstate {
  v_voices : list (list tmsg);
  v_ctrl : list (option message);    (* last_ctrl_change_per_channel *)
  v_prog : list (option message);    (* last_prog_change_per_channel *)
  v_pitch : list (option message);   (* last_pitch_bend_per_channel *)
  v_chan : list (option nat);        (* last_channel_per_voice *)
  v_active : list notes;             (* active_notes *)
  v_perc : Z                         (* last_percussion_instr *)
}.

Definition set_voices (s : vstate) (x : list (list tmsg)) : vstate :=
  mk_vstate x (v_ctrl s) (v_prog s) (v_pitch s) (v_chan s) (v_active s) (v_perc s).
Definition set_active (s : vstate) (x : list notes) : vstate :=
  mk_vstate (v_voices s) (v_ctrl s) (v_prog s) (v_pitch s) (v_chan s) x (v_perc s).

(** src/midi/mod.rs:355-360: initial [last_channel_per_voice]. *)
Definition first_channel_of (base : list nat) (voice : nat) : option nat :=
  find_index (fun bv => Nat.eqb bv voice) base.

(** src/midi/mod.rs:331-361. *)
Definition vstate0 (base : list nat) : vstate :=
  mk_vstate (repeat [] 8) (repeat None 16) (repeat None 16) (repeat None 16)
    (map (first_channel_of base) (seq 0 8)) (repeat [] 16) 0.

(** Is a voice used by an active note (of any channel)? src/midi/mod.rs:435-438, 453-456. *)
Definition voice_active (a : list notes) (v : nat) : bool :=
  existsb (fun n => existsb (fun x => Nat.eqb (snd x) v) n) a.

(** src/midi/mod.rs:433-467: the voice for a new note. *)
Definition choose_voice (base : list nat) (base_voice : nat) (a : list notes) : option nat :=
  if voice_active a base_voice then
    find (fun v => negb (existsb (fun bv => Nat.eqb bv v) base) && negb (voice_active a v)) (seq 0 8)
  else Some base_voice.

(** Push a message to a list of voices in turn. *)
Definition push_voices (vs : list (list tmsg)) (targets : list nat) (m : tmsg) : outcome (list (list tmsg)) :=
  ofold (fun vs v => push_at vs v m) targets vs.

(** src/midi/mod.rs:520-536 (and 541-555, 558-572, 573-587): a channel event goes to every voice sounding a note of the
    channel, in the map's iteration order [order], and to the base voice if not among them. *)
Definition push_channel_event (s : vstate) (base : list nat) (ch : nat) (order : notes -> notes) (m : tmsg)
  : outcome (list (list tmsg)) :=
  let* n := or_panic PIndex (nth_error (v_active s) ch) in
  let* bv := or_panic PIndex (nth_error base ch) in
  let targets := map snd (order n) in
  let* vs := push_voices (v_voices s) targets m in
  if existsb (fun v => Nat.eqb v bv) targets then Ok vs else push_at vs bv m.

Definition is_snare (note : Z) : bool := (note =? 38) || (note =? 40).
Definition perc_note (note : Z) : Z := if is_snare note then SNARE_NOTE else note.

Definition opt_msg (o : option message) (t : Z) : list tmsg :=
  match o with Some m => [(m, t)] | None => [] end.

(** src/midi/mod.rs:398-415, the [NoteOff] arm. *)
Definition v_note_off (s : vstate) (m : tmsg) (delta_time ch_z note vel : Z) : outcome vstate :=
  let ch := Z.to_nat ch_z in
  let abs_time := snd m in
  let* n := or_panic PIndex (nth_error (v_active s) ch) in
  match notes_get n note with
  | Some voice =>
      let* a := or_panic PIndex (set_nth (v_active s) ch (notes_remove n note)) in
      let out := if ch_z =? 9
                 then (MidiEvent delta_time (NoteOff ch_z (perc_note note) vel), abs_time)
                 else m in
      let* vs := push_at (v_voices s) voice out in
      Ok (set_voices (set_active s a) vs)
  | None => Ok s
  end.

(** src/midi/mod.rs:418-431: a new note-on ends a sounding note of the same pitch. *)
Definition v_retrigger (s : vstate) (delta_time ch_z note vel abs_time : Z) : outcome vstate :=
  let ch := Z.to_nat ch_z in
  let* n := or_panic PIndex (nth_error (v_active s) ch) in
  match notes_get n note with
  | Some voice =>
      let* a := or_panic PIndex (set_nth (v_active s) ch (notes_remove n note)) in
      let* vs := push_at (v_voices s) voice (MidiEvent delta_time (NoteOff ch_z note vel), abs_time) in
      Ok (set_voices (set_active s a) vs)
  | None => Ok s
  end.

(** src/midi/mod.rs:474-482: messages to refresh a voice that last played another channel. *)
Definition refresh (s : vstate) (ch voice : nat) (abs_time : Z) : outcome (list tmsg * list (option nat)) :=
  let* lc := or_panic PIndex (nth_error (v_chan s) voice) in
  if Nat.eqb ch (oelse lc 0xff%nat) then Ok ([], v_chan s)
  else
    let* c := or_panic PUnwrap (nth_error (v_ctrl s) ch) in
    let* p := or_panic PUnwrap (nth_error (v_prog s) ch) in
    let* w := or_panic PUnwrap (nth_error (v_pitch s) ch) in
    let* vc := or_panic PIndex (set_nth (v_chan s) voice (Some ch)) in
    Ok (opt_msg c abs_time ++ opt_msg p abs_time ++ opt_msg w abs_time, vc).

(** src/midi/mod.rs:483-510: the messages of the note itself; percussion inserts instrument changes. *)
Definition note_messages (s : vstate) (m : tmsg) (delta_time ch_z note vel : Z)
  : outcome (list tmsg * list (option message) * Z) :=
  let abs_time := snd m in
  if ch_z =? 9 then
    let instr := if is_snare note then SNARE else CYMBAL in
    let on := (MidiEvent delta_time (NoteOn ch_z (perc_note note) vel), abs_time) in
    if v_perc s =? instr then Ok ([on], v_prog s, v_perc s)
    else
      let pc := MidiEvent delta_time (ProgramChange ch_z instr) in
      let* vp := or_panic PIndex (set_nth (v_prog s) (Z.to_nat ch_z) (Some pc)) in
      Ok ([(pc, abs_time); on], vp, instr)
  else Ok ([m], v_prog s, v_perc s).

(** src/midi/mod.rs:416-512, the [NoteOn] arm. *)
Definition v_note_on (s0 : vstate) (base : list nat) (m : tmsg) (delta_time ch_z note vel : Z)
  : outcome vstate :=
  let ch := Z.to_nat ch_z in
  let abs_time := snd m in
  let* s := v_retrigger s0 delta_time ch_z note vel abs_time in
  if 0 <? vel then
    let* bv := or_panic PIndex (nth_error base ch) in
    match choose_voice base bv (v_active s) with
    | None => Err ECouldntFit
    | Some voice =>
        let* n := or_panic PIndex (nth_error (v_active s) ch) in
        let* a := or_panic PIndex (set_nth (v_active s) ch (notes_insert n note voice)) in
        let* r := refresh s ch voice abs_time in
        let '(pre, vc) := r in
        let* q := note_messages s m delta_time ch_z note vel in
        let '(nm, vp, perc) := q in
        let* vs := ofold (fun vs x => push_at vs voice x) (pre ++ nm) (v_voices s) in
        Ok (mk_vstate vs (v_ctrl s) vp (v_pitch s) vc a perc)
    end
  else Ok s.

(** src/midi/mod.rs:385-596: the match on the next event. [order] is the iteration order the hash
    map happens to use at this step. *)
Definition voice_step (base : list nat) (order : notes -> notes) (s : vstate) (m : tmsg) : outcome vstate :=
  match fst m with
  | MetaEvent _ SetTempo _ =>
      let* vs := push_at (v_voices s) 0 m in Ok (set_voices s vs)
  | MetaEvent _ (OtherMeta _) _ => Ok s
  | MidiEvent d (NoteOff ch note vel) => v_note_off s m d ch note vel
  | MidiEvent d (NoteOn ch note vel) => v_note_on s base m d ch note vel
  | MidiEvent _ (PolyphonicKeyPressure ch note _) =>
      let* n := or_panic PIndex (nth_error (v_active s) (Z.to_nat ch)) in
      match notes_get n note with
      | Some voice => let* vs := push_at (v_voices s) voice m in Ok (set_voices s vs)
      | None => Ok s
      end
  | MidiEvent _ (ControlChange ch control _) =>
      let* vs := push_channel_event s base (Z.to_nat ch) order m in
      let* c := if control =? 7
                then or_panic PIndex (set_nth (v_ctrl s) (Z.to_nat ch) (Some (fst m)))
                else Ok (v_ctrl s) in
      Ok (mk_vstate vs c (v_prog s) (v_pitch s) (v_chan s) (v_active s) (v_perc s))
  | MidiEvent _ (ProgramChange ch _) =>
      let* vs := push_channel_event s base (Z.to_nat ch) order m in
      let* p := or_panic PIndex (set_nth (v_prog s) (Z.to_nat ch) (Some (fst m))) in
      Ok (mk_vstate vs (v_ctrl s) p (v_pitch s) (v_chan s) (v_active s) (v_perc s))
  | MidiEvent _ (ChannelPressure ch _) =>
      let* vs := push_channel_event s base (Z.to_nat ch) order m in Ok (set_voices s vs)
  | MidiEvent _ (PitchBendChange ch _) =>
      let* vs := push_channel_event s base (Z.to_nat ch) order m in
      let* w := or_panic PIndex (set_nth (v_pitch s) (Z.to_nat ch) (Some (fst m))) in
      Ok (mk_vstate vs (v_ctrl s) (v_prog s) w (v_chan s) (v_active s) (v_perc s))
  | MidiEvent _ (UnknownEvent _) => Ok s
  | SysExEvent _ _ _ => let* vs := push_at (v_voices s) 0 m in Ok (set_voices s vs)
  | TrackChange => Ok s
  end.

(** src/midi/mod.rs:370-377: the key of a channel's next event; a finished channel sorts last. *)
Definition head_key (ch : list tmsg) (idx : nat) : Z * Z :=
  match nth_error ch idx with
  | Some m => key m
  | None => (2 ^ 32 - 1, 255)
  end.

(** [min_by_key]: the first index with the least key. [best] is the best so far with its index. *)
Fixpoint min_index (ks : list (Z * Z)) (i : nat) (best : option (nat * (Z * Z))) : option nat :=
  match ks with
  | [] => option_map fst best
  | k :: ks' =>
      match best with
      | None => min_index ks' (S i) (Some (i, k))
      | Some (bi, bk) => if key_ltb k bk then min_index ks' (S i) (Some (i, k))
                         else min_index ks' (S i) best
      end
  end.

(** src/midi/mod.rs:367-378: pick the channel to serve. *)
Definition next_channel (chs : list (list tmsg)) (idx : list nat) : option nat :=
  min_index (map (fun p => head_key (fst p) (snd p)) (combine chs idx)) 0 None.

(** src/midi/mod.rs:366-597: the merge loop. [order k] is the hash order at the step with [k] steps of
    fuel left. Every iteration consumes a message, so [fuel > number of messages] suffices (proved). *)
Fixpoint voices_loop (fuel : nat) (chs : list (list tmsg)) (base : list nat)
  (order : nat -> notes -> notes) (idx : list nat) (done : nat) (s : vstate) : outcome vstate :=
  if Nat.ltb done (length chs) then
    match fuel with
    | O => Diverge
    | S fuel' =>
        let* nc := or_panic PUnwrap (next_channel chs idx) in
        let* ch := or_panic PIndex (nth_error chs nc) in
        let* k := or_panic PIndex (nth_error idx nc) in
        let* ev := or_panic PIndex (nth_error ch k) in
        let* idx' := or_panic PIndex (set_nth idx nc (S k)) in
        let done' := if Nat.eqb (S k) (length ch) then S done else done in
        let* s' := voice_step base (order fuel') s ev in
        voices_loop fuel' chs base order idx' done' s'
    end
  else Ok s.

Definition is_nil {A} (l : list A) : bool := match l with [] => true | _ => false end.

(** src/midi/mod.rs:330-599 [channels_to_voices]. *)
Definition channels_to_voices (chs : list (list tmsg)) (base : list nat) (order : nat -> notes -> notes)
  : outcome (list (list tmsg)) :=
  let* s := voices_loop (S (list_sum (map (@length _) chs))) chs base order
              (repeat O (length chs)) (length (filter is_nil chs)) (vstate0 base) in
  Ok (v_voices s).

(** src/midi/mod.rs:97-104 [struct MidiHandler], the fields read afterwards. *)
Record handler := mk_handler {
  h_voices : list (list tmsg); h_ticks_per_beat : Z; h_max_time : Z
}.

(** src/midi/mod.rs:144-215 [MidiHandler::read] on a new handler. [cbs] and [complete] are the reader's
    callbacks and whether it ended without error. *)
Definition midi_read (b : build) (cbs : list callback) (complete : bool) (order : nat -> notes -> notes)
  : outcome handler :=
  let* r := ofold on_callback cbs (mk_rstate [] 0) in
  if complete then
    let* chs := tracks_to_channels b (r_tracks r) in
    let* iv := all_intervals b chs 0 0 in
    match find_base_voices (fst iv) (repeat [] 8) with
    | None => Err ECouldntFit
    | Some base =>
        let* vs := channels_to_voices chs base order in
        Ok (mk_handler vs (r_tpb r) (snd iv))
    end
  else Err EMidiRead.

(** Track.v: model of src/nspc/track.rs and of the instrument table of src/nspc/instruments.rs. *)
From Verif Require Import Base F32 Messages Command.

(** src/nspc/instruments.rs:1-48: instrument numbers. *)
Definition RAIN := 1.  Definition TIMPANI := 2.  Definition SQUARE_WAVE := 3.
Definition SAW_WAVE := 4.  Definition SINE_WAVE := 5.  Definition DOUBLE_SAW_WAVE_1 := 6.
Definition DOUBLE_SAW_WAVE_2 := 7.  Definition TWEET := 8.  Definition STRINGS := 9.
Definition TROMBONE := 11.  Definition CYMBAL := 12.  Definition OCARINA := 13.
Definition CHIME := 14.  Definition HARP := 15.  Definition SPLASH := 16.
Definition TRUMPET := 17.  Definition HORN := 18.  Definition SNARE := 19.
Definition CHOIR := 21.  Definition FLUTE := 22.  Definition OOF := 23.  Definition PIANO := 24.

(** src/nspc/instruments.rs:50-179 [INSTRUMENT_MAP: [u8; 128]], eight entries per line. *)
Definition INSTRUMENT_MAP : list Z := [
  PIANO; PIANO; PIANO; PIANO; PIANO; PIANO; PIANO; PIANO;                         (*   0 *)
  CHIME; CHIME; CHIME; CHIME; CHIME; CHIME; CHIME; CHIME;                         (*   8 *)
  CHOIR; CHOIR; CHOIR; CHOIR; CHOIR; STRINGS; OCARINA; OOF;                       (*  16 *)
  PIANO; PIANO; PIANO; PIANO; PIANO; PIANO; PIANO; PIANO;                         (*  24 *)
  PIANO; PIANO; PIANO; PIANO; PIANO; PIANO; PIANO; PIANO;                         (*  32 *)
  STRINGS; STRINGS; STRINGS; STRINGS; STRINGS; STRINGS; HARP; TIMPANI;            (*  40 *)
  STRINGS; STRINGS; STRINGS; STRINGS; CHOIR; CHOIR; CHOIR; STRINGS;               (*  48 *)
  TRUMPET; TROMBONE; HORN; TRUMPET; HORN; HORN; HORN; HORN;                       (*  56 *)
  TRUMPET; TRUMPET; TROMBONE; TROMBONE; HORN; HORN; HORN; FLUTE;                  (*  64 *)
  FLUTE; FLUTE; OCARINA; OCARINA; OCARINA; OCARINA; TWEET; OCARINA;               (*  72 *)
  SQUARE_WAVE; SAW_WAVE; OCARINA; DOUBLE_SAW_WAVE_1;
  DOUBLE_SAW_WAVE_1; DOUBLE_SAW_WAVE_1; DOUBLE_SAW_WAVE_2; DOUBLE_SAW_WAVE_2;     (*  80 *)
  SINE_WAVE; SINE_WAVE; SINE_WAVE; CHOIR; SINE_WAVE; SINE_WAVE; SINE_WAVE; SINE_WAVE; (* 88 *)
  RAIN; RAIN; RAIN; RAIN; RAIN; RAIN; RAIN; RAIN;                                 (*  96 *)
  PIANO; PIANO; PIANO; PIANO; PIANO; HORN; STRINGS; HORN;                         (* 104 *)
  CHIME; CHIME; TIMPANI; SNARE; TIMPANI; TIMPANI; TIMPANI; CYMBAL;                (* 112 *)
  OOF; OOF; SPLASH; TWEET; CHIME; OOF; RAIN; OOF ].                               (* 120 *)

(** src/nspc/track.rs:9-12 [struct Track]: its command list. *)
Definition track := list pcmd.

(** src/nspc/track.rs:14-19 [struct Duration]. *)
Record duration_rec := mk_duration {
  d_length : Z;          (* u8 *)
  quantized_ticks : Z;   (* u32 *)
  overflow_count : Z     (* u8 *)
}.

(** src/nspc/track.rs:23-29: the quantised length in 1/24 beats, a u32. *)
Definition quantized_length (ticks ticks_per_beat : Z) (ceil : bool) : Z :=
  let length_beats := f32_div (f32_of_Z ticks) (f32_of_Z ticks_per_beat) in
  let len := f32_mul length_beats (f32_of_Z 24) in
  f32_as_uint 32 (if ceil then f32_ceil len else f32_floor len).

(** src/nspc/track.rs:31-53: splitting a quantised length into 0x7f pieces. *)
Definition split_length (qlen qticks : Z) : duration_rec :=
  if 0x7f <? qlen then
    let overflow_amount := qlen mod 0x7f in
    let ocount := qlen / 0x7f in
    if overflow_amount =? 0
    then mk_duration 0x7f qticks (as_u 8 (ocount - 1))
    else mk_duration (as_u 8 overflow_amount) qticks (as_u 8 ocount)
  else mk_duration (as_u 8 qlen) qticks 0.

(** src/nspc/track.rs:22-54 [Track::get_duration]. *)
Definition get_duration (b : build) (ticks ticks_per_beat : Z) (ceil : bool)
  : outcome duration_rec :=
  let qlen := quantized_length ticks ticks_per_beat ceil in
  let* prod := arith b 32 (qlen * ticks_per_beat) in
  Ok (split_length qlen (prod / 24)).

Definition rest_cmd (d : Z) : pcmd := mk_pcmd (Some d) None None Rest.
Definition tie_cmd (d : Z) : pcmd := mk_pcmd (Some d) None None Tie.
Definition plain_cmd (c : command) : pcmd := mk_pcmd None None None c.

(** src/nspc/track.rs:56-84 [Track::insert_rest]: new command list and new [last_note_end]. *)
Definition insert_rest (b : build) (commands : list pcmd) (last_note_end abs_time ticks_per_beat : Z)
  : outcome (list pcmd * Z) :=
  if last_note_end <? abs_time then
    let* d := get_duration b (abs_time - last_note_end) ticks_per_beat false in
    let c1 := commands ++ repeat (rest_cmd 0x7f) (Z.to_nat (overflow_count d)) in
    let c2 := if 0 <? d_length d then c1 ++ [rest_cmd (d_length d)] else c1 in
    let* e := arith b 32 (last_note_end + quantized_ticks d) in
    Ok (c2, e)
  else Ok (commands, last_note_end).

(** Local variables of [Track::new], src/nspc/track.rs:93-98. *)
Record tstate := mk_tstate {
  commands : list pcmd;
  note_start : option Z;
  note_velocity : Z;
  last_note_end : Z;
  portamento : bool;
  port_time : Z
}.
Definition tstate0 : tstate := mk_tstate [] None 0 0 false 0.

Definition set_commands (s : tstate) (c : list pcmd) : tstate :=
  mk_tstate c (note_start s) (note_velocity s) (last_note_end s) (portamento s) (port_time s).

(** src/nspc/track.rs:106-110 and 115: tempo byte of a set-tempo event. *)
Definition tempo_byte (usec_per_beat : Z) (tempo_factor : f32) : Z :=
  let bpm := f32_ceil (f32_div (f32_of_Z 60000000) (f32_of_Z usec_per_beat)) in
  f32_as_uint 8 (f32_mul bpm tempo_factor).

(** src/nspc/track.rs:107-109: [data[0] * 0x10000 + data[1] * 0x100 + data[2]] (fits in u32). *)
Definition usec_of_data (data : list Z) : outcome Z :=
  let* d0 := or_panic PIndex (nth_error data 0) in
  let* d1 := or_panic PIndex (nth_error data 1) in
  let* d2 := or_panic PIndex (nth_error data 2) in
  Ok (d0 * 0x10000 + d1 * 0x100 + d2).

(** src/nspc/track.rs:101-118, the [MetaEvent] arm. *)
Definition on_meta (s : tstate) (event : meta_event) (data : list Z) (tempo_factor : f32)
  : outcome tstate :=
  match event with
  | SetTempo =>
      let* usec := usec_of_data data in
      Ok (set_commands s (commands s ++ [plain_cmd (Tempo (tempo_byte usec tempo_factor))]))
  | OtherMeta _ => Ok s
  end.

(** src/nspc/track.rs:140-151: the ties following a long note ([i] counts up to [n]). *)
Definition overflow_ties (n : Z) (len : Z) : list pcmd :=
  if 0 <? n then repeat (tie_cmd 0x7f) (Z.to_nat (n - 1)) ++ [tie_cmd len] else [].

(** src/nspc/track.rs:121-155, the [NoteOff] arm. *)
Definition on_note_off (b : build) (s : tstate) (note abs_time ticks_per_beat : Z)
  : outcome tstate :=
  match note_start s with
  | Some start =>
      let* ticks := arith b 32 (abs_time - start) in
      let* d := get_duration b ticks ticks_per_beat true in
      let push_as_tie := match last_opt (commands s) with Some c => is_slide c | None => false end in
      let* c := if push_as_tie then Ok Tie
                else let* p := arith b 8 (note + 0x68) in Ok (Note p) in
      let head := mk_pcmd (Some (if 0 <? overflow_count d then 0x7f else d_length d))
                          (Some (note_velocity s / 8)) (Some 7) c in
      let* e := arith b 32 (start + quantized_ticks d) in
      Ok (mk_tstate (commands s ++ head :: overflow_ties (overflow_count d) (d_length d))
            None (note_velocity s) e (portamento s) (port_time s))
  | None => Ok s
  end.

(** src/nspc/track.rs:163-180: the optional pitch slide. The argument [note + 0x68] and the slide
    time are evaluated whenever the command list is non-empty. *)
Definition push_slide (b : build) (s : tstate) (cmds : list pcmd) (note ticks_per_beat : Z)
  : outcome (list pcmd) :=
  if portamento s then
    match last_opt cmds with
    | None => Ok cmds
    | Some last_command =>
        let* d := get_duration b (port_time s) ticks_per_beat true in
        let* target := arith b 8 (note + 0x68) in
        match create_pitch_slide last_command (d_length d) target with
        | Some slide => Ok (cmds ++ [slide])
        | None => Ok cmds
        end
    end
  else Ok cmds.

(** src/nspc/track.rs:156-186, the [NoteOn] arm. *)
Definition on_note_on (b : build) (s : tstate) (note vel abs_time ticks_per_beat : Z)
  : outcome tstate :=
  let* r := insert_rest b (commands s) (last_note_end s) abs_time ticks_per_beat in
  let '(c1, e) := r in
  let* c2 := push_slide b s c1 note ticks_per_beat in
  match note_start s with
  | Some _ => Err EMoreThanOneVoice
  | None => Ok (mk_tstate c2 (Some e) vel e (portamento s) (port_time s))
  end.

(** src/nspc/track.rs:190-216, the [ControlChange] arm. [port_time] is a u16. *)
Definition on_control_change (b : build) (s : tstate) (control data : Z) : outcome tstate :=
  if control =? 5 then
    Ok (mk_tstate (commands s) (note_start s) (note_velocity s) (last_note_end s) (portamento s)
          (Z.lor (as_u 16 (Z.shiftl data 8)) (Z.land (port_time s) 0xFF)))
  else if control =? 7 then
    let* v := arith b 8 (data * 2) in
    Ok (set_commands s (commands s ++ [plain_cmd (ChannelVolume v)]))
  else if control =? 37 then
    Ok (mk_tstate (commands s) (note_start s) (note_velocity s) (last_note_end s) (portamento s)
          (Z.lor (Z.land (port_time s) 0xFF00) data))
  else if control =? 65 then
    Ok (mk_tstate (commands s) (note_start s) (note_velocity s) (last_note_end s) (64 <=? data)
          (port_time s))
  else Ok s.

(** src/nspc/track.rs:217-231, the [ProgramChange] arm. *)
Definition on_program_change (b : build) (s : tstate) (ch program abs_time ticks_per_beat : Z)
  : outcome tstate :=
  let* r := insert_rest b (commands s) (last_note_end s) abs_time ticks_per_beat in
  let '(c1, e) := r in
  let* instrument :=
    if ch =? 9 then Ok program
    else or_panic PIndex (nth_error INSTRUMENT_MAP (Z.to_nat program)) in
  Ok (mk_tstate (c1 ++ [plain_cmd (SetInstrument instrument)])
        (note_start s) (note_velocity s) e (portamento s) (port_time s)).

(** src/nspc/track.rs:99-246: one iteration of the event loop. *)
Definition track_step (b : build) (ticks_per_beat : Z) (tempo_factor : f32) (s : tstate) (ev : tmsg)
  : outcome tstate :=
  let '(m, abs_time) := ev in
  match m with
  | MetaEvent _ event data => on_meta s event data tempo_factor
  | MidiEvent _ event =>
      match event with
      | NoteOff _ note _ => on_note_off b s note abs_time ticks_per_beat
      | NoteOn _ note vel => on_note_on b s note vel abs_time ticks_per_beat
      | PolyphonicKeyPressure _ _ _ => Ok s
      | ControlChange _ control data => on_control_change b s control data
      | ProgramChange ch program => on_program_change b s ch program abs_time ticks_per_beat
      | ChannelPressure _ _ => Ok s
      | PitchBendChange _ _ => Ok s
      | UnknownEvent _ => Ok s
      end
  | SysExEvent _ _ _ => Ok s
  | TrackChange => Ok s
  end.

(** src/nspc/track.rs:252-265: folding rests into the preceding notes. The loop overwrites
    [commands[i]] and copies it out; a folded rest is skipped. *)
Fixpoint sustain_pass (l : list pcmd) : outcome (list pcmd) :=
  match l with
  | [] => Ok []
  | c :: l' =>
      match l' with
      | [] => Ok [c]
      | next :: l'' =>
          let* r := set_sustain c next in
          let '(skip, c') := r in
          let* rest := if skip then sustain_pass l'' else sustain_pass l' in
          Ok (c' :: rest)
      end
  end.

(** src/nspc/track.rs:86-270 [Track::new]. The argument [voice] is only used in the error text. *)
Definition track_new (b : build) (events : list tmsg) (ticks_per_beat max_time : Z) (tempo_factor : f32)
  : outcome track :=
  let* s := ofold (track_step b ticks_per_beat tempo_factor) events tstate0 in
  match commands s with
  | [] => Ok []
  | _ =>
      let* r := if last_note_end s <? max_time
                then insert_rest b (commands s) (last_note_end s) max_time ticks_per_beat
                else Ok (commands s, last_note_end s) in
      sustain_pass (fst r)
  end.

(** src/nspc/track.rs:272-285 [Track::write]: running duration starts at 0xff, velocity unset. *)
Fixpoint track_write_from (l : list pcmd) (out : list Z) (dur : Z) (vs : option Z)
  (loops : list call_loop_ref) : list Z * list call_loop_ref :=
  match l with
  | [] => (out, loops)
  | pc :: l' =>
      let '(out', dur', vs', loops') := pcmd_write pc out dur vs loops in
      track_write_from l' out' dur' vs' loops'
  end.
Definition track_write (t : track) (out : list Z) (loops : list call_loop_ref)
  : list Z * list call_loop_ref :=
  track_write_from t out 0xff None loops.

(** Command.v: model of src/nspc/command.rs (non-test part, lines 93-424). *)
From Verif Require Import Base.

(** src/nspc/command.rs:93-125 [enum Command]. Bytes are [Z]; [CallLoop]'s first field is a usize. *)
Inductive command :=
| Note (p : Z)
| Rest
| Tie
| SetInstrument (p1 : Z)
| Pan (p1 : Z)
| PanFade (p1 p2 : Z)
| Vibrato (p1 p2 p3 : Z)
| VibratoOff
| MasterVolume (p1 : Z)
| MasterVolumeFade (p1 p2 : Z)
| Tempo (p1 : Z)
| TempoFade (p1 p2 : Z)
| GlobalTranspose (p1 : Z)
| ChannelTranspose (p1 : Z)
| Tremolo (p1 p2 p3 : Z)
| TremoloOff
| ChannelVolume (p1 : Z)
| ChannelVolumeFade (p1 : Z)
| CallLoop (target : nat) (count : Z)
| VibratoFade (p1 : Z)
| PitchEnvelopeTo (p1 p2 p3 : Z)
| PitchEnvelopeFrom (p1 p2 p3 : Z)
| PitchEnvelopeOff
| Tuning (p1 : Z)
| EchoVolume (p1 p2 p3 : Z)
| EchoOff
| EchoParams (p1 p2 p3 : Z)
| EchoVolumeFade (p1 p2 p3 : Z)
| PitchSlide (p1 p2 p3 : Z)
| PercussionPatchBase (p1 : Z).

(** src/nspc/mod.rs:29-33 [struct CallLoopRef]. [ref_pos] is a byte position in the output. *)
Record call_loop_ref := mk_ref { target_track : nat; ref_pos : nat }.

(** src/nspc/command.rs:127-275 [Command::write]. The Rust code writes to a
    [Cursor<Vec<u8>>] that is only ever appended to (created empty at src/rom/mod.rs:277-281),
    so the cursor is the list of bytes written so far and [out.position()] is its length.
    Writing to a [Vec]-backed cursor never fails, so the [Result] is dropped. *)
Definition command_write (c : command) (out : list Z) (loops : list call_loop_ref)
  : list Z * list call_loop_ref :=
  match c with
  | Note note => (out ++ [note], loops)
  | Tie => (out ++ [0xc8], loops)
  | Rest => (out ++ [0xc9], loops)
  | SetInstrument p1 => (out ++ [0xe0; p1], loops)
  | Pan p1 => (out ++ [0xe1; p1], loops)
  | PanFade p1 p2 => (out ++ [0xe2; p1; p2], loops)
  | Vibrato p1 p2 p3 => (out ++ [0xe3; p1; p2; p3], loops)
  | VibratoOff => (out ++ [0xe4], loops)
  | MasterVolume p1 => (out ++ [0xe5; p1], loops)
  | MasterVolumeFade p1 p2 => (out ++ [0xe6; p1; p2], loops)
  | Tempo p1 => (out ++ [0xe7; p1], loops)
  | TempoFade p1 p2 => (out ++ [0xe8; p1; p2], loops)
  | GlobalTranspose p1 => (out ++ [0xe9; p1], loops)
  | ChannelTranspose p1 => (out ++ [0xea; p1], loops)
  | Tremolo p1 p2 p3 => (out ++ [0xeb; p1; p2; p3], loops)
  | TremoloOff => (out ++ [0xec], loops)
  | ChannelVolume p1 => (out ++ [0xed; p1], loops)
  | ChannelVolumeFade p1 => (out ++ [0xee; p1], loops)
  | CallLoop p1 p2 =>
      (out ++ [0xef] ++ [0x00; 0xd0; p2], loops ++ [mk_ref p1 (length (out ++ [0xef]))])
  | VibratoFade p1 => (out ++ [0xf0; p1], loops)
  | PitchEnvelopeTo p1 p2 p3 => (out ++ [0xf1; p1; p2; p3], loops)
  | PitchEnvelopeFrom p1 p2 p3 => (out ++ [0xf2; p1; p2; p3], loops)
  | PitchEnvelopeOff => (out ++ [0xf3], loops)
  | Tuning p1 => (out ++ [0xf4; p1], loops)
  | EchoVolume p1 p2 p3 => (out ++ [0xf5; p1; p2; p3], loops)
  | EchoOff => (out ++ [0xf6], loops)
  | EchoParams p1 p2 p3 => (out ++ [0xf7; p1; p2; p3], loops)
  | EchoVolumeFade p1 p2 p3 => (out ++ [0xf8; p1; p2; p3], loops)
  | PitchSlide p1 p2 p3 => (out ++ [0xf9; p1; p2; p3], loops)
  | PercussionPatchBase p1 => (out ++ [0xfa; p1], loops)
  end.

(** src/nspc/command.rs:277-283 [struct ParameterizedCommand], 286-298 [new] = [mk_pcmd]. *)
Record pcmd := mk_pcmd {
  duration : option Z;
  velocity : option Z;
  sustain : option Z;
  cmd : command
}.

Definition is_note (c : command) : bool := match c with Note _ => true | _ => false end.

(** src/nspc/command.rs:319-332: the velocity/sustain byte requested by a command, given the previous
    one. [sustain << 4] on u8 discards the bits shifted out. *)
Definition requested_vs (pc : pcmd) (prev_vs : option Z) : option Z :=
  if is_some (velocity pc) || is_some (sustain pc) then
    let v0 := oelse prev_vs 0x7d in
    let '(v1, nz1) :=
      match velocity pc with
      | Some v => if 0 <? v then (Z.lor (Z.land v0 0x70) v, true) else (v0, false)
      | None => (v0, false)
      end in
    let '(v2, nz2) :=
      match sustain pc with
      | Some s => if 0 <? s then (Z.lor (Z.land v1 0x0F) (as_u 8 (Z.shiftl s 4)), true) else (v1, nz1)
      | None => (v1, nz1)
      end in
    if nz2 then Some v2 else None
  else None.

(** src/nspc/command.rs:300-361 [ParameterizedCommand::write]. Returns the new output, the new
    running duration, the new running velocity/sustain byte and the new loop references. *)
Definition pcmd_write (pc : pcmd) (out : list Z) (prev_dur : Z) (prev_vs : option Z)
  (loops : list call_loop_ref) : list Z * Z * option Z * list call_loop_ref :=
  let '(dur_out, dur_w) :=
    match duration pc with
    | Some d =>
        if negb (d =? prev_dur) then (d, if 0 <? d then Some d else None)
        else (prev_dur, None)
    | None => (prev_dur, None)
    end in
  let '(vs_out, vs_w) :=
    match requested_vs pc prev_vs with
    | Some vs =>
        match prev_vs with
        | Some pv => if negb (pv =? vs) then (Some vs, Some vs) else (prev_vs, None)
        | None => (Some vs, Some vs)
        end
    | None =>
        match prev_vs with
        | None => if is_note (cmd pc) then (Some 0x7d, Some 0x7d) else (prev_vs, None)
        | Some _ => (prev_vs, None)
        end
    end in
  let out1 :=
    match dur_w with
    | Some d => out ++ [d]
    | None => if is_some vs_w then out ++ [prev_dur] else out
    end in
  let out2 := match vs_w with Some vs => out1 ++ [vs] | None => out1 end in
  let '(out3, loops') := command_write (cmd pc) out2 loops in
  (out3, dur_out, vs_out, loops').

(** src/nspc/command.rs:363-369. *)
Definition call_loop_eligible (pc : pcmd) : bool :=
  match cmd pc with
  | CallLoop _ _ => false
  | PitchSlide _ _ _ => false
  | _ => true
  end.

(** src/nspc/command.rs:371-386 [set_sustain]: the flag and the updated command. The u16
    products cannot overflow (operands are at most 255). *)
Definition set_sustain (pc next : pcmd) : outcome (bool * pcmd) :=
  match cmd pc with
  | Note _ =>
      match cmd next with
      | Rest =>
          let* note_duration := or_panic PUnwrap (duration pc) in
          let* rest_duration := or_panic PUnwrap (duration next) in
          let total_duration := note_duration + rest_duration in
          if total_duration =? 0 then Panic PDivZero
          else if ((note_duration * 8) mod total_duration =? 0)
                  || (rest_duration * 16 <? note_duration) then
            let s := as_u 8 ((note_duration * 8) / total_duration) in
            Ok (true, mk_pcmd (Some (as_u 8 total_duration)) (velocity pc) (Some (Z.min s 7)) (cmd pc))
          else Ok (false, pc)
      | _ => Ok (false, pc)
      end
  | _ => Ok (false, pc)
  end.

(** src/nspc/command.rs:388-402 [create_pitch_slide]. *)
Definition create_pitch_slide (pc : pcmd) (slide_time target_note : Z) : option pcmd :=
  match cmd pc with
  | Rest => None
  | _ =>
      match duration pc with
      | Some d =>
          Some (mk_pcmd None None None
                  (PitchSlide (d - Z.min slide_time d) slide_time target_note))
      | None => None
      end
  end.

(** src/nspc/command.rs:404-409. *)
Definition is_slide (pc : pcmd) : bool :=
  match cmd pc with PitchSlide _ _ _ => true | _ => false end.

(** src/nspc/command.rs:411-416. *)
Definition can_be_first_in_call_loop (pc : pcmd) : bool :=
  match cmd pc with Tie => false | _ => true end.

(** src/nspc/command.rs:418-423. *)
Definition can_be_last_in_call_loop (pc : pcmd) : bool :=
  match cmd pc with PitchSlide _ _ _ => false | _ => true end.

(** Derived [PartialEq] (src/nspc/command.rs:93 and 277): structural equality. *)
Definition command_eq_dec (a b : command) : {a = b} + {a <> b}.
Proof. decide equality; first [apply Z.eq_dec | apply Nat.eq_dec]. Defined.
Definition pcmd_eq_dec (a b : pcmd) : {a = b} + {a <> b}.
Proof.
  decide equality; first [apply command_eq_dec | decide equality; apply Z.eq_dec].
Defined.
Definition pcmd_eqb (a b : pcmd) : bool := if pcmd_eq_dec a b then true else false.

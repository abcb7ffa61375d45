(** SpecNspc.v: an independent description of the N-SPC byte format (not taken from /repo): how the
    sound driver reads a track. Used only to state theorems.

    A track is a byte stream of
      00            end of track (or return from a loop)
      01..7F        duration in ticks, optionally followed by one byte below 80: the quantisation
                    (gate) nibble and the velocity nibble
      80..C7        note        C8 tie        C9 rest        CA..DF percussion
      E0..FA        control command with a fixed number of parameter bytes
    Bytes FB..FF are not commands. *)
From Verif Require Import Base Command.

Definition param_counts : list nat :=
  (* E0 *) [1; 1; 2; 3; 0; 1; 2; 1; 2; 1; 1; 3; 0; 1; 2; 3;
  (* F0 *)  1; 3; 3; 0; 1; 3; 0; 3; 3; 3; 1]%nat.

Inductive token :=
| TEnd
| TDuration (d : Z) (vs : option Z)
| TNote (n : Z)
| TTie
| TRest
| TPercussion (n : Z)
| TControl (op : Z) (params : list Z).

(** Read one token; [None] when the bytes are not a legal token. *)
Definition decode_token (bytes : list Z) : option (token * list Z) :=
  match bytes with
  | [] => None
  | b :: r =>
      if b =? 0 then Some (TEnd, r)
      else if b <? 0x80 then
        match r with
        | v :: r' => if v <? 0x80 then Some (TDuration b (Some v), r') else Some (TDuration b None, r)
        | [] => Some (TDuration b None, [])
        end
      else if b <? 0xc8 then Some (TNote b, r)
      else if b =? 0xc8 then Some (TTie, r)
      else if b =? 0xc9 then Some (TRest, r)
      else if b <? 0xe0 then Some (TPercussion b, r)
      else match nth_error param_counts (Z.to_nat (b - 0xe0)) with
           | Some n => if Nat.leb n (length r) then Some (TControl b (firstn n r), skipn n r) else None
           | None => None
           end
  end.

(** What each command of the program means in the driver's vocabulary. Loop addresses are not known
    when a track is written; the operand holds the placeholder D000 (low byte first). *)
Definition token_of (c : command) : token :=
  match c with
  | Note n => TNote n
  | Rest => TRest
  | Tie => TTie
  | SetInstrument p => TControl 0xe0 [p]
  | Pan p => TControl 0xe1 [p]
  | PanFade p q => TControl 0xe2 [p; q]
  | Vibrato p q r => TControl 0xe3 [p; q; r]
  | VibratoOff => TControl 0xe4 []
  | MasterVolume p => TControl 0xe5 [p]
  | MasterVolumeFade p q => TControl 0xe6 [p; q]
  | Tempo p => TControl 0xe7 [p]
  | TempoFade p q => TControl 0xe8 [p; q]
  | GlobalTranspose p => TControl 0xe9 [p]
  | ChannelTranspose p => TControl 0xea [p]
  | Tremolo p q r => TControl 0xeb [p; q; r]
  | TremoloOff => TControl 0xec []
  | ChannelVolume p => TControl 0xed [p]
  | ChannelVolumeFade p => TControl 0xee [p]
  | CallLoop _ n => TControl 0xef [0x00; 0xd0; n]
  | VibratoFade p => TControl 0xf0 [p]
  | PitchEnvelopeTo p q r => TControl 0xf1 [p; q; r]
  | PitchEnvelopeFrom p q r => TControl 0xf2 [p; q; r]
  | PitchEnvelopeOff => TControl 0xf3 []
  | Tuning p => TControl 0xf4 [p]
  | EchoVolume p q r => TControl 0xf5 [p; q; r]
  | EchoOff => TControl 0xf6 []
  | EchoParams p q r => TControl 0xf7 [p; q; r]
  | EchoVolumeFade p q r => TControl 0xf8 [p; q; r]
  | PitchSlide p q r => TControl 0xf9 [p; q; r]
  | PercussionPatchBase p => TControl 0xfa [p]
  end.

(** All parameters are bytes. *)
Definition bytes_ok (c : command) : Prop :=
  match token_of c with
  | TNote n => u8 n
  | TControl _ ps => Forall u8 ps
  | _ => True
  end.

(** Commands the driver understands as intended: a note byte in range; the two-parameter
    channel volume fade (EE) is written with one parameter only, so never. *)
Definition driver_ok (c : command) : Prop :=
  match c with
  | Note n => 0x80 <= n <= 0xc7
  | ChannelVolumeFade _ => False
  | _ => True
  end.

(** ** Playing one stream.
    The driver keeps a running duration and a running quantisation/velocity byte. An event is a token
    with the running values in force when it is executed. *)
Record event := mk_event { ev_token : token; ev_dur : option Z; ev_vs : option Z }.

(** Decode tokens up to the end marker; returns the events and the bytes after the marker. *)
Fixpoint play (fuel : nat) (bytes : list Z) (dur vs : option Z) : option (list event * list Z) :=
  match fuel with
  | O => None
  | S fuel' =>
      match decode_token bytes with
      | None => None
      | Some (TEnd, r) => Some ([], r)
      | Some (TDuration d None, r) => play fuel' r (Some d) vs
      | Some (TDuration d (Some v), r) => play fuel' r (Some d) (Some v)
      | Some (t, r) =>
          match play fuel' r dur vs with
          | Some (es, r') => Some (mk_event t dur vs :: es, r')
          | None => None
          end
      end
  end.
(** Every token takes at least one byte. *)
Definition play_stream (bytes : list Z) : option (list event * list Z) :=
  play (S (length bytes)) bytes None None.

(** ** What a command list prescribes.
    A command may set the duration (a positive number of ticks; 0 and absent mean "not set"), the
    velocity nibble (1..15) and the quantisation nibble (1..7). The first sounding command, and the
    first command setting either nibble, starts from quantisation 7 and velocity 13. *)
Definition positive (o : option Z) : option Z :=
  match o with Some d => if 0 <? d then Some d else None | None => None end.
Definition or_else (o d : option Z) : option Z := match o with Some _ => o | None => d end.

Definition prescribed_dur (dur : option Z) (pc : pcmd) : option Z := or_else (positive (duration pc)) dur.

(** Running nibbles (quantisation, velocity). *)
Definition prescribed_vs (vs : option (Z * Z)) (pc : pcmd) : option (Z * Z) :=
  match positive (sustain pc), positive (velocity pc), is_note (cmd pc), vs with
  | None, None, false, None => None
  | s, v, _, _ =>
      let '(q0, v0) := oelse vs (7, 13) in Some (oelse s q0, oelse v v0)
  end.
Definition pack (qv : Z * Z) : Z := fst qv * 16 + snd qv.

Fixpoint prescribed (l : list pcmd) (dur : option Z) (vs : option (Z * Z)) : list event :=
  match l with
  | [] => []
  | pc :: l' =>
      let dur' := prescribed_dur dur pc in
      let vs' := prescribed_vs vs pc in
      mk_event (token_of (cmd pc)) dur' (option_map pack vs') :: prescribed l' dur' vs'
  end.

(** ** Well-formed command lists.
    Values are in range, and a command that sounds or sets a nibble does so when a running duration is
    in force: its own, or one set earlier with no "duration 0" command (a loop call) in between. *)
Definition in_range (lo hi : Z) (o : option Z) : Prop :=
  match o with Some x => lo <= x <= hi | None => True end.
Definition needs_dur (pc : pcmd) : Prop :=
  is_note (cmd pc) = true \/ positive (sustain pc) <> None \/ positive (velocity pc) <> None.
Definition pcmd_ok (pc : pcmd) : Prop :=
  bytes_ok (cmd pc) /\ driver_ok (cmd pc) /\ in_range 0 127 (duration pc) /\
  in_range 0 15 (velocity pc) /\ in_range 0 7 (sustain pc).
Fixpoint well_formed_from (running : bool) (l : list pcmd) : Prop :=
  match l with
  | [] => True
  | pc :: l' =>
      let running' := match duration pc with Some d => 0 <? d | None => running end in
      pcmd_ok pc /\ (needs_dur pc -> running' = true) /\ well_formed_from running' l'
  end.
Definition well_formed (l : list pcmd) : Prop := well_formed_from false l.

(** The CallLoop commands of a list, in order: target and repeat count. *)
Definition call_loops_of (l : list pcmd) : list (nat * Z) :=
  flat_map (fun pc => match cmd pc with CallLoop t n => [(t, n)] | _ => [] end) l.

(** The same command, as the driver sees it, when the stream is framed by a song's preamble. *)
Definition control_events (l : list (Z * list Z)) : list event :=
  map (fun x => mk_event (TControl (fst x) (snd x)) None None) l.

(** SpecJson.v: the JSON format of songs, as a relation between JSON values and songs (C44). Used only to state theorems. *)
From Coq Require Import ZArith List String.
From Verif Require Import Base Command Track Song Manifest.
Import ListNotations.
Open Scope string_scope.
Open Scope Z_scope.

(** The object has the key exactly once, with this value; or not at all. *)
Definition once (fs : list (string * json)) (k : string) (v : json) : Prop :=
  exists l1 l2, fs = (l1 ++ (k, v) :: l2)%list /\ ~ In k (map fst (l1 ++ l2)).
Definition absent (fs : list (string * json)) (k : string) : Prop := ~ In k (map fst fs).

(** Bytes, indices, optional bytes (null or left out) and lists. *)
Definition is_byte (v : json) (n : Z) : Prop := v = JNum (JInt n) /\ 0 <= n < 256.
Definition is_index (v : json) (n : nat) : Prop := v = JNum (JInt (Z.of_nat n)) /\ Z.of_nat n < 2 ^ 64.
Definition is_option (v : json) (o : option Z) : Prop :=
  match o with None => v = JNull | Some n => is_byte v n end.
Definition option_key (fs : list (string * json)) (k : string) (o : option Z) : Prop :=
  (absent fs k /\ o = None) \/ exists v, once fs k v /\ is_option v o.
Definition is_list {A} (R : json -> A -> Prop) (v : json) (l : list A) : Prop := exists vs, v = JArr vs /\ Forall2 R vs l.

(** Names and parameters of the commands other than loop calls. *)
Definition spelled (c : command) : option (string * list Z) :=
  match c with
  | Note p => Some ("Note", [p]) | Rest => Some ("Rest", []) | Tie => Some ("Tie", [])
  | SetInstrument p => Some ("SetInstrument", [p])
  | Pan p => Some ("Pan", [p]) | PanFade p q => Some ("PanFade", [p; q])
  | Vibrato p q r => Some ("Vibrato", [p; q; r]) | VibratoOff => Some ("VibratoOff", []) | VibratoFade p => Some ("VibratoFade", [p])
  | MasterVolume p => Some ("MasterVolume", [p]) | MasterVolumeFade p q => Some ("MasterVolumeFade", [p; q])
  | Tempo p => Some ("Tempo", [p]) | TempoFade p q => Some ("TempoFade", [p; q])
  | GlobalTranspose p => Some ("GlobalTranspose", [p]) | ChannelTranspose p => Some ("ChannelTranspose", [p])
  | Tremolo p q r => Some ("Tremolo", [p; q; r]) | TremoloOff => Some ("TremoloOff", [])
  | ChannelVolume p => Some ("ChannelVolume", [p]) | ChannelVolumeFade p => Some ("ChannelVolumeFade", [p])
  | CallLoop _ _ => None
  | PitchEnvelopeTo p q r => Some ("PitchEnvelopeTo", [p; q; r]) | PitchEnvelopeFrom p q r => Some ("PitchEnvelopeFrom", [p; q; r])
  | PitchEnvelopeOff => Some ("PitchEnvelopeOff", [])
  | Tuning p => Some ("Tuning", [p])
  | EchoVolume p q r => Some ("EchoVolume", [p; q; r]) | EchoOff => Some ("EchoOff", [])
  | EchoParams p q r => Some ("EchoParams", [p; q; r]) | EchoVolumeFade p q r => Some ("EchoVolumeFade", [p; q; r])
  | PitchSlide p q r => Some ("PitchSlide", [p; q; r])
  | PercussionPatchBase p => Some ("PercussionPatchBase", [p])
  end.
(** A command without parameters is its name (or an object with its name and null); one with one parameter is an object
    with its name and the number, one with more has an array; a loop call has the track and the number of repeats. *)
Inductive is_command : json -> command -> Prop :=
| ic_name : forall name c, spelled c = Some (name, []) -> is_command (JStr name) c
| ic_null : forall name c, spelled c = Some (name, []) -> is_command (JObj [(name, JNull)]) c
| ic_one : forall name c v p, spelled c = Some (name, [p]) -> is_byte v p -> is_command (JObj [(name, v)]) c
| ic_more : forall name c v p q l, spelled c = Some (name, p :: q :: l) -> is_list is_byte v (p :: q :: l) -> is_command (JObj [(name, v)]) c
| ic_call : forall v w t n, is_index v t -> is_byte w n -> is_command (JObj [("CallLoop", JArr [v; w])]) (CallLoop t n).
(** Structures are objects with the fields' names, or arrays of the fields in order. *)
Inductive is_pcmd : json -> pcmd -> Prop :=
| ip_object : forall fs d ve su v c, option_key fs "duration" d -> option_key fs "velocity" ve -> option_key fs "sustain" su ->
    once fs "command" v -> is_command v c -> is_pcmd (JObj fs) (mk_pcmd d ve su c)
| ip_array : forall v1 v2 v3 v4 d ve su c, is_option v1 d -> is_option v2 ve -> is_option v3 su -> is_command v4 c ->
    is_pcmd (JArr [v1; v2; v3; v4]) (mk_pcmd d ve su c).
Inductive is_track : json -> track -> Prop :=
| it_object : forall fs v l, once fs "commands" v -> is_list is_pcmd v l -> is_track (JObj fs) l
| it_array : forall v l, is_list is_pcmd v l -> is_track (JArr [v]) l.
Inductive is_part : json -> list nat -> Prop :=
| ir_object : forall fs v l, once fs "tracks" v -> is_list is_index v l -> is_part (JObj fs) l
| ir_array : forall v l, is_list is_index v l -> is_part (JArr [v]) l.
Inductive is_song : json -> song -> Prop :=
| is_object : forall fs v w ps ts, once fs "parts" v -> is_list is_part v ps -> once fs "tracks" w -> is_list is_track w ts ->
    is_song (JObj fs) (mk_song ps ts)
| is_array : forall v w ps ts, is_list is_part v ps -> is_list is_track w ts -> is_song (JArr [v; w]) (mk_song ps ts).

(** Json.v: model of the serde-derived serialisation of songs (src/nspc/mod.rs:35-44 and 159-167,
    src/nspc/track.rs:9-12, src/nspc/command.rs:93 and 277), at the level of JSON values. The text
    printer and parser of serde_json are not modelled here. Derived conventions: structs are objects
    (unknown keys ignored, duplicate keys rejected, a missing [Option] field is [None], the array form
    is also accepted); enums are externally tagged. *)
From Coq Require Import String.
From Coq Require Import Floats.SpecFloat.
From Verif Require Import Base Command Track SeqTree Song Manifest.
Open Scope string_scope.
Open Scope Z_scope.

Definition jint (n : Z) : json := JNum (JInt n).
Definition jnat (n : nat) : json := jint (Z.of_nat n).

(** Variant name and parameters; [CallLoop]'s usize is printed as a number. *)
Definition command_fields (c : command) : string * list Z :=
  match c with
  | Note p => ("Note", [p])
  | Rest => ("Rest", [])
  | Tie => ("Tie", [])
  | SetInstrument p => ("SetInstrument", [p])
  | Pan p => ("Pan", [p])
  | PanFade p q => ("PanFade", [p; q])
  | Vibrato p q r => ("Vibrato", [p; q; r])
  | VibratoOff => ("VibratoOff", [])
  | MasterVolume p => ("MasterVolume", [p])
  | MasterVolumeFade p q => ("MasterVolumeFade", [p; q])
  | Tempo p => ("Tempo", [p])
  | TempoFade p q => ("TempoFade", [p; q])
  | GlobalTranspose p => ("GlobalTranspose", [p])
  | ChannelTranspose p => ("ChannelTranspose", [p])
  | Tremolo p q r => ("Tremolo", [p; q; r])
  | TremoloOff => ("TremoloOff", [])
  | ChannelVolume p => ("ChannelVolume", [p])
  | ChannelVolumeFade p => ("ChannelVolumeFade", [p])
  | CallLoop t n => ("CallLoop", [Z.of_nat t; n])
  | VibratoFade p => ("VibratoFade", [p])
  | PitchEnvelopeTo p q r => ("PitchEnvelopeTo", [p; q; r])
  | PitchEnvelopeFrom p q r => ("PitchEnvelopeFrom", [p; q; r])
  | PitchEnvelopeOff => ("PitchEnvelopeOff", [])
  | Tuning p => ("Tuning", [p])
  | EchoVolume p q r => ("EchoVolume", [p; q; r])
  | EchoOff => ("EchoOff", [])
  | EchoParams p q r => ("EchoParams", [p; q; r])
  | EchoVolumeFade p q r => ("EchoVolumeFade", [p; q; r])
  | PitchSlide p q r => ("PitchSlide", [p; q; r])
  | PercussionPatchBase p => ("PercussionPatchBase", [p])
  end.

(** Externally tagged enum: unit variants are strings, newtype variants carry the value, tuple
    variants an array. *)
Definition command_to_json (c : command) : json :=
  let '(name, ps) := command_fields c in
  match ps with
  | [] => JStr name
  | [p] => JObj [(name, jint p)]
  | _ => JObj [(name, JArr (map jint ps))]
  end.

Definition opt_to_json (o : option Z) : json := match o with Some n => jint n | None => JNull end.

Definition pcmd_to_json (c : pcmd) : json :=
  JObj [("duration", opt_to_json (duration c)); ("velocity", opt_to_json (velocity c));
        ("sustain", opt_to_json (sustain c)); ("command", command_to_json (cmd c))].
Definition track_to_json (t : track) : json := JObj [("commands", JArr (map pcmd_to_json t))].
Definition part_to_json (p : list nat) : json := JObj [("tracks", JArr (map jnat p))].
Definition song_to_json (s : song) : json :=
  JObj [("parts", JArr (map part_to_json (parts s))); ("tracks", JArr (map track_to_json (tracks s)))].

(** Deserialisation. [None] is a serde error. *)
Definition de_uint (bits : Z) (v : json) : option Z :=
  match v with
  | JNum (JInt n) => if (0 <=? n) && (n <? 2 ^ bits) then Some n else None
  | _ => None
  end.
Definition de_u8 := de_uint 8.
Definition de_usize (v : json) : option nat := option_map Z.to_nat (de_uint 64 v).

Definition de_opt_u8 (v : json) : option (option Z) :=
  match v with JNull => Some None | _ => option_map Some (de_u8 v) end.

Fixpoint mapM {A B} (f : A -> option B) (l : list A) : option (list B) :=
  match l with
  | [] => Some []
  | x :: l' =>
      match f x, mapM f l' with
      | Some y, Some ys => Some (y :: ys)
      | _, _ => None
      end
  end.

Definition de_vec {A} (f : json -> option A) (v : json) : option (list A) :=
  match v with JArr l => mapM f l | _ => None end.

(** Lookup of a struct field: [None] is a duplicate, [Some None] is absent. *)
Definition field (k : string) (fs : list (string * json)) : option (option json) :=
  match filter (fun p => String.eqb (fst p) k) fs with
  | [] => Some None
  | [(_, v)] => Some (Some v)
  | _ => None
  end.
Definition req {A} (k : string) (f : json -> option A) (fs : list (string * json)) : option A :=
  match field k fs with Some (Some v) => f v | _ => None end.
Definition opt_field (k : string) (fs : list (string * json)) : option (option Z) :=
  match field k fs with
  | Some (Some v) => de_opt_u8 v
  | Some None => Some None
  | None => None
  end.

(** Parameters of a variant applied to a list of bytes. *)
Definition command_of_bytes (name : string) (ps : list Z) : option command :=
  match ps with
  | [] =>
      if name =? "Rest" then Some Rest else if name =? "Tie" then Some Tie
      else if name =? "VibratoOff" then Some VibratoOff else if name =? "TremoloOff" then Some TremoloOff
      else if name =? "PitchEnvelopeOff" then Some PitchEnvelopeOff
      else if name =? "EchoOff" then Some EchoOff else None
  | [p] =>
      if name =? "Note" then Some (Note p) else if name =? "SetInstrument" then Some (SetInstrument p)
      else if name =? "Pan" then Some (Pan p) else if name =? "MasterVolume" then Some (MasterVolume p)
      else if name =? "Tempo" then Some (Tempo p)
      else if name =? "GlobalTranspose" then Some (GlobalTranspose p)
      else if name =? "ChannelTranspose" then Some (ChannelTranspose p)
      else if name =? "ChannelVolume" then Some (ChannelVolume p)
      else if name =? "ChannelVolumeFade" then Some (ChannelVolumeFade p)
      else if name =? "VibratoFade" then Some (VibratoFade p)
      else if name =? "Tuning" then Some (Tuning p)
      else if name =? "PercussionPatchBase" then Some (PercussionPatchBase p) else None
  | [p; q] =>
      if name =? "PanFade" then Some (PanFade p q)
      else if name =? "MasterVolumeFade" then Some (MasterVolumeFade p q)
      else if name =? "TempoFade" then Some (TempoFade p q) else None
  | [p; q; r] =>
      if name =? "Vibrato" then Some (Vibrato p q r) else if name =? "Tremolo" then Some (Tremolo p q r)
      else if name =? "PitchEnvelopeTo" then Some (PitchEnvelopeTo p q r)
      else if name =? "PitchEnvelopeFrom" then Some (PitchEnvelopeFrom p q r)
      else if name =? "EchoVolume" then Some (EchoVolume p q r)
      else if name =? "EchoParams" then Some (EchoParams p q r)
      else if name =? "EchoVolumeFade" then Some (EchoVolumeFade p q r)
      else if name =? "PitchSlide" then Some (PitchSlide p q r) else None
  | _ => None
  end%string.

Definition de_command (v : json) : option command :=
  match v with
  | JStr name => command_of_bytes name []
  | JObj [(name, payload)] =>
      if (name =? "CallLoop")%string then
        match payload with
        | JArr [t; n] =>
            match de_usize t, de_u8 n with Some t, Some n => Some (CallLoop t n) | _, _ => None end
        | _ => None
        end
      else
        match payload with
        | JNull => command_of_bytes name []
        | JNum _ => match de_u8 payload with Some p => command_of_bytes name [p] | None => None end
        | JArr l =>
            if Nat.ltb 1 (length l)
            then match mapM de_u8 l with Some ps => command_of_bytes name ps | None => None end
            else None
        | _ => None
        end
  | _ => None
  end.

Definition de_pcmd (v : json) : option pcmd :=
  match v with
  | JObj fs =>
      match opt_field "duration" fs, opt_field "velocity" fs, opt_field "sustain" fs,
            req "command" de_command fs with
      | Some d, Some ve, Some su, Some c => Some (mk_pcmd d ve su c)
      | _, _, _, _ => None
      end
  | JArr [d; ve; su; c] =>
      match de_opt_u8 d, de_opt_u8 ve, de_opt_u8 su, de_command c with
      | Some d, Some ve, Some su, Some c => Some (mk_pcmd d ve su c)
      | _, _, _, _ => None
      end
  | _ => None
  end.

Definition de_track (v : json) : option track :=
  match v with
  | JObj fs => req "commands" (de_vec de_pcmd) fs
  | JArr [l] => de_vec de_pcmd l
  | _ => None
  end.
Definition de_part (v : json) : option (list nat) :=
  match v with
  | JObj fs => req "tracks" (de_vec de_usize) fs
  | JArr [l] => de_vec de_usize l
  | _ => None
  end.
Definition de_song (v : json) : option song :=
  match v with
  | JObj fs =>
      match req "parts" (de_vec de_part) fs, req "tracks" (de_vec de_track) fs with
      | Some p, Some t => Some (mk_song p t)
      | _, _ => None
      end
  | JArr [p; t] =>
      match de_vec de_part p, de_vec de_track t with
      | Some p, Some t => Some (mk_song p t)
      | _, _ => None
      end
  | _ => None
  end.

(** src/nspc/mod.rs:159-162 [Song::from_json] on a file holding a JSON value ([None]: the file cannot be
    opened or is not JSON). Both results are unwrapped. *)
Definition from_json (file : option json) : outcome song :=
  let* v := or_panic PUnwrap file in or_panic PUnwrap (de_song v).

(** SpecSong.v: independent descriptions for the manifest, command-line and JSON properties. Used only to
    state theorems. *)
From Coq Require Import String Ascii.
From Verif Require Import Base F32 Messages Command Track Song Paths SpecPath Manifest.
Open Scope string_scope.
Open Scope Z_scope.

(** ** The game's song slots, bank by bank. *)
Definition slots : list (string * list string) :=
  [ ("overworld", ["Title"; "World Map"; "Beginning"; "Rabbit"; "Forest"; "Intro"; "Town"; "Warp"; "Dark World";
       "Master Sword"; "File Select"; "Soldier"; "Mountain"; "Shop"; "Fanfare"]);
    ("indoor", ["Castle"; "Palace"; "Cave"; "Clear"; "Church"; "Boss"; "Dungeon"; "Psychic"; "Secret Way"; "Rescue";
       "Crystal"; "Fountain"; "Pyramid"; "Kill Agahnim"; "Ganon Room"; "Last Boss"]);
    ("ending", ["Triforce"; "Ending"; "Staff"]) ].

(** Slot [name] of bank [bank] is filled by [sd] in manifest [m]. *)
Definition slot_is (m : manifest) (bank name : string) (sd : song_def) : Prop :=
  exists i j names bk, nth_error slots i = Some (bank, names) /\ nth_error names j = Some name /\
    nth_error m i = Some bk /\ nth_error (songs bk) j = Some sd.
(** The manifest has exactly the game's slots. *)
Definition all_slots (m : manifest) : Prop :=
  map (fun bk => length (songs bk)) m = map (fun s => length (snd s)) slots.

(** ** Looking into a JSON value. *)
Fixpoint at_path (v : json) (ks : list string) : option json :=
  match ks with
  | [] => Some v
  | k :: ks' =>
      match v with
      | JObj fs => match find (fun p => String.eqb k (fst p)) fs with Some (_, v') => at_path v' ks' | None => None end
      | _ => None
      end
  end.

(** A file name in a manifest, as seen from the manifest's directory: absolute names stand for themselves, others are
    appended to the directory, with a slash between if there is none. *)
Definition resolve (dir s : path) : path :=
  if prefix "/" s then s
  else if String.eqb dir "" || String.eqb (substring (String.length dir - 1) 1 dir) "/" then dir ++ s
  else dir ++ "/" ++ s.

(** What slot [name] of bank [bank] should be, given a manifest file holding [v] in directory [dir]. *)
Record slot_spec (v : json) (dir : path) (bank name : string) (sd : song_def) : Prop := mk_slot_spec {
  ss_input : exists s, at_path v [bank; name; "input"] = Some (JStr s) /\
    input sd = Some (resolve dir s);
  ss_loop : loops sd = match at_path v [bank; name; "loop"] with Some (JBool x) => x | _ => true end;
  ss_tempo : tempo_factor sd =
    match at_path v [bank; name; "tempoAdjust"] with
    | Some (JNum (JInt n)) => f32_of_f64 (f64_of_Z n)
    | Some (JNum (JFloat x)) => f32_of_f64 x
    | _ => DEFAULT_TEMPO_ADJUST
    end
}.

(** ** Hexadecimal numbers. *)
Definition digit_value (c : ascii) : option Z :=
  match find (fun p => Ascii.eqb c (fst p))
    (combine (list_ascii_of_string "0123456789abcdefABCDEF")
       [0; 1; 2; 3; 4; 5; 6; 7; 8; 9; 10; 11; 12; 13; 14; 15; 10; 11; 12; 13; 14; 15]) with
  | Some (_, d) => Some d
  | None => None
  end.
(** [s] is the non-empty digit string whose value is [n]. *)
Inductive hex_digits : string -> Z -> Prop :=
| hd_nil : hex_digits "" 0
| hd_snoc : forall s c n d, hex_digits s n -> digit_value c = Some d -> hex_digits (s ++ String c "") (16 * n + d).
(** A hexadecimal number as the parser of Rust's standard library reads it: an optional plus sign, then
    at least one digit. *)
Definition hex_number (s : string) (n : Z) : Prop :=
  exists t, (s = t \/ s = String "+" t) /\ t <> "" /\ hex_digits t n.

(** ** File names ending in ".mid". *)
Definition mid_file (p : path) : Prop := exists stem, stem <> "" /\ names_file p (stem ++ ".mid").

(** ** Songs that exist in memory: every parameter is a byte and every index a machine word. *)
Definition command_ok (c : command) : Prop :=
  match c with
  | Note p | SetInstrument p | Pan p | MasterVolume p | Tempo p | GlobalTranspose p | ChannelTranspose p | ChannelVolume p
  | ChannelVolumeFade p | VibratoFade p | Tuning p | PercussionPatchBase p => u8 p
  | PanFade p q | MasterVolumeFade p q | TempoFade p q => u8 p /\ u8 q
  | Vibrato p q r | Tremolo p q r | PitchEnvelopeTo p q r | PitchEnvelopeFrom p q r | EchoVolume p q r | EchoParams p q r
  | EchoVolumeFade p q r | PitchSlide p q r => u8 p /\ u8 q /\ u8 r
  | CallLoop t n => Z.of_nat t < 2 ^ 64 /\ u8 n
  | Rest | Tie | VibratoOff | TremoloOff | PitchEnvelopeOff | EchoOff => True
  end.
Definition option_ok (o : option Z) : Prop := match o with Some x => u8 x | None => True end.
Definition song_ok (s : song) : Prop :=
  Forall (Forall (fun i => Z.of_nat i < 2 ^ 64)) (parts s) /\
  Forall (Forall (fun c => option_ok (duration c) /\ option_ok (velocity c) /\ option_ok (sustain c) /\ command_ok (cmd c))) (tracks s).

(** ** The tracks of a song converted from MIDI: those of its voices that are not empty, in order. *)
Definition voice_tracks (b : build) (voices : list (list tmsg)) (tpb max_time : Z) (tf : f32) (trs : list track) : Prop :=
  exists ts, Forall2 (fun ev t => track_new b ev tpb max_time tf = Ok t) voices ts /\
    trs = filter (fun t => match t with [] => false | _ => true end) ts.

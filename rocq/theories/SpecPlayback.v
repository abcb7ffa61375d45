(** SpecPlayback.v: the notes heard when the driver plays, for the end-to-end properties (C52, C53). *)
From Verif Require Import Base Messages Command Track SpecNspc SpecRom SpecAram SpecTime SpecVoice SpecNotes.

(** A note starts at a note command, or at a tie directly after a pitch slide, at the slide's target. *)
Definition slid_to (prev : option token) : option Z :=
  match prev with Some (TControl op [_; _; p]) => if op =? 0xf9 then Some p else None | _ => None end.
Definition attack_of (prev : option token) (t : token) : option Z :=
  match t with TNote p => Some p | TTie => slid_to prev | _ => None end.
(** The notes started by a sequence of events: steps before them, and pitch. Notes, ties and rests take
    time; other commands do not. *)
Fixpoint attacks_from (now : Z) (prev : option token) (es : list event) : list (Z * Z) :=
  match es with
  | [] => []
  | e :: r =>
      match attack_of prev (ev_token e) with Some p => [(now, p)] | None => [] end ++
      attacks_from (now + if sounding (ev_token e) then oelse (ev_dur e) 0 else 0) (Some (ev_token e)) r
  end.
Definition attacks (es : list event) : list (Z * Z) := attacks_from 0 None es.

(** Driver pitch 0x80 is MIDI key 24. *)
Definition driver_pitch (key : Z) : Z := key - 24 + 0x80.
(** [x] is heard where a note of key [key] struck at tick [on] should be ([tol] as in SpecVoice). *)
Definition heard_at (tpb tol : Z) (x : Z * Z) (on key : Z) : Prop :=
  Z.abs (fst x * tpb - 24 * on) < tol /\ snd x = driver_pitch key.

(** Notes of the file that are switched off at some time. *)
Definition ended (n : note) : bool := match nt_off n with Some _ => true | None => false end.

(** ** Playing a song out of ARAM.
    The word at the song's address points to the part table: eight track addresses, zero for a silent
    voice. [ess] is what the eight voices play. *)
Definition voice_plays (mem : Z -> option Z) (w : Z) (es : list event) : Prop :=
  if w =? 0 then es = [] else exists st, run mem true w (None, None) es st.
Definition song_plays (mem : Z -> option Z) (a : Z) (ess : list (list event)) : Prop :=
  exists part, holds mem a part /\ length ess = 8%nat /\
  forall k es, nth_error ess k = Some es -> exists w, holds mem (part + 2 * Z.of_nat k) w /\ voice_plays mem w es.

(** Voices the converter handles: each is well-behaved and its notes are in the driver's range of
    pitches (keys 24 to 95). [n] bounds the number of events of a voice. *)
Definition voices_ok (tpb max_time : Z) (n : nat) (voices : list (list tmsg)) : Prop :=
  Forall (fun v => voice_ok tpb max_time v /\ (length v <= n)%nat /\ forall x, In x (notes_of v) -> 24 <= n_key x <= 95) voices.
(** Every length fits the seven bits of the format. *)
Definition seven_bit (tr : track) : Prop := Forall (fun pc => in_range 0 127 (duration pc)) tr.

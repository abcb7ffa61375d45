(** Manifest.v: model of src/manifest/mod.rs, over serde_json values. *)
From Coq Require Import String.
From Coq Require Import Floats.SpecFloat.
From Verif Require Import Base F32 Paths.
Open Scope string_scope.

(** serde_json::Number: an integer or a finite f64 (as a [SpecFloat] at precision 53). *)
Inductive jnumber := JInt (n : Z) | JFloat (f : spec_float).

(** serde_json::Value. Objects are association lists (keys unique in the real map). *)
Inductive json :=
| JNull
| JBool (b : bool)
| JNum (n : jnumber)
| JStr (s : string)
| JArr (l : list json)
| JObj (fields : list (string * json)).

Fixpoint assoc (k : string) (l : list (string * json)) : option json :=
  match l with
  | [] => None
  | (k', v) :: l' => if String.eqb k k' then Some v else assoc k l'
  end.

(** [value[key]] on a shared [Value]: [Null] when the key is absent or the value is not an object. *)
Definition jindex (v : json) (k : string) : json :=
  match v with JObj fs => oelse (assoc k fs) JNull | _ => JNull end.

Definition as_str (v : json) : option string := match v with JStr s => Some s | _ => None end.
Definition as_bool (v : json) : option bool := match v with JBool b => Some b | _ => None end.

Definition f64_of_Z (n : Z) : spec_float := binary_normalize 53 1024 n 0 false.
(** [x as f32] from f64 and [x as f64] from f32. *)
Definition convert_float (prec emax : Z) (x : spec_float) : spec_float :=
  match x with
  | S754_finite s m e => binary_normalize prec emax (if s then Z.neg m else Z.pos m) e s
  | _ => x
  end.
Definition f32_of_f64 := convert_float 24 128.
Definition f64_of_f32 := convert_float 53 1024.

(** [Value::as_f64]. *)
Definition as_f64 (v : json) : option spec_float :=
  match v with
  | JNum (JInt n) => Some (f64_of_Z n)
  | JNum (JFloat f) => Some f
  | _ => None
  end.

(** src/manifest/mod.rs:7. *)
Definition DEFAULT_TEMPO_ADJUST : f32 := f32_0_2.

(** src/manifest/mod.rs:9-44: slot names per bank. *)
Definition OVERWORLD_SONGS : list string :=
  ["Title"; "World Map"; "Beginning"; "Rabbit"; "Forest"; "Intro"; "Town"; "Warp"; "Dark World";
   "Master Sword"; "File Select"; "Soldier"; "Mountain"; "Shop"; "Fanfare"].
Definition INDOOR_SONGS : list string :=
  ["Castle"; "Palace"; "Cave"; "Clear"; "Church"; "Boss"; "Dungeon"; "Psychic"; "Secret Way"; "Rescue";
   "Crystal"; "Fountain"; "Pyramid"; "Kill Agahnim"; "Ganon Room"; "Last Boss"].
Definition ENDING_SONGS : list string := ["Triforce"; "Ending"; "Staff"].

(** src/manifest/mod.rs:46-51 [struct Song] (a slot of the manifest). *)
Record song_def := mk_song_def { input : option path; tempo_factor : f32; loops : bool }.

(** src/manifest/mod.rs:54-69 [Song::new]. *)
Definition song_def_new (v : json) (base_path : path) : outcome song_def :=
  let* p := or_panic PUnwrap (as_str (jindex v "input")) in
  let p' := if is_absolute p then p else join base_path p in
  Ok (mk_song_def (Some p')
        (f32_of_f64 (oelse (as_f64 (jindex v "tempoAdjust")) (f64_of_f32 DEFAULT_TEMPO_ADJUST)))
        (oelse (as_bool (jindex v "loop")) true)).

(** src/manifest/mod.rs:71-77 [Song::default]. *)
Definition song_def_default (p : path) : song_def := mk_song_def (Some p) DEFAULT_TEMPO_ADJUST true.
(** src/manifest/mod.rs:79-85 [Song::empty]. *)
Definition song_def_empty : song_def := mk_song_def None DEFAULT_TEMPO_ADJUST false.

(** src/manifest/mod.rs:88-92 [struct Bank]. *)
Record bank := mk_bank { bank_name : string; songs : list song_def }.

(** src/manifest/mod.rs:94-104 [Bank::new]. *)
Definition bank_new (v : json) (name : string) (song_names : list string) (base_path : path)
  : outcome bank :=
  let* ss := omap (fun n => song_def_new (jindex v n) base_path) song_names in
  Ok (mk_bank name ss).

(** src/manifest/mod.rs:106-109 [struct Manifest]: its three banks. *)
Definition manifest := list bank.

(** src/manifest/mod.rs:112-123 [Manifest::new], after the file has been parsed; [parent] is the
    manifest's directory. *)
Definition manifest_new (v : json) (parent : path) : outcome manifest :=
  let* b0 := bank_new (jindex v "overworld") "overworld" OVERWORLD_SONGS parent in
  let* b1 := bank_new (jindex v "indoor") "indoor" INDOOR_SONGS parent in
  let* b2 := bank_new (jindex v "ending") "ending" ENDING_SONGS parent in
  Ok [b0; b1; b2].

(** src/manifest/mod.rs:125-179 [Manifest::single_song]. *)
Definition manifest_single_song (p : path) : manifest :=
  [ mk_bank "Overworld" (repeat (song_def_default p) 15);
    mk_bank "Indoor" (repeat (song_def_default p) 16);
    mk_bank "Ending" (repeat (song_def_default p) 3) ].

(** src/manifest/mod.rs:181-231 [Manifest::file_select]. *)
Definition manifest_file_select (p : path) : manifest :=
  [ mk_bank "Overworld"
      (repeat song_def_empty 10 ++ [song_def_default p] ++ repeat song_def_empty 4);
    mk_bank "Indoor" (repeat song_def_empty 16);
    mk_bank "Ending" (repeat song_def_empty 3) ].

(** Schema.v: the published JSON Schema of manifests, src/manifest.schema.json. The keys title, description,
    $schema and $id, which say nothing about validity, are left out. *)
From Coq Require Import String.
From Verif Require Import Base.
Open Scope string_scope.

(** The JSON types named in the file. *)
Inductive jtype := TObject | TString | TNumber | TBoolean.
(** The kinds of schema that occur: a reference, and an object with the keys type, properties, required and
    pattern. A pattern is kept as its text. *)
Inductive schema :=
| SRef (name : string)
| Schema (ty : option jtype) (properties : list (string * schema)) (required : list string) (pattern : option string).

(** src/manifest.schema.json:172-191 [definitions/song]. *)
Definition song_schema : schema :=
  Schema (Some TObject)
    [("input", Schema (Some TString) [] [] (Some ".*\.(mid|json)"));
     ("tempoAdjust", Schema (Some TNumber) [] [] None);
     ("loop", Schema (Some TBoolean) [] [] None)]
    ["input"] None.
(** src/manifest.schema.json:171. *)
Definition definitions : list (string * schema) := [("song", song_schema)].
(** One entry of a bank, e.g. lines 12-15. Draft 7 ignores the keys beside a reference. *)
Definition entry (name : string) : string * schema := (name, SRef "song").
(** src/manifest.schema.json:8-74. *)
Definition overworld_names : list string :=
  ["Title"; "World Map"; "Beginning"; "Rabbit"; "Forest"; "Intro"; "Town"; "Warp"; "Dark World"; "Master Sword"; "File Select";
   "Soldier"; "Mountain"; "Shop"; "Fanfare"].
(** src/manifest.schema.json:75-145. *)
Definition indoor_names : list string :=
  ["Castle"; "Palace"; "Cave"; "Clear"; "Church"; "Boss"; "Dungeon"; "Psychic"; "Secret Way"; "Rescue"; "Crystal"; "Fountain";
   "Pyramid"; "Kill Agahnim"; "Ganon Room"; "Last Boss"].
(** src/manifest.schema.json:146-164. *)
Definition ending_names : list string := ["Triforce"; "Ending"; "Staff"].
(** The schema of a bank: every entry is described and required. *)
Definition bank_schema (names : list string) : schema := Schema (Some TObject) (map entry names) names None.
(** src/manifest.schema.json:1-193: the whole schema. *)
Definition manifest_schema : schema :=
  Schema (Some TObject)
    [("overworld", bank_schema overworld_names); ("indoor", bank_schema indoor_names); ("ending", bank_schema ending_names)]
    ["overworld"; "indoor"; "ending"] None.

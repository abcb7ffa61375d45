(** SpecSchema.v: what it means for a JSON value to satisfy a JSON Schema (draft 7), for the keywords used,
    and what a manifest says about a slot (C63). *)
From Coq Require Import String.
From Verif Require Import Base F32 Paths Manifest Schema SpecSong.
Open Scope string_scope.

Definition has_type (ty : jtype) (v : json) : Prop :=
  match ty, v with
  | TObject, JObj _ => True | TString, JStr _ => True | TNumber, JNum _ => True | TBoolean, JBool _ => True
  | _, _ => False
  end.
(** The pattern in use, [.*\.(mid|json)], is not anchored: it is found in every string that contains ".mid" or
    ".json" somewhere. No string is taken to match any other pattern. *)
Definition contains (s t : string) : Prop := exists a b, s = a ++ t ++ b.
Definition found (pattern s : string) : Prop :=
  pattern = ".*\.(mid|json)" /\ (contains s ".mid" \/ contains s ".json").
(** Every key present is as described, every required key is present; keywords about objects and strings say
    nothing about other values. *)
Inductive valid (defs : list (string * schema)) : schema -> json -> Prop :=
| valid_ref : forall n s v, In (n, s) defs -> valid defs s v -> valid defs (SRef n) v
| valid_schema : forall ty props req pat v,
    (forall t, ty = Some t -> has_type t v) ->
    (forall k s w, In (k, s) props -> at_path v [k] = Some w -> valid defs s w) ->
    (forall k fs, v = JObj fs -> In k req -> at_path v [k] <> None) ->
    (forall p s, pat = Some p -> v = JStr s -> found p s) ->
    valid defs (Schema ty props req pat) v.

(** The slot is exactly what the file says: a setting is taken from the file if it is there, and has its
    default only if it is not. *)
Record slot_given (v : json) (dir : path) (bank name : string) (sd : song_def) : Prop := mk_slot_given {
  sg_input : exists s, at_path v [bank; name; "input"] = Some (JStr s) /\ (contains s ".mid" \/ contains s ".json") /\
    input sd = Some (resolve dir s);
  sg_loop : at_path v [bank; name; "loop"] = Some (JBool (loops sd)) \/ (at_path v [bank; name; "loop"] = None /\ loops sd = true);
  sg_tempo : (exists n, at_path v [bank; name; "tempoAdjust"] = Some (JNum n) /\
      tempo_factor sd = match n with JInt i => f32_of_f64 (f64_of_Z i) | JFloat x => f32_of_f64 x end) \/
    (at_path v [bank; name; "tempoAdjust"] = None /\ tempo_factor sd = DEFAULT_TEMPO_ADJUST)
}.

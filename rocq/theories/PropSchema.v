(** PropSchema.v: property C63 (the published manifest schema). The schema is Schema.v; what it means to
    satisfy it is SpecSchema.v. *)
From Coq Require Import ZArith List String.
From Verif Require Import Base F32 Paths Manifest Schema Midi Json Cli SpecSong SpecSchema SongMore SchemaProofs.
Import ListNotations.
Open Scope string_scope.

(** C63: every manifest that satisfies the schema is read, wherever it lies, and every slot is exactly what the
    file says: no value in the file is ignored or replaced by a default. *)
Theorem C63_schema_read :
  forall v : json, valid definitions manifest_schema v -> forall dir : path, exists m, manifest_new v dir = Ok m /\
  all_slots m /\ forall bank name sd, slot_is m bank name sd -> slot_given v dir bank name sd.
Proof. exact schema_reads. Qed.
Print Assumptions C63_schema_read.
(** One slot has an explicit loop flag. *)
Example C63_case : valid definitions manifest_schema sample_manifest /\
  at_path sample_manifest ["indoor"; "Boss"; "loop"] = Some (JBool false) /\ at_path sample_manifest ["indoor"; "Cave"; "loop"] = None.
Proof. split; [exact sample_valid|]. split; vm_compute; reflexivity. Qed.

(** C63: the schema's pattern is not anchored. A manifest that satisfies it can name a file the build takes for
    JSON because its name does not end in ".mid", and aborts on when it is not. *)
Theorem C63_file_names_refuted :
  exists v m sd p, valid definitions manifest_schema v /\ manifest_new v "/music" = Ok m /\ slot_is m "indoor" "Boss" sd /\
  input sd = Some p /\ contains p ".mid" /\
  forall b w order optimize, json_file w p = None -> exists e, converter b w order optimize p (tempo_factor sd) = Panic e.
Proof. exact backup_crash. Qed.
Print Assumptions C63_file_names_refuted.

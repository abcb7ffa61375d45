(** PropFactor.v: the tempo factors of C41 and C42 as real numbers. Specification: SpecF32.v, SpecSong.v. *)
From Coq Require Import ZArith Reals List String.
From Flocq Require Import Core.Core.
From Verif Require Import Base F32 Paths Manifest SpecF32 SpecSigned SpecSong FactorProofs SignedFactor.
Import ListNotations.
Open Scope Z_scope.

(** C42: the tempo factor of a slot is the number the file gives, rounded to single precision (whole numbers are
    rounded to double precision first); it is 0.2, rounded, if the file gives no number. *)
Theorem C42_tempo_factor :
  forall (v : json) (dir : path) (m : manifest) (bank name : string) (sd : song_def),
  manifest_new v dir = Ok m -> slot_is m bank name sd ->
  (forall n, at_path v [bank; name; "tempoAdjust"%string] = Some (JNum (JInt n)) -> 0 <= n < 2 ^ 64 ->
     nonneg_float (tempo_factor sd) (single_round (double_round (IZR n)))) /\
  (forall x X, at_path v [bank; name; "tempoAdjust"%string] = Some (JNum (JFloat x)) -> nonneg_double x X -> (X <= bpow radix2 127)%R ->
     nonneg_float (tempo_factor sd) (single_round X)) /\
  ((forall n, at_path v [bank; name; "tempoAdjust"%string] <> Some (JNum n)) -> nonneg_float (tempo_factor sd) (single_round (2 / 10))).
Proof. exact manifest_factor. Qed.
Print Assumptions C42_tempo_factor.
Example C42_factor_case : exists m boss title, manifest_new factor_manifest "/music" = Ok m /\
  slot_is m "indoor" "Boss" boss /\ at_path factor_manifest ["indoor"; "Boss"; "tempoAdjust"]%string = Some (JNum (JInt 3)) /\
  slot_is m "overworld" "Title" title /\
  (exists x, at_path factor_manifest ["overworld"; "Title"; "tempoAdjust"]%string = Some (JNum (JFloat x)) /\ nonneg_double x (1 / 2)).
Proof. exact factor_manifest_read. Qed.

(** The same for numbers of any sign and size: what is too large for single precision becomes infinite. *)
Theorem C42_signed_factor :
  forall (v : json) (dir : path) (m : manifest) (bank name : string) (sd : song_def),
  manifest_new v dir = Ok m -> slot_is m bank name sd ->
  (forall n, at_path v [bank; name; "tempoAdjust"%string] = Some (JNum (JInt n)) -> - 2 ^ 63 <= n < 2 ^ 64 ->
     stands_for 24 128 (tempo_factor sd) (n <? 0) (single_round (double_round (IZR n)))) /\
  (forall x s X, at_path v [bank; name; "tempoAdjust"%string] = Some (JNum (JFloat x)) -> stands_for 53 1024 x s X ->
     rounded_single s X (tempo_factor sd)).
Proof. exact manifest_signed. Qed.
Print Assumptions C42_signed_factor.
Example C42_signed_case : exists m boss title, manifest_new signed_manifest "/music" = Ok m /\
  slot_is m "indoor" "Boss" boss /\ at_path signed_manifest ["indoor"; "Boss"; "tempoAdjust"]%string = Some (JNum (JInt (-3))) /\
  slot_is m "overworld" "Title" title /\
  (exists x, at_path signed_manifest ["overworld"; "Title"; "tempoAdjust"]%string = Some (JNum (JFloat x)) /\ stands_for 53 1024 x true (- (1 / 2))).
Proof. exact signed_manifest_read. Qed.

(** C41: the slots of the manifests made for a single file have the factor 0.2, rounded to single precision. *)
Theorem C41_default_factor :
  forall p : path,
  (forall bank name sd, slot_is (manifest_single_song p) bank name sd -> nonneg_float (tempo_factor sd) (single_round (2 / 10))) /\
  (forall bank name sd, slot_is (manifest_file_select p) bank name sd -> nonneg_float (tempo_factor sd) (single_round (2 / 10))).
Proof. exact default_slots. Qed.
Print Assumptions C41_default_factor.

(** SpecF32.v: IEEE single-precision rounding and the value of a float, for stating theorems. *)
From Coq Require Import ZArith Reals.
From Coq Require Import Floats.SpecFloat.
From Flocq Require Import Core.Core.
From Verif Require Import F32.

(** Round to nearest, ties to even, 24 bits of precision, smallest exponent -149. *)
Definition single_round (x : R) : R := round radix2 (FLT_exp (-149) 24) ZnearestE x.

(** [x] is a finite float, not negative, with real value [v]. *)
Definition nonneg_float (x : f32) (v : R) : Prop :=
  (x = S754_zero false /\ v = 0%R) \/
  exists m e, x = S754_finite false m e /\ bounded 24 128 m e = true /\
              v = (IZR (Zpos m) * bpow radix2 e)%R.

(** The same for double precision: 53 bits, smallest exponent -1074. *)
Definition double_round (x : R) : R := round radix2 (FLT_exp (-1074) 53) ZnearestE x.
Definition nonneg_double (x : spec_float) (v : R) : Prop :=
  (x = S754_zero false /\ v = 0%R) \/
  exists m e, x = S754_finite false m e /\ bounded 53 1024 m e = true /\
              v = (IZR (Zpos m) * bpow radix2 e)%R.

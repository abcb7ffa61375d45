(** SpecSigned.v: the value of a float of any sign, for stating theorems. *)
From Coq Require Import ZArith Reals.
From Coq Require Import Floats.SpecFloat.
From Flocq Require Import Core.Core.
From Verif Require Import SpecF32.

(** [x] is a finite float of [prec] bits, of sign [s] (which zero has as well), with real value [v]. *)
Definition signed (s : bool) (v : R) : R := if s then (- v)%R else v.
Definition stands_for (prec emax : Z) (x : spec_float) (s : bool) (v : R) : Prop :=
  (x = S754_zero s /\ v = 0%R) \/
  exists m e, x = S754_finite s m e /\ bounded prec emax m e = true /\ v = signed s (IZR (Zpos m) * bpow radix2 e).
(** [x] is [v], of sign [s], rounded to single precision: infinite if the rounded number is 2^128 or more. *)
Definition rounded_single (s : bool) (v : R) (x : spec_float) : Prop :=
  ((Rabs (single_round v) < bpow radix2 128)%R -> stands_for 24 128 x s (single_round v)) /\
  ((bpow radix2 128 <= Rabs (single_round v))%R -> x = S754_infinity s).

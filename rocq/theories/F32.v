(** F32.v: IEEE-754 single precision, using the standard library's executable
    specification [SpecFloat] (round to nearest, ties to even) at precision 24, emax 128.
    Only the operations used by src/nspc/track.rs and src/manifest/mod.rs. *)
From Coq Require Import ZArith.
From Coq Require Import Floats.SpecFloat.
From Verif Require Import Base.
Open Scope Z_scope.

Definition f32 := spec_float.

(** [n as f32] for an unsigned integer (round to nearest even). *)
Definition f32_of_Z (n : Z) : f32 := binary_normalize 24 128 n 0 false.

Definition f32_div (x y : f32) : f32 := SFdiv 24 128 x y.
Definition f32_mul (x y : f32) : f32 := SFmul 24 128 x y.

(** [x.ceil()] / [x.floor()]. *)
Definition f32_round_int (up : bool) (x : f32) : f32 :=
  match x with
  | S754_finite s m e =>
      if 0 <=? e then x
      else
        let v := if s then Z.neg m else Z.pos m in
        let d := 2 ^ (- e) in
        let q := if up then - ((- v) / d) else v / d in
        binary_normalize 24 128 q 0 s
  | _ => x
  end.
Definition f32_ceil := f32_round_int true.
Definition f32_floor := f32_round_int false.

(** [x as u8], [x as u32]: truncation toward zero, saturating, NaN to 0. *)
Definition f32_as_uint (bits : Z) (x : f32) : Z :=
  match x with
  | S754_nan => 0
  | S754_zero _ => 0
  | S754_infinity s => if s then 0 else 2 ^ bits - 1
  | S754_finite s m e =>
      if s then 0
      else
        let t := if 0 <=? e then Z.pos m * 2 ^ e else Z.pos m / 2 ^ (- e) in
        Z.min (2 ^ bits - 1) t
  end.

(** The literal [0.2f32] (bits 0x3E4CCCCD). *)
Definition f32_0_2 : f32 := S754_finite false 13421773 (-26).
(** The literal [0.3f32] (bits 0x3E99999A). *)
Definition f32_0_3 : f32 := S754_finite false 10066330 (-25).

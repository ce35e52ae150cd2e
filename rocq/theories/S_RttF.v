(* Specification vocabulary for the smoothed values of the RTT estimator, in real numbers. *)
From Coq Require Import ZArith Reals.
From Flocq Require Import Core BinarySingleNaN.
From Verif Require Import Base M_Rtt.
Open Scope R_scope.

(* the mean of a and b that gives b the weight w / n, where the double w stands for the real number SF2R radix2 w *)
Definition wmean (w : SpecFloat.spec_float) (n : N) (a b : R) : R :=
  let p := SF2R radix2 w / IZR (Z.of_N n) in (1 - p) * a + p * b.
(* z is x up to rounding: doubles are rounded to nearest and nanoseconds are truncated *)
Definition near (z : Z) (x : R) : Prop := x - 2 < IZR z < x + 1.
(* v limited to lo .. hi *)
Definition limited (v lo hi : Z) : Z := Z.max lo (Z.min hi v).

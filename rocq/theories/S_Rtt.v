(* Specification vocabulary for the RTT estimator. *)
From Coq Require Import ZArith.
From Verif Require Import Base M_Rtt.
Open Scope Z_scope.

(* the RTT samples of a history, in order *)
Fixpoint samples (l : list rop) : list Z :=
  match l with [] => [] | RAdd x _ :: l' => x :: samples l' | RBackoff :: l' => samples l' end.
Definition zsum (l : list Z) : Z := fold_right Z.add 0 l.
(* the arguments that the documentation allows: samples not negative, at least one sample expected; size_t *)
Definition rop_ok (bound : Z) (a : rop) : Prop := match a with RAdd x n => 0 <= x <= bound /\ (0 < n < 2 ^ 64)%N | RBackoff => True end.
(* the members of the options are values of their types: doubles, 64-bit durations, ints *)
Definition ropts_typed (o : ropts) : Prop :=
  SpecFloat.valid_binary 53 1024 (o_alpha o) = true /\ SpecFloat.valid_binary 53 1024 (o_beta o) = true /\
  o_init o < 2 ^ 63 /\ o_max o < 2 ^ 63 /\ o_k o < 2 ^ 31 /\ o_mult o < 2 ^ 31.

(* Model of ndn-cxx/util/rtt-estimator.{hpp,cpp}.
   Durations are counts of nanoseconds in a signed 64-bit integer: an operation whose result is out of range is undefined
   behaviour (EUb).  double is IEEE 754 binary64 with rounding to nearest even, as given by Coq.Floats.SpecFloat, without excess
   precision or fused multiply-add. *)
From Coq Require Import ZArith SpecFloat.
From Verif Require Import Base.
Open Scope Z_scope.

Definition I64MAX : Z := 9223372036854775807.
Definition I64MIN : Z := -9223372036854775808.
(* signed 64-bit arithmetic *)
Definition chk (z : Z) : res Z := if (I64MIN <=? z) && (z <=? I64MAX) then Ok z else Err EUb.
(* conversion of an integer to double *)
Definition dbl (z : Z) : spec_float := binary_normalize 53 1024 z 0 false.
Definition fmul := SFmul 53 1024.
Definition fadd := SFadd 53 1024.
Definition fsub := SFsub 53 1024.
Definition fdiv := SFdiv 53 1024.
(* conversion of a double to a signed 64-bit integer: towards zero; undefined if that is out of range *)
Definition trunc (m : positive) (e : Z) : Z := if 0 <=? e then Zpos m * 2 ^ e else Zpos m / 2 ^ (- e).
Definition f2i (f : spec_float) : res Z :=
  match f with
  | S754_zero _ => Ok 0
  | S754_finite s m e => chk (if s then - trunc m e else trunc m e)
  | _ => Err EUb
  end.

(* rtt-estimator.hpp:45-54 Options; the members k and rtoBackoffMultiplier are ints *)
Record ropts := mkRopts { o_alpha : spec_float; o_beta : spec_float; o_init : Z; o_min : Z; o_max : Z; o_k : Z; o_mult : Z }.
(* rtt-estimator.hpp:119-122, 181-184 *)
Record rtt := mkRtt { r_srtt : Z; r_var : Z; r_rto : Z; r_smin : Z; r_smax : Z; r_avg : Z; r_n : Z }.

Definition f_leb := SFleb.
(* rtt-estimator.cpp:31-42 the assertions of the constructor *)
Definition ropts_ok (o : ropts) : bool :=
  f_leb (dbl 0) (o_alpha o) && f_leb (o_alpha o) (dbl 1) && f_leb (dbl 0) (o_beta o) && f_leb (o_beta o) (dbl 1) &&
  (0 <=? o_init o) && (0 <=? o_min o) && (o_min o <=? o_max o) && (0 <=? o_k o) && (1 <=? o_mult o).
(* rtt-estimator.cpp:31-42 and the initial values in the header *)
Definition rtt_new (o : ropts) : res rtt :=
  if ropts_ok o then Ok (mkRtt (-1) (-1) (o_init o) I64MAX I64MIN 0 0) else Err EAssert.

(* std::clamp *)
Definition clamp (v lo hi : Z) : Z := if v <? lo then lo else if hi <? v then hi else v.
(* (1 - w) * a + w * b in doubles, cast to nanoseconds; rtt-estimator.cpp:57-59 *)
Definition mix (w : spec_float) (a b : Z) : res Z := f2i (fadd (fmul (fsub (dbl 1) w) (dbl a)) (fmul w (dbl b))).

(* rtt-estimator.cpp:44-63 RttEstimator::addMeasurement *)
Definition rtt_base (o : ropts) (x : Z) (n : N) (r : rtt) : res rtt :=
  if negb ((0 <=? x) && (0 <? n)%N) then Err EAssert
  else
    let! p :=
      (if r_srtt r =? -1 then Ok (x, x ÷ 2)
       else
         let alpha := fdiv (o_alpha o) (dbl (Z.of_N n)) in
         let beta := fdiv (o_beta o) (dbl (Z.of_N n)) in
         let! d := chk (r_srtt r - x) in
         let! d' := (if 0 <=? d then Ok d else chk (- d)) in
         let! v := mix beta (r_var r) d' in
         let! s := mix alpha (r_srtt r) x in
         Ok (s, v)) in
    let! kv := chk (o_k o * snd p) in
    let! t := chk (fst p + kv) in
    Ok (mkRtt (fst p) (snd p) (clamp t (o_min o) (o_max o)) (r_smin r) (r_smax r) (r_avg r) (r_n r)).
(* rtt-estimator.cpp:65-70 backoffRto *)
Definition rtt_backoff (o : ropts) (r : rtt) : res rtt :=
  let! t := chk (r_rto r * o_mult o) in
  Ok (mkRtt (r_srtt r) (r_var r) (clamp t (o_min o) (o_max o)) (r_smin r) (r_smax r) (r_avg r) (r_n r)).
(* rtt-estimator.cpp:72-81 RttEstimatorWithStats::addMeasurement *)
Definition rtt_add (o : ropts) (x : Z) (n : N) (r : rtt) : res rtt :=
  let! r1 := rtt_base o x n r in
  let! a := chk (r_n r1 * r_avg r1) in
  let! b := chk (a + x) in
  let! c := chk (r_n r1 + 1) in
  Ok (mkRtt (r_srtt r1) (r_var r1) (r_rto r1) (Z.min x (r_smin r1)) (Z.max x (r_smax r1)) (b ÷ c) c).

(* the calls of a user *)
Inductive rop := RAdd (x : Z) (n : N) | RBackoff.
Definition rtt_step (o : ropts) (a : rop) (r : rtt) : res rtt :=
  match a with RAdd x n => rtt_add o x n r | RBackoff => rtt_backoff o r end.
Fixpoint rtt_run (o : ropts) (l : list rop) (r : rtt) : res rtt :=
  match l with [] => Ok r | a :: l' => let! r' := rtt_step o a r in rtt_run o l' r' end.
(* a new estimator and the calls on it *)
Definition rtt_hist (o : ropts) (l : list rop) : res rtt := let! r := rtt_new o in rtt_run o l r.

(* Model of security/validity-period.{hpp,cpp} and of the conversions of util/time.cpp it uses *)
From Coq Require Import ZArith.
From Verif Require Import Base M_Tlv M_Name M_Control M_Signer.
Open Scope Z_scope.

(* ---- calendar ----
   boost::gregorian (not in the repository), by the algorithm its documentation gives: day numbers count days of the proleptic Gregorian calendar,
   1970-01-01 being 2440588; here they are relative to that day. *)
Record date := mkDate { d_year : Z; d_month : Z; d_day : Z }.
Definition EPOCH_DAY : Z := 2440588.
(* gregorian_calendar::day_number *)
Definition day_number (d : date) : Z :=
  let a := (14 - d_month d) / 12 in
  let y := d_year d + 4800 - a in
  let m := d_month d + 12 * a - 3 in
  d_day d + (153 * m + 2) / 5 + 365 * y + y / 4 - y / 100 + y / 400 - 32045 - EPOCH_DAY.
(* gregorian_calendar::from_day_number *)
Definition from_day_number (n : Z) : date :=
  let a := n + EPOCH_DAY + 32044 in
  let b := (4 * a + 3) / 146097 in
  let c := a - (146097 * b) / 4 in
  let d := (4 * c + 3) / 1461 in
  let e := c - (1461 * d) / 4 in
  let m := (5 * e + 2) / 153 in
  mkDate (100 * b + d - 4800 + m / 10) (m + 3 - 12 * (m / 10)) (e - (153 * m + 2) / 5 + 1).
(* gregorian_calendar::is_leap_year, end_of_month_day *)
Definition is_leap (y : Z) : bool := (y mod 4 =? 0) && (negb (y mod 100 =? 0) || (y mod 400 =? 0)).
Definition month_days (y m : Z) : Z :=
  if m =? 2 then (if is_leap y then 29 else 28) else if (m =? 4) || (m =? 6) || (m =? 9) || (m =? 11) then 30 else 31.
(* years are limited to 1400..9999 (boost::gregorian::greg_year) *)
Definition date_ok (d : date) : bool :=
  (1400 <=? d_year d) && (d_year d <=? 9999) && (1 <=? d_month d) && (d_month d <=? 12) && (1 <=? d_day d) && (d_day d <=? month_days (d_year d) (d_month d)).

(* w decimal digits of n *)
Fixpoint dec (w : nat) (n : Z) : bytes :=
  match w with O => [] | S w' => dec w' (n / 10) ++ [nb (Z.to_N (48 + n mod 10))] end.
(* the number written by decimal digits *)
Fixpoint undec (acc : Z) (v : bytes) : option Z :=
  match v with
  | [] => Some acc
  | c :: v' => let k := Z.of_N (bn c) in if (48 <=? k) && (k <=? 57) then undec (10 * acc + (k - 48)) v' else None
  end.
(* util/time.cpp:108-133 toIsoString of a time point that is a whole number of seconds: YYYYMMDDTHHMMSS.  There is no fractional part then. *)
Definition toIsoString (s : Z) : bytes :=
  let d := from_day_number (s / 86400) in
  let t := s mod 86400 in
  dec 4 (d_year d) ++ dec 2 (d_month d) ++ dec 2 (d_day d) ++ [x54] ++ dec 2 (t / 3600) ++ dec 2 (t / 60 mod 60) ++ dec 2 (t mod 60).
(* util/time.cpp:141-159 fromIsoString of a string YYYYMMDDTHHMMSS that denotes a date and a time of day, in seconds.  For any other string the result
   of the library call boost::posix_time::from_iso_string is left open: it is the parameter `other`, which may be a number of seconds or an exception. *)
Definition fromIsoFields (v : bytes) : option Z :=
  match undec 0 (firstn 4 v), undec 0 (firstn 2 (skipn 4 v)), undec 0 (firstn 2 (skipn 6 v)),
        undec 0 (firstn 2 (skipn 9 v)), undec 0 (firstn 2 (skipn 11 v)), undec 0 (firstn 2 (skipn 13 v)) with
  | Some y, Some m, Some d, Some h, Some mi, Some s =>
      if (nlen v =? 15)%N && bytes_eqb (firstn 1 (skipn 8 v)) [x54] && date_ok (mkDate y m d) && (h <? 24) && (mi <? 60) && (s <? 60)
      then Some (day_number (mkDate y m d) * 86400 + h * 3600 + mi * 60 + s) else None
  | _, _, _, _, _, _ => None
  end.
Definition fromIsoString (other : bytes -> res Z) (v : bytes) : res Z := match fromIsoFields v with Some s => Ok s | None => other v end.

(* std::string operator<: unsigned octets, a proper prefix is less *)
Fixpoint str_lt (a b : bytes) : bool :=
  match a, b with
  | _, [] => false
  | [], _ :: _ => true
  | x :: a', y :: b' => if (bn x <? bn y)%N then true else if (bn y <? bn x)%N then false else str_lt a' b'
  end.

(* ---- ValidityPeriod ---- *)
(* m_notBefore, m_notAfter in seconds; m_wire *)
Record validity := mkVp { vp_nb : Z; vp_na : Z; vp_wire : option elem }.
Definition NS : Z := 1000000000.
(* validity-period.cpp:120-130; boost::chrono::floor and ceil: duration_cast truncates, then corrects by one *)
Definition vp_floor (t : Z) : Z := let r := Z.quot t NS in if r * NS >? t then r - 1 else r.
Definition vp_ceil (t : Z) : Z := let r := Z.quot t NS in if r * NS <? t then r + 1 else r.
(* validity-period.cpp:48-54 *)
Definition vp_make (nb na : Z) : validity := mkVp (vp_ceil nb) (vp_floor na) None.
(* validity-period.cpp:42-46 *)
Definition vp_default : validity := vp_make 1 0.
(* validity-period.cpp:34-40; seconds are converted to nanoseconds before the addition, overflow is undefined *)
Definition vp_makeRelative (from until now : Z) : res validity :=
  let! f := i64 (from * NS) in let! a := i64 (now + f) in let! u := i64 (until * NS) in let! b := i64 (now + u) in Ok (vp_make a b).
(* validity-period.cpp:155-163 *)
Definition vp_setPeriod (nb na : Z) (p : validity) : validity := vp_make nb na.
(* validity-period.cpp:165-169: converted to time points in nanoseconds *)
Definition vp_getPeriod (p : validity) : res (Z * Z) := let! a := i64 (vp_nb p * NS) in let! b := i64 (vp_na p * NS) in Ok (a, b).
(* validity-period.cpp:171-175: both sides are compared in nanoseconds *)
Definition vp_isValid (p : validity) (now : Z) : res bool :=
  let! a := i64 (vp_nb p * NS) in
  if a <=? now then let! b := i64 (vp_na p * NS) in Ok (now <=? b) else Ok false.
(* validity-period.hpp:137-142 *)
Definition vp_eqb (a b : validity) : bool := (vp_nb a =? vp_nb b) && (vp_na a =? vp_na b).

Definition tNotAfter : N := 255.
(* validity-period.cpp:61-90 *)
Definition vp_encode (p : validity) : elem :=
  mkBlock tValidityPeriod (e_wire (mkBlock tNotBefore (toIsoString (vp_nb p))) ++ e_wire (mkBlock tNotAfter (toIsoString (vp_na p)))).
Definition vp_wireEncode (p : validity) : validity * elem :=
  match vp_wire p with
  | Some w => (p, w)
  | None => let w := vp_encode p in (mkVp (vp_nb p) (vp_na p) (Some w), w)
  end.

(* validity-period.cpp:132-153 *)
Definition minTime : Z := vp_ceil (- 2 ^ 63).
Definition maxTime : Z := vp_floor (2 ^ 63 - 1).
Definition decodeTimePoint (other : bytes -> res Z) (v : bytes) : res Z :=
  if str_lt v (toIsoString minTime) then Ok minTime
  else if str_lt (toIsoString maxTime) v then Ok maxTime
  else fromIsoString other v.
(* std::bad_cast becomes ValidityPeriod::Error (115-117); other exceptions pass through *)
Definition vp_rethrow (e : err) : err := match e with EBadCast => ETlv | _ => e end.
(* validity-period.cpp:92-118: the object may have changed when it throws *)
Definition vp_wireDecode (other : bytes -> res Z) (wire : elem) (p : validity) : validity * option err :=
  if negb (e_type wire =? tValidityPeriod)%N then (p, Some ETlv)
  else
    let p1 := mkVp (vp_nb p) (vp_na p) (Some wire) in
    match parseValue (e_val wire) with
    | Err e => (p1, Some e)
    | Ok [a; b] =>
        if negb (e_type a =? tNotBefore)%N || negb (nlen (e_val a) =? 15)%N then (p1, Some ETlv)
        else if negb (e_type b =? tNotAfter)%N || negb (nlen (e_val b) =? 15)%N then (p1, Some ETlv)
        else match decodeTimePoint other (e_val a) with
             | Err e => (p1, Some (vp_rethrow e))
             | Ok nb0 =>
                 let p2 := mkVp nb0 (vp_na p) (Some wire) in
                 match decodeTimePoint other (e_val b) with
                 | Err e => (p2, Some (vp_rethrow e))
                 | Ok na0 => (mkVp nb0 na0 (Some wire), None)
                 end
             end
    | Ok _ => (p1, Some ETlv)
    end.
(* validity-period.cpp:56-59 *)
Definition vp_ofBlock (other : bytes -> res Z) (wire : elem) : res validity :=
  match vp_wireDecode other wire (mkVp 0 0 None) with (p, None) => Ok p | (_, Some e) => Err e end.

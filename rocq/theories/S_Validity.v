(* Vocabulary for C54: the calendar by counting days, ISO 8601 basic strings, and validity periods *)
From Coq Require Import ZArith.
From Verif Require Import Base S_Tlv M_Tlv M_Validity.
Open Scope Z_scope.

(* the Gregorian calendar, day by day; day 0 is 1 January 1970 *)
Definition leap (y : Z) : Prop := (4 | y) /\ (~ (100 | y) \/ (400 | y)).
Inductive month_len : Z -> Z -> Z -> Prop :=
  | ML31 : forall y m, In m [1; 3; 5; 7; 8; 10; 12] -> month_len y m 31
  | ML30 : forall y m, In m [4; 6; 9; 11] -> month_len y m 30
  | ML29 : forall y, leap y -> month_len y 2 29
  | ML28 : forall y, ~ leap y -> month_len y 2 28.
Inductive next_day : date -> date -> Prop :=
  | NDay : forall y m d n, month_len y m n -> 1 <= d < n -> next_day (mkDate y m d) (mkDate y m (d + 1))
  | NMonth : forall y m n, month_len y m n -> m < 12 -> next_day (mkDate y m n) (mkDate y (m + 1) 1)
  | NYear : forall y, next_day (mkDate y 12 31) (mkDate (y + 1) 1 1).
Inductive is_day : Z -> date -> Prop :=
  | Day0 : is_day 0 (mkDate 1970 1 1)
  | DayS : forall n a b, is_day n a -> next_day a b -> is_day (n + 1) b
  | DayP : forall n a b, is_day n b -> next_day a b -> is_day (n - 1) a.

(* n written with w decimal digits *)
Definition digits (w : nat) (n : Z) (v : bytes) : Prop :=
  length v = w /\ Forall (fun c => 48 <= Z.of_N (bn c) <= 57) v /\ fold_left (fun a c => 10 * a + (Z.of_N (bn c) - 48)) v 0 = n.
(* the string YYYYMMDDTHHMMSS for the instant s, in seconds since the epoch *)
Definition is_iso (s : Z) (v : bytes) : Prop :=
  exists n d h m c vy vm vd vh vmi vs, is_day n d /\ s = n * 86400 + h * 3600 + m * 60 + c /\ 0 <= h < 24 /\ 0 <= m < 60 /\ 0 <= c < 60 /\
    digits 4 (d_year d) vy /\ digits 2 (d_month d) vm /\ digits 2 (d_day d) vd /\ digits 2 h vh /\ digits 2 m vmi /\ digits 2 c vs /\
    v = vy ++ vm ++ vd ++ str "T" ++ vh ++ vmi ++ vs.

(* instants are nanoseconds in a signed 64-bit integer; these are the whole seconds among them *)
Definition instant (t : Z) : Prop := - 2 ^ 63 <= t < 2 ^ 63.
Definition second (s : Z) : Prop := instant (s * 1000000000).
(* the nearest whole second that is an instant *)
Definition clamped (s r : Z) : Prop :=
  second r /\ (second s -> r = s) /\ (~ second s -> forall u, second u -> Z.abs (s - r) <= Z.abs (s - u)).
(* the octets of a validity period from s to e *)
Definition period_octets (vs ve : bytes) (w : bytes) : Prop :=
  exists a b, is_tlv 254 vs a /\ is_tlv 255 ve b /\ is_tlv 253 (a ++ b) w.
(* what a 15-octet time field means: an ISO string is the instant it denotes, moved into the range of the clock; any other string that is outside the
   range in text order is the end of the range on that side; what remains is up to the library *)
Definition reads (other : bytes -> res Z) (v : bytes) (r : Z) : Prop :=
  (exists s, is_iso s v /\ clamped s r) \/
  ((forall s, ~ is_iso s v) /\
   exists lo hi vlo vhi, lo = - 9223372036 /\ hi = 9223372036 /\ is_iso lo vlo /\ is_iso hi vhi /\
     ((str_lt v vlo = true /\ r = lo) \/ (str_lt vhi v = true /\ r = hi) \/ (str_lt v vlo = false /\ str_lt vhi v = false /\ other v = Ok r))).
(* the library returns instants *)
Definition honest (other : bytes -> res Z) : Prop := forall v s, other v = Ok s -> second s.

(* decoding octets *)
Definition vp_read (other : bytes -> res Z) (w : bytes) : res validity := let! e := blockFromWire w in vp_ofBlock other e.
(* both ends of the range [nb, na] can be rounded inwards without leaving the range of the clock *)
Definition roundable (nb na : Z) : Prop := instant nb /\ instant na /\ nb <= 9223372036 * 1000000000 /\ - 9223372036 * 1000000000 <= na.

(* a history of one object; decoding is given octets *)
Inductive vop := VSet (nb na : Z) | VEncode | VDecode (w : bytes).
Definition v_step (other : bytes -> res Z) (o : vop) (p : validity) : validity * option err :=
  match o with
  | VSet nb na => (vp_setPeriod nb na p, None)
  | VEncode => (fst (vp_wireEncode p), None)
  | VDecode w => match blockFromWire w with Ok e => vp_wireDecode other e p | Err e => (p, Some e) end
  end.
(* the histories without exceptions *)
Fixpoint v_run (other : bytes -> res Z) (l : list vop) (p : validity) : option validity :=
  match l with
  | [] => Some p
  | o :: l' => match v_step other o p with (p', None) => v_run other l' p' | _ => None end
  end.
Definition vop_ok (o : vop) : Prop := match o with VSet nb na => roundable nb na | _ => True end.

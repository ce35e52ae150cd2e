(* Specification vocabulary for ControlParameters and control commands. *)
From Coq Require Import ZArith.
From Verif Require Import Base M_Tlv S_Tlv M_Name S_Name M_Control.

(* values a setter accepts: what its C++ type can hold *)
Definition val_ok (f : cfield) (v : cval) : Prop :=
  match f, v with
  | (FName | FStrategy), VName n => Forall ctype_ok (n_comps n)
  | (FUri | FLocalUri), VStr _ => True
  | FOrigin, VNum n => n < 2 ^ 16
  | FFacePersistency, VNum n => n < 2 ^ 8
  | (FExpirationPeriod | FBaseCongestionMarkingInterval), VTime z => (- 2 ^ 63 <= z < 2 ^ 63)%Z
  | (FFaceId | FCost | FCapacity | FCount | FFlags | FMask | FDefaultCongestionThreshold | FMtu), VNum n => n < 2 ^ 64
  | _, _ => False
  end.
(* the same value, names up to representation *)
Definition val_eq (a b : option cval) : Prop :=
  match a, b with
  | None, None => True
  | Some (VName n), Some (VName m) => nkey n = nkey m
  | Some x, Some y => x = y
  | _, _ => False
  end.
Definition params_ok (p : cparams) : Prop := forall f v, cp_val p f = Some v -> val_ok f v.
Definition same_params (p q : cparams) : Prop := forall f, val_eq (cp_val p f) (cp_val q f).

(* TLV-TYPE numbers of the fields (NFD management protocol, ControlParameters) *)
Definition field_number (f : cfield) : N :=
  match f with
  | FName => 7 | FFaceId => 105 | FCost => 106 | FStrategy => 107 | FFlags => 108 | FExpirationPeriod => 109 | FOrigin => 111 | FMask => 112 | FUri => 114
  | FLocalUri => 129 | FCapacity => 131 | FCount => 132 | FFacePersistency => 133 | FBaseCongestionMarkingInterval => 135 | FDefaultCongestionThreshold => 136 | FMtu => 137
  end.
(* d is a TLV-VALUE that says v: a sequence of components (for Strategy, a Name element), a NonNegativeInteger, a string.
   Durations are sent modulo 2^64. *)
Definition field_value (f : cfield) (v : cval) (d : bytes) : Prop :=
  match v with
  | VName n => match f with FStrategy => exists x, is_tlv_seq (nkey n) x /\ is_tlv 7 x d | _ => is_tlv_seq (nkey n) d end
  | VNum n => is_nni n d
  | VStr s => d = s
  | VTime z => exists n, is_nni n d /\ ((Z.of_N n - z) mod 2 ^ 64 = 0)%Z
  end.
Definition field_wire (p : cparams) (f : cfield) (w : bytes) : Prop := exists v d, cp_val p f = Some v /\ field_value f v d /\ is_tlv (field_number f) d w.
(* when decoding, what follows the name of the strategy is ignored *)
Definition field_reads (f : cfield) (v : cval) (d : bytes) : Prop :=
  match f with FStrategy => exists d1 rest, d = d1 ++ rest /\ field_value f v d1 | _ => field_value f v d end.
(* the value of the last element of a type *)
Fixpoint last_of (t : N) (l : list (N * bytes)) : option bytes :=
  match l with [] => None | (u, d) :: l' => match last_of t l' with Some x => Some x | None => if u =? t then Some d else None end end.

(* histories *)
Inductive cpop := CSet (f : cfield) (v : cval) | CUnset (f : cfield) | CSetBit (bit : N) (value wantMask : bool) | CUnsetBit (bit : N) | CEncode | CDecode (e : elem).
(* an operation that throws leaves the object as it was, except wireDecode, after which the history must not go on *)
Definition cp_step (o : cpop) (p : cparams) : option cparams :=
  match o with
  | CSet f v => Some (cp_set f v p)
  | CUnset f => Some (cp_unset f p)
  | CSetBit b v m => match cp_setFlagBit b v m p with Ok q => Some q | Err EUb => None | Err _ => Some p end
  | CUnsetBit b => match cp_unsetFlagBit b p with Ok q => Some q | Err EUb => None | Err _ => Some p end
  | CEncode => match cp_encode p with Ok (_, q) => Some q | Err _ => Some p end
  | CDecode e => match cp_decode e with Ok q => Some q | Err _ => None end
  end.
Fixpoint cp_run (l : list cpop) (p : cparams) : option cparams :=
  match l with [] => Some p | o :: l' => match cp_step o p with Some q => cp_run l' q | None => None end end.
Definition op_ok (o : cpop) : Prop :=
  match o with
  | CSet f v => val_ok f v
  | CDecode e => exists w, blockFromWire w = Ok e     (* any element *)
  | _ => True
  end.

(* the words read by the flag-bit functions *)
Definition word (f : cfield) (p : cparams) : N := match cp_val p f with Some (VNum n) => n | _ => 0 end.

(* what a command format accepts *)
Definition has (f : cfield) (p : cparams) : Prop := exists v, cp_val p f = Some v.
Definition accepts (required optional : list cfield) (p : cparams) : Prop :=
  (forall f, In f required -> has f p) /\
  (forall f, has f p -> In f required \/ In f optional) /\
  (In FFlags optional -> In FMask optional -> (has FFlags p <-> has FMask p)).
(* the further conditions on values *)
Definition nonzero (f : cfield) (p : cparams) : Prop := forall n, cp_val p f = Some (VNum n) -> n <> 0.
Definition request_cond (c : command) (p : cparams) : Prop :=
  match c with
  | FaceDestroy => nonzero FFaceId p
  | CsErase => nonzero FCount p
  | StrategyChoiceUnset => forall n, cp_val p FName = Some (VName n) -> n_comps n <> []
  | _ => True
  end.
Definition response_cond (c : command) (p : cparams) : Prop :=
  match c with
  | FaceCreate | FaceUpdate | FaceDestroy | FibAddNextHop | FibRemoveNextHop | RibRegister | RibUnregister => nonzero FFaceId p
  | CsErase => nonzero FCapacity p
  | StrategyChoiceUnset => forall n, cp_val p FName = Some (VName n) -> n_comps n <> []
  | _ => True
  end.
(* the fields of requests and responses: required, optional (NFD management protocol) *)
Definition request_fields (c : command) : list cfield * list cfield :=
  match c with
  | FaceCreate => ([FUri], [FLocalUri; FFacePersistency; FBaseCongestionMarkingInterval; FDefaultCongestionThreshold; FMtu; FFlags; FMask])
  | FaceUpdate => ([], [FFaceId; FFacePersistency; FBaseCongestionMarkingInterval; FDefaultCongestionThreshold; FMtu; FFlags; FMask])
  | FaceDestroy => ([FFaceId], [])
  | FibAddNextHop => ([FName], [FFaceId; FCost])
  | FibRemoveNextHop => ([FName], [FFaceId])
  | CsConfig => ([], [FCapacity; FFlags; FMask])
  | CsErase => ([FName], [FCount])
  | StrategyChoiceSet => ([FName; FStrategy], [])
  | StrategyChoiceUnset => ([FName], [])
  | RibRegister => ([FName], [FFaceId; FOrigin; FCost; FFlags; FExpirationPeriod])
  | RibUnregister => ([FName], [FFaceId; FOrigin])
  end.
Definition response_fields (c : command) : list cfield * list cfield :=
  match c with
  | FaceCreate => ([FFaceId; FUri; FLocalUri; FFacePersistency; FFlags], [FBaseCongestionMarkingInterval; FDefaultCongestionThreshold; FMtu])
  | FaceUpdate => ([FFaceId; FFacePersistency; FFlags], [FBaseCongestionMarkingInterval; FDefaultCongestionThreshold; FMtu])
  | FaceDestroy => ([FFaceId], [])
  | FibAddNextHop => ([FName; FFaceId; FCost], [])
  | FibRemoveNextHop => ([FName; FFaceId], [])
  | CsConfig => ([FCapacity; FFlags], [])
  | CsErase => ([FName; FCount], [FCapacity])
  | StrategyChoiceSet => ([FName; FStrategy], [])
  | StrategyChoiceUnset => ([FName], [])
  | RibRegister => ([FName; FFaceId; FOrigin; FCost; FFlags], [FExpirationPeriod])
  | RibUnregister => ([FName; FFaceId; FOrigin], [])
  end.
(* default values of absent request fields *)
Definition request_default (c : command) (f : cfield) : option N :=
  match c, f with
  | FaceCreate, FFacePersistency => Some 0
  | (FaceUpdate | FibAddNextHop | FibRemoveNextHop | RibRegister | RibUnregister), FFaceId => Some 0
  | (FibAddNextHop | RibRegister), FCost => Some 0
  | (RibRegister | RibUnregister), FOrigin => Some 0
  | RibRegister, FFlags => Some 1
  | _, _ => None
  end.

(* Model of mgmt/nfd/control-parameters.{hpp,cpp} and mgmt/nfd/control-command.{hpp,cpp} *)
From Coq Require Import ZArith.
From Verif Require Import Base M_Tlv M_Name.

(* control-parameters.hpp:38-56 ControlParameterField *)
Inductive cfield := FName | FFaceId | FUri | FLocalUri | FOrigin | FCost | FCapacity | FCount | FFlags | FMask | FStrategy | FExpirationPeriod
  | FFacePersistency | FBaseCongestionMarkingInterval | FDefaultCongestionThreshold | FMtu.
Definition cf_eqb (a b : cfield) : bool :=
  match a, b with
  | FName, FName | FFaceId, FFaceId | FUri, FUri | FLocalUri, FLocalUri | FOrigin, FOrigin | FCost, FCost | FCapacity, FCapacity | FCount, FCount
  | FFlags, FFlags | FMask, FMask | FStrategy, FStrategy | FExpirationPeriod, FExpirationPeriod | FFacePersistency, FFacePersistency
  | FBaseCongestionMarkingInterval, FBaseCongestionMarkingInterval | FDefaultCongestionThreshold, FDefaultCongestionThreshold | FMtu, FMtu => true
  | _, _ => false
  end.
(* in the order of the enumeration, which is also the order of the encoding (control-parameters.cpp:40-99) *)
Definition all_fields : list cfield := [FName; FFaceId; FUri; FLocalUri; FOrigin; FCost; FCapacity; FCount; FFlags; FMask; FStrategy; FExpirationPeriod;
  FFacePersistency; FBaseCongestionMarkingInterval; FDefaultCongestionThreshold; FMtu].

(* the type of each member, control-parameters.hpp:639-656: Name, uint64_t, std::string, an enumeration over an unsigned type with the given number of
   values (RouteOrigin: uint16_t, FacePersistency: uint8_t), Name inside an element, a signed 64-bit count of milliseconds or nanoseconds *)
Inductive ckind := KName | KNum | KStr | KEnum (limit : N) | KNested | KTime.
Definition cf_kind (f : cfield) : ckind :=
  match f with
  | FName => KName
  | FUri | FLocalUri => KStr
  | FOrigin => KEnum 65536
  | FFacePersistency => KEnum 256
  | FStrategy => KNested
  | FExpirationPeriod | FBaseCongestionMarkingInterval => KTime
  | _ => KNum
  end.
(* encoding/tlv-nfd.hpp:34-44, 63-69; tlv::Name *)
Definition cf_type (f : cfield) : N :=
  match f with
  | FName => 7 | FFaceId => 105 | FUri => 114 | FLocalUri => 129 | FOrigin => 111 | FCost => 106 | FCapacity => 131 | FCount => 132 | FFlags => 108 | FMask => 112
  | FStrategy => 107 | FExpirationPeriod => 109 | FFacePersistency => 133 | FBaseCongestionMarkingInterval => 135 | FDefaultCongestionThreshold => 136 | FMtu => 137
  end.
Definition tControlParameters : N := 104.

(* values of fields *)
Inductive cval := VName (n : name) | VNum (n : N) | VStr (s : bytes) | VTime (z : Z).
(* static_cast between int64_t and uint64_t *)
Definition time_u64 (z : Z) : N := Z.to_N (z mod 2 ^ 64)%Z.
Definition u64_time (n : N) : Z := if n <? 2 ^ 63 then Z.of_N n else (Z.of_N n - 2 ^ 64)%Z.

(* control-parameters.hpp:639-658.  A field is present if its bit in m_hasFields is set; the members of absent fields are not observable. *)
Record cparams := mkCp { cp_val : cfield -> option cval; cp_wire : option elem }.
Definition cp_empty : cparams := mkCp (fun _ => None) None.
Definition cp_has (f : cfield) (p : cparams) : bool := match cp_val p f with Some _ => true | None => false end.
(* control-parameters.hpp setName, ..., setMtu: each resets m_wire, stores the value and sets the bit; unset... resets m_wire and clears the bit *)
Definition cp_put (f : cfield) (v : option cval) (p : cparams) : cparams := mkCp (fun g => if cf_eqb f g then v else cp_val p g) None.
Definition cp_set (f : cfield) (v : cval) (p : cparams) : cparams := cp_put f (Some v) p.
Definition cp_unset (f : cfield) (p : cparams) : cparams := cp_put f None p.
(* getters of numeric fields; BOOST_ASSERT(has...) *)
Definition cp_num (f : cfield) (p : cparams) : res N := match cp_val p f with Some (VNum n) => Ok n | _ => Err EAssert end.
Definition cp_name (f : cfield) (p : cparams) : res name := match cp_val p f with Some (VName n) => Ok n | _ => Err EAssert end.

(* one field of control-parameters.cpp:44-94 *)
Definition cv_octets (f : cfield) (v : cval) : bytes :=
  match cf_kind f, v with
  | KName, VName n => nm_octets n
  | KNested, VName n => tlv_enc (cf_type f) (nm_octets n)
  | KStr, VStr s => tlv_enc (cf_type f) s
  | KTime, VTime z => tlv_nni (cf_type f) (time_u64 z)
  | (KNum | KEnum _), VNum n => tlv_nni (cf_type f) n
  | _, _ => []     (* not a value of this member *)
  end.
(* control-parameters.cpp:37-99 wireEncode(encoder) *)
Definition cp_value (p : cparams) : bytes :=
  concat (map (fun f => match cp_val p f with Some v => cv_octets f v | None => [] end) all_fields).
(* control-parameters.cpp:103-117 wireEncode() *)
Definition cp_encode (p : cparams) : res (elem * cparams) :=
  match cp_wire p with
  | Some e => Ok (e, p)
  | None =>
      let! w := alloc (tlv_enc tControlParameters (cp_value p)) in
      let! e := blockFromWire w in
      Ok (e, mkCp (cp_val p) (Some e))
  end.

(* one case of control-parameters.cpp:131-200 *)
Definition cv_decode (f : cfield) (e : elem) : res cval :=
  match cf_kind f with
  | KName => let! n := nm_decode e in Ok (VName n)
  | KNested => let! es := parseValue (e_val e) in match es with [] => Err ETlv | x :: _ => let! n := nm_decode x in Ok (VName n) end
  | KStr => Ok (VStr (e_val e))
  | KTime => let! n := readNNIBlock e in Ok (VTime (u64_time n))
  | KNum => let! n := readNNIBlock e in Ok (VNum n)
  | KEnum limit => let! n := readNNIBlockAs limit e in Ok (VNum n)
  end.
Definition field_of_type (t : N) : option cfield := find (fun f => cf_type f =? t) all_fields.
(* control-parameters.cpp:128-204 the loop over the elements *)
Fixpoint cp_loop (es : list elem) (p : cparams) : res cparams :=
  match es with
  | [] => Ok p
  | e :: es' =>
      match field_of_type (e_type e) with
      | None => cp_loop es' p
      | Some f => let! v := cv_decode f e in cp_loop es' (mkCp (fun g => if cf_eqb f g then Some v else cp_val p g) (cp_wire p))
      end
  end.
(* control-parameters.cpp:119-205 wireDecode.  The state of the object after an exception is not modelled. *)
Definition cp_decode (e : elem) : res cparams :=
  if negb (e_type e =? tControlParameters) then Err ETlv
  else let! es := parseValue (e_val e) in cp_loop es (mkCp (fun _ => None) (Some e)).

(* ---- flag bits ---- *)
(* (1 << bit) as an int, converted to uint64_t.  A shift by 32 or more is undefined; 1 << 31 is INT_MIN, whose conversion has the
   upper 32 bits set (before C++14 it is undefined as well). *)
Definition one_shl (bit : N) : res N :=
  if bit <? 31 then Ok (2 ^ bit) else if bit =? 31 then Ok (two64 - 2 ^ 31) else Err EUb.
(* ~(1 << bit) is computed on int: the complement of one_shl in 64 bits, as the sign is extended *)
Definition not64 (n : N) : N := two64 - 1 - n.
(* control-parameters.cpp:207-219 hasFlagBit, 221-233 getFlagBit *)
Definition cp_bit (f : cfield) (bit : N) (p : cparams) : res bool :=
  if 64 <=? bit then Err EOutOfRange
  else if negb (cp_has f p) then Ok false
  else let! w := cp_num f p in let! m := one_shl bit in Ok (negb (N.land w m =? 0)).
Definition cp_hasFlagBit (bit : N) (p : cparams) : res bool := cp_bit FMask bit p.
Definition cp_getFlagBit (bit : N) (p : cparams) : res bool := cp_bit FFlags bit p.
(* control-parameters.cpp:235-258 setFlagBit *)
Definition cp_setFlagBit (bit : N) (value wantMask : bool) (p : cparams) : res cparams :=
  if 64 <=? bit then Err EOutOfRange
  else
    let! flags := (if cp_has FFlags p then cp_num FFlags p else Ok 0) in
    let! m := one_shl bit in
    let p1 := cp_set FFlags (VNum (if value then N.lor flags m else N.land flags (not64 m))) p in
    if wantMask
    then let! mask := (if cp_has FMask p1 then cp_num FMask p1 else Ok 0) in Ok (cp_set FMask (VNum (N.lor mask m)) p1)
    else Ok p1.
(* control-parameters.cpp:260-278 unsetFlagBit *)
Definition cp_unsetFlagBit (bit : N) (p : cparams) : res cparams :=
  if 64 <=? bit then Err EOutOfRange
  else
    let! mask := (if cp_has FMask p then cp_num FMask p else Ok 0) in
    let! m := one_shl bit in
    let mask' := N.land mask (not64 m) in
    if mask' =? 0 then Ok (cp_unset FFlags (cp_unset FMask p)) else Ok (cp_set FMask (VNum mask') p).

(* ---- commands ---- *)
(* control-command.hpp:53-102 ControlParametersCommandFormat: the bits set by required() and optional() *)
Record cformat := mkCf { cm_required : list cfield; cm_optional : list cfield }.
Definition memf (f : cfield) (l : list cfield) : bool := existsb (cf_eqb f) l.
(* control-command.cpp:33-43 the loop *)
Fixpoint fmt_loop (fm : cformat) (p : cparams) (l : list cfield) : option err :=
  match l with
  | [] => None
  | f :: l' =>
      if memf f (cm_required fm)
      then if negb (cp_has f p) then Some EInvalidArg else fmt_loop fm p l'
      else if cp_has f p && negb (memf f (cm_optional fm)) then Some EInvalidArg else fmt_loop fm p l'
  end.
(* control-command.cpp:26-50 validate *)
Definition fmt_validate (fm : cformat) (p : cparams) : option err :=
  match fmt_loop fm p all_fields with
  | Some x => Some x
  | None =>
      if memf FFlags (cm_optional fm) && memf FMask (cm_optional fm) && negb (Bool.eqb (cp_has FFlags p) (cp_has FMask p))
      then Some EInvalidArg else None
  end.

(* the commands of control-command.hpp whose request parameters are ControlParameters (rib/announce, whose are not, is left out) *)
Inductive command := FaceCreate | FaceUpdate | FaceDestroy | FibAddNextHop | FibRemoveNextHop | CsConfig | CsErase | StrategyChoiceSet
  | StrategyChoiceUnset | RibRegister | RibUnregister.
(* control-command.hpp NDN_CXX_CONTROL_COMMAND(module, verb) *)
Definition cmd_verb (c : command) : bytes * bytes :=
  match c with
  | FaceCreate => (str "faces", str "create") | FaceUpdate => (str "faces", str "update") | FaceDestroy => (str "faces", str "destroy")
  | FibAddNextHop => (str "fib", str "add-nexthop") | FibRemoveNextHop => (str "fib", str "remove-nexthop")
  | CsConfig => (str "cs", str "config") | CsErase => (str "cs", str "erase")
  | StrategyChoiceSet => (str "strategy-choice", str "set") | StrategyChoiceUnset => (str "strategy-choice", str "unset")
  | RibRegister => (str "rib", str "register") | RibUnregister => (str "rib", str "unregister")
  end.
(* control-command.cpp:67-76, 104-112, 138-140, 159-163, 189-192, 214-218, 224-227, 250-253, 259-261, 280-287, 322-326 s_requestFormat *)
Definition cmd_request (c : command) : cformat :=
  match c with
  | FaceCreate => mkCf [FUri] [FLocalUri; FFlags; FMask; FFacePersistency; FBaseCongestionMarkingInterval; FDefaultCongestionThreshold; FMtu]
  | FaceUpdate => mkCf [] [FFaceId; FFlags; FMask; FFacePersistency; FBaseCongestionMarkingInterval; FDefaultCongestionThreshold; FMtu]
  | FaceDestroy => mkCf [FFaceId] []
  | FibAddNextHop => mkCf [FName] [FFaceId; FCost]
  | FibRemoveNextHop => mkCf [FName] [FFaceId]
  | CsConfig => mkCf [] [FCapacity; FFlags; FMask]
  | CsErase => mkCf [FName] [FCount]
  | StrategyChoiceSet => mkCf [FName; FStrategy] []
  | StrategyChoiceUnset => mkCf [FName] []
  | RibRegister => mkCf [FName] [FFaceId; FOrigin; FCost; FFlags; FExpirationPeriod]
  | RibUnregister => mkCf [FName] [FFaceId; FOrigin]
  end.
(* the s_responseFormat next to each *)
Definition cmd_response (c : command) : cformat :=
  match c with
  | FaceCreate => mkCf [FFaceId; FUri; FLocalUri; FFlags; FFacePersistency] [FBaseCongestionMarkingInterval; FDefaultCongestionThreshold; FMtu]
  | FaceUpdate => mkCf [FFaceId; FFlags; FFacePersistency] [FBaseCongestionMarkingInterval; FDefaultCongestionThreshold; FMtu]
  | FaceDestroy => mkCf [FFaceId] []
  | FibAddNextHop => mkCf [FName; FFaceId; FCost] []
  | FibRemoveNextHop => mkCf [FName; FFaceId] []
  | CsConfig => mkCf [FCapacity; FFlags] []
  | CsErase => mkCf [FName; FCount] [FCapacity]
  | StrategyChoiceSet => mkCf [FName; FStrategy] []
  | StrategyChoiceUnset => mkCf [FName] []
  | RibRegister => mkCf [FName; FFaceId; FOrigin; FCost; FFlags] [FExpirationPeriod]
  | RibUnregister => mkCf [FName; FFaceId; FOrigin] []
  end.
(* encoding/nfd-constants.hpp:33 INVALID_FACE_ID = 0 *)
Definition face_valid (p : cparams) : option err :=
  match cp_num FFaceId p with Err x => Some x | Ok n => if n =? 0 then Some EInvalidArg else None end.
Definition name_nonempty (p : cparams) : option err :=
  match cp_name FName p with Err x => Some x | Ok n => if nm_size n =? 0 then Some EInvalidArg else None end.
Definition positive_if_present (f : cfield) (p : cparams) : option err :=
  if cp_has f p then match cp_num f p with Err x => Some x | Ok n => if n =? 0 then Some EInvalidArg else None end else None.
(* control-command.cpp:145-151, 234-240, 266-272 validateRequestImpl *)
Definition cmd_requestImpl (c : command) (p : cparams) : option err :=
  match c with
  | FaceDestroy => face_valid p
  | CsErase => positive_if_present FCount p
  | StrategyChoiceUnset => name_nonempty p
  | _ => None
  end.
(* control-command.cpp:96-102, 130-136, 153-157, 181-187, 206-212, 242-248, 274-278, 314-320, 344-350 validateResponseImpl *)
Definition cmd_responseImpl (c : command) (p : cparams) : option err :=
  match c with
  | FaceCreate | FaceUpdate | FaceDestroy | FibAddNextHop | FibRemoveNextHop | RibRegister | RibUnregister => face_valid p
  | CsErase => positive_if_present FCapacity p
  | StrategyChoiceUnset => name_nonempty p
  | _ => None
  end.
(* control-command.hpp:210-215 validateRequest, 230-235 validateResponse *)
Definition cmd_validateRequest (c : command) (p : cparams) : option err :=
  match fmt_validate (cmd_request c) p with Some x => Some x | None => cmd_requestImpl c p end.
Definition cmd_validateResponse (c : command) (p : cparams) : option err :=
  match fmt_validate (cmd_response c) p with Some x => Some x | None => cmd_responseImpl c p end.
(* control-command.cpp:88-94, 122-128, 170-179, 198-204, 297-312, 333-342 applyDefaultsToRequestImpl *)
Definition set_default (f : cfield) (n : N) (p : cparams) : cparams := if negb (cp_has f p) then cp_set f (VNum n) p else p.
Definition cmd_defaults (c : command) (p : cparams) : cparams :=
  match c with
  | FaceCreate => set_default FFacePersistency 0 p
  | FaceUpdate | FibRemoveNextHop => set_default FFaceId 0 p
  | FibAddNextHop => set_default FCost 0 (set_default FFaceId 0 p)
  | RibRegister => set_default FFlags 1 (set_default FCost 0 (set_default FOrigin 0 (set_default FFaceId 0 p)))
  | RibUnregister => set_default FOrigin 0 (set_default FFaceId 0 p)
  | _ => p
  end.

(* control-command.hpp:186-194 createRequest with control-command.cpp:59-65 encode; the name of the Interest *)
Definition cmd_createRequest (prefix : name) (c : command) (p : cparams) : res name :=
  match cmd_validateRequest c p with
  | Some x => Err x
  | None =>
      let n := nm_append (comp_ofString (snd (cmd_verb c))) (nm_append (comp_ofString (fst (cmd_verb c))) prefix) in
      let! r := cp_encode p in
      let! k := comp_ofSpan tGenericNameComponent (e_wire (fst r)) in
      Ok (nm_append k n)
  end.
(* control-command.hpp:199-204 parseRequest with control-command.cpp:52-57 decode *)
Definition cmd_parseRequest (n : name) (prefixLen : N) : res cparams :=
  let! k := nm_at (Z.of_N (prefixLen + 2)) n in
  let! e := blockFromValue (mkElem (c_type k) [] (c_val k)) in
  cp_decode e.

(* Model of the elements of NFD's status datasets and notifications: mgmt/nfd/{channel-status,strategy-choice,cs-info,
   face-event-notification,face-query-filter,face-status,fib-entry,rib-entry,forwarder-status}.{hpp,cpp}, of
   mgmt/nfd/status-dataset.cpp and of mgmt/control-response.{hpp,cpp}.
   All these classes repeat the same code for each field; it is modelled once, and a table lists the fields of each class
   in the order in which wireEncode writes them (it prepends in the opposite order) and wireDecode expects them.
   The state of an object after an exception is not modelled. *)
From Coq Require Import ZArith.
From Verif Require Import Base M_Tlv M_Name M_Control M_Signer.

(* the type of a member and the functions that write and read it:
   DNum uint64_t; DStr std::string; DText a string that counts as absent if it is empty (face-query-filter.hpp:86-142);
   DEnum an enumeration over an unsigned type with the given number of values; DTime a duration, a signed 64-bit count;
   DLimit the same, where the largest value stands for absence (rib-entry.cpp:72-80); DStamp a time_point of system_clock,
   nanoseconds, sent in milliseconds; DBits a std::bitset; DName a Name; DNested a Name inside an element *)
Inductive dkind := DNum | DStr | DText | DEnum (limit : N) | DTime | DLimit | DStamp | DBits (bits : N) | DName | DNested.
(* w_default: the initial value of the member; None for the fields that are optional *)
Record row := mkRow { w_type : N; w_kind : dkind; w_default : option cval }.
Definition required (r : row) : bool := match w_default r with Some _ => true | None => false end.
(* ty_sub: the type and the fields of the elements that follow, if any *)
Record dtype := mkTy { ty_type : N; ty_rows : list row; ty_sub : option (N * list row) }.

Definition num (t : N) : row := mkRow t DNum (Some (VNum 0)).
Definition optnum (t : N) : row := mkRow t DNum None.
Definition text (t : N) : row := mkRow t DStr (Some (VStr [])).
(* channel-status.cpp:34-80 *)
Definition tyChannelStatus : dtype := mkTy 130 [text 129] None.
(* strategy-choice.cpp:36-98 *)
Definition tyStrategyChoice : dtype := mkTy 128 [mkRow 7 DName (Some (VName nm_empty)); mkRow 107 DNested (Some (VName nm_empty))] None.
(* cs-info.cpp:36-119, cs-info.hpp:127-133 *)
Definition tyCsInfo : dtype := mkTy 128 [num 131; mkRow 108 (DBits 2) (Some (VNum 0)); num 135; num 129; num 130] None.
(* face-event-notification.cpp:37-147, face-traits.hpp:175-181, face-event-notification.hpp:69 *)
Definition faceId : row := num 105.
Definition scope : row := mkRow 132 (DEnum 256) (Some (VNum 0)).
Definition persistency : row := mkRow 133 (DEnum 256) (Some (VNum 0)).
Definition linkType : row := mkRow 134 (DEnum 256) (Some (VNum 0)).
Definition tyFaceEventNotification : dtype :=
  mkTy 192 [mkRow 193 (DEnum 256) (Some (VNum 0)); faceId; text 114; text 129; scope; persistency; linkType; num 108] None.
(* face-query-filter.cpp:35-162 *)
Definition tyFaceQueryFilter : dtype :=
  mkTy 150 [optnum 105; mkRow 131 DText None; mkRow 114 DText None; mkRow 129 DText None; mkRow 132 (DEnum 256) None; mkRow 133 (DEnum 256) None; mkRow 134 (DEnum 256) None] None.
(* face-status.cpp:37-263 *)
Definition tyFaceStatus : dtype :=
  mkTy 128 [faceId; text 114; text 129; mkRow 109 DTime None; scope; persistency; linkType; mkRow 135 DTime None; optnum 136; optnum 137;
            num 144; num 145; num 151; num 146; num 147; num 152; num 148; num 149; num 108] None.
(* fib-entry.cpp:55-110, 157-224 *)
Definition nextHopRows : list row := [faceId; num 106].
Definition tyNextHopRecord : dtype := mkTy 129 nextHopRows None.
Definition tyFibEntry : dtype := mkTy 128 [mkRow 7 DName (Some (VName nm_empty))] (Some (129, nextHopRows)).
(* rib-entry.cpp:87-175, 245-303, rib-entry.hpp:120-124 *)
Definition routeRows : list row := [faceId; mkRow 111 (DEnum 65536) (Some (VNum 0)); num 106; mkRow 108 DNum (Some (VNum 1)); mkRow 109 DLimit None].
Definition tyRoute : dtype := mkTy 129 routeRows None.
Definition tyRibEntry : dtype := mkTy 128 [mkRow 7 DName (Some (VName nm_empty))] (Some (129, routeRows)).
(* forwarder-status.cpp:36-226 *)
Definition tyForwarderStatus : dtype :=
  mkTy 21 [text 128; mkRow 129 DStamp (Some (VTime 0)); mkRow 130 DStamp (Some (VTime 0)); num 131; num 132; num 133; num 134; num 135;
           num 144; num 145; num 151; num 146; num 147; num 152; num 153; num 154] None.

(* prependNonNegativeIntegerBlock, prependStringBlock, Name::wireEncode, prependNestedBlock *)
Definition dv_octets (t : N) (k : dkind) (v : cval) : bytes :=
  match k, v with
  | DName, VName n => nm_octets n
  | DNested, VName n => tlv_enc t (nm_octets n)
  | (DStr | DText), VStr s => tlv_enc t s
  | (DTime | DLimit), VTime z => tlv_nni t (time_u64 z)
  | DStamp, VTime z => tlv_nni t (unix_ms z)
  | (DNum | DEnum _ | DBits _), VNum n => tlv_nni t n
  | _, _ => []     (* not a value of this member *)
  end.
(* readNonNegativeInteger, readNonNegativeIntegerAs, readString, Name::wireDecode; strategy-choice.cpp:88-93;
   time::fromUnixTimestamp(time::milliseconds(n)), where the conversion to nanoseconds may overflow *)
Definition dv_decode (k : dkind) (e : elem) : res (option cval) :=
  match k with
  | DName => let! n := nm_decode e in Ok (Some (VName n))
  | DNested => let! es := parseValue (e_val e) in match es with [] => Err ETlv | x :: _ => let! n := nm_decode x in Ok (Some (VName n)) end
  | DStr => Ok (Some (VStr (e_val e)))
  | DText => Ok (match e_val e with [] => None | _ => Some (VStr (e_val e)) end)
  | DTime | DLimit => let! n := readNNIBlock e in Ok (Some (VTime (u64_time n)))
  | DStamp => let! n := readNNIBlock e in let! z := i64 (u64_time n * 1000000) in Ok (Some (VTime z))
  | DNum => let! n := readNNIBlock e in Ok (Some (VNum n))
  | DEnum limit => let! n := readNNIBlockAs limit e in Ok (Some (VNum n))
  | DBits bits => let! n := readNNIBlock e in Ok (Some (VNum (n mod 2 ^ bits)))
  end.

Definition vals : Type := list (option cval).
(* wireEncode(encoder), the fields *)
Fixpoint rows_octets (rs : list row) (vs : vals) : bytes :=
  match rs, vs with
  | r :: rs', v :: vs' => match v with Some x => dv_octets (w_type r) (w_kind r) x | None => [] end ++ rows_octets rs' vs'
  | _, _ => []
  end.
(* wireDecode: the fields, and the elements that remain *)
Fixpoint rows_decode (rs : list row) (es : list elem) : res (vals * list elem) :=
  match rs with
  | [] => Ok ([], es)
  | r :: rs' =>
      match es with
      | e :: es' =>
          if e_type e =? w_type r
          then let! v := dv_decode (w_kind r) e in let! x := rows_decode rs' es' in Ok (v :: fst x, snd x)
          else if required r then Err ETlv else let! x := rows_decode rs' es in Ok (None :: fst x, snd x)
      | [] => if required r then Err ETlv else let! x := rows_decode rs' [] in Ok (None :: fst x, snd x)
      end
  end.

(* do_subs: m_nextHopRecords, m_routes *)
Record dobj := mkObj { do_vals : vals; do_subs : list vals; do_wire : option elem }.
Definition do_new (ty : dtype) : dobj := mkObj (map w_default (ty_rows ty)) [] None.

(* fib-entry.cpp:218-223, rib-entry.cpp:297-302 with the constructors NextHopRecord(Block), Route(Block) *)
Fixpoint subs_decode (t : N) (rs : list row) (es : list elem) : res (list vals) :=
  match es with
  | [] => Ok []
  | e :: es' =>
      if negb (e_type e =? t) then Err ETlv
      else let! xs := parseValue (e_val e) in let! v := rows_decode rs xs in let! l := subs_decode t rs es' in Ok (fst v :: l)
  end.
Definition ty_value (ty : dtype) (o : dobj) : bytes :=
  rows_octets (ty_rows ty) (do_vals o) ++
  match ty_sub ty with None => [] | Some (t, rs) => concat (map (fun v => tlv_enc t (rows_octets rs v)) (do_subs o)) end.
(* wireEncode() *)
Definition ty_encode (ty : dtype) (o : dobj) : res (elem * dobj) :=
  match do_wire o with
  | Some e => Ok (e, o)
  | None =>
      let! w := alloc (tlv_enc (ty_type ty) (ty_value ty o)) in
      let! e := blockFromWire w in
      Ok (e, mkObj (do_vals o) (do_subs o) (Some e))
  end.
(* wireDecode(Block); what follows the fields is ignored, except in FibEntry and RibEntry *)
Definition ty_decode (ty : dtype) (e : elem) : res dobj :=
  if negb (e_type e =? ty_type ty) then Err ETlv
  else
    let! es := parseValue (e_val e) in
    let! x := rows_decode (ty_rows ty) es in
    match ty_sub ty with
    | None => Ok (mkObj (fst x) [] (Some e))
    | Some (t, rs) => let! l := subs_decode t rs (snd x) in Ok (mkObj (fst x) l (Some e))
    end.

(* a setter: face-query-filter.hpp:86-142, rib-entry.cpp:72-80; the others store the value *)
Definition dv_set (k : dkind) (v : cval) : option cval :=
  match k, v with
  | DText, VStr [] => None
  | DLimit, VTime z => if (z =? 2 ^ 63 - 1)%Z then None else Some v
  | _, _ => Some v
  end.
Fixpoint put (i : nat) (v : option cval) (vs : vals) : vals :=
  match i, vs with
  | _, [] => []
  | O, _ :: vs' => v :: vs'
  | S i', x :: vs' => x :: put i' v vs'
  end.
Inductive dop :=
  | DSet (i : nat) (v : cval)          (* the setter of field i *)
  | DUnset (i : nat)                   (* the function that unsets field i, which is optional *)
  | DAddSub (vs : vals)                (* addNextHopRecord, addRoute *)
  | DClearSubs                         (* clearNextHopRecords, clearRoutes *)
  | DEncode
  | DDecode (e : elem).
(* None: there is no such function, or wireDecode throws *)
Definition do_step (ty : dtype) (x : dop) (o : dobj) : option dobj :=
  match x with
  | DSet i v => match nth_error (ty_rows ty) i with Some r => Some (mkObj (put i (dv_set (w_kind r) v) (do_vals o)) (do_subs o) None) | None => None end
  | DUnset i => match nth_error (ty_rows ty) i with
                | Some r => if required r then None else Some (mkObj (put i None (do_vals o)) (do_subs o) None) | None => None end
  | DAddSub vs => match ty_sub ty with Some _ => Some (mkObj (do_vals o) (do_subs o ++ [vs]) None) | None => None end
  | DClearSubs => match ty_sub ty with Some _ => Some (mkObj (do_vals o) [] None) | None => None end
  | DEncode => match ty_encode ty o with Ok (_, o') => Some o' | Err _ => Some o end
  | DDecode e => match ty_decode ty e with Ok o' => Some o' | Err _ => None end
  end.
Fixpoint do_run (ty : dtype) (l : list dop) (o : dobj) : option dobj :=
  match l with [] => Some o | x :: l' => match do_step ty x o with Some o' => do_run ty l' o' | None => None end end.

(* face-traits.hpp:142-150 getFlagBit, 152-170 setFlagBit, on m_flags *)
Definition ft_getBit (bit flags : N) : res bool :=
  if 64 <=? bit then Err EOutOfRange else let! m := one_shl bit in Ok (negb (N.land flags m =? 0)).
Definition ft_setBit (bit : N) (value : bool) (flags : N) : res N :=
  if 64 <=? bit then Err EOutOfRange else let! m := one_shl bit in Ok (if value then N.lor flags m else N.land flags (not64 m)).

(* operator== of FibEntry (fib-entry.cpp:229-250) and RibEntry (rib-entry.cpp:306-327) on the lists: matched[i] tells which
   elements of the second list have been found *)
Section Match.
Variable A : Type.
Variable eqb : A -> A -> bool.
Fixpoint mark (x : A) (bs : list (A * bool)) : option (list (A * bool)) :=
  match bs with
  | [] => None
  | (b, m) :: bs' => if negb m && eqb b x then Some ((b, true) :: bs') else match mark x bs' with Some l => Some ((b, m) :: l) | None => None end
  end.
Fixpoint all_marked (l : list A) (bs : list (A * bool)) : bool :=
  match l with [] => true | x :: l' => match mark x bs with Some bs' => all_marked l' bs' | None => false end end.
Definition same_list (a b : list A) : bool := Nat.eqb (List.length a) (List.length b) && all_marked a (map (fun x => (x, false)) b).
End Match.

(* operator== on a field: a getter returns the largest duration if Route's ExpirationPeriod is absent (rib-entry.hpp:97-101) *)
Definition period (v : option cval) : option cval := match v with None => Some (VTime (2 ^ 63 - 1)) | _ => v end.
Definition val_eqb (k : dkind) (a b : option cval) : bool :=
  match (match k with DLimit => period a | _ => a end), (match k with DLimit => period b | _ => b end) with
  | None, None => true
  | Some (VName n), Some (VName m) => nm_equals n m
  | Some (VNum n), Some (VNum m) => n =? m
  | Some (VStr s), Some (VStr t) => bytes_eqb s t
  | Some (VTime y), Some (VTime z) => (y =? z)%Z
  | _, _ => false
  end.
Fixpoint rows_eqb (rs : list row) (a b : vals) : bool :=
  match rs, a, b with
  | r :: rs', x :: a', y :: b' => val_eqb (w_kind r) x y && rows_eqb rs' a' b'
  | [], [], [] => true
  | _, _, _ => false     (* not the fields of an object *)
  end.
(* operator==: channel-status.cpp:92-96, strategy-choice.cpp:116-120, cs-info.cpp:170-179, face-event-notification.cpp:159-170,
   face-query-filter.cpp:284-301, face-status.cpp:389-417, fib-entry.cpp:117-122, 229-250, rib-entry.cpp:181-189, 306-327,
   forwarder-status.cpp:352-371; each compares every field *)
Definition do_eqb (ty : dtype) (a b : dobj) : bool :=
  rows_eqb (ty_rows ty) (do_vals a) (do_vals b) &&
  match ty_sub ty with None => true | Some (_, rs) => same_list vals (fun x y => rows_eqb rs x y) (do_subs a) (do_subs b) end.

(* status-dataset.cpp:37-62 parseDatasetVector: the octets from an offset on.  StatusDatasetParseError is a tlv::Error. *)
Fixpoint parse_vector (fuel : nat) (ty : dtype) (w : bytes) : res (list dobj) :=
  match fuel with
  | O => Err EFuel
  | S fuel' =>
      match w with
      | [] => Ok []
      | _ =>
          match fromBuffer w with
          | None => Err ETlv
          | Some (e, r) => let! o := ty_decode ty e in let! l := parse_vector fuel' ty r in Ok (o :: l)
          end
      end
  end.
Definition parseDatasetVector (ty : dtype) (w : bytes) : res (list dobj) := parse_vector (S (List.length w)) ty w.
(* status-dataset.cpp:69-73 ForwarderGeneralStatusDataset::parseResult: Block(tlv::Content, payload) *)
Definition parseForwarderStatus (w : bytes) : res dobj := ty_decode tyForwarderStatus (mkBlock 21 w).
(* status-dataset.cpp:132-136 CsInfoDataset::parseResult: Block(payload) *)
Definition parseCsInfo (w : bytes) : res dobj := let! e := blockFromWire w in ty_decode tyCsInfo e.

(* control-response.hpp:82-86; cr_body: m_body if it has wire *)
Record cresp := mkCr { cr_code : N; cr_text : bytes; cr_body : option elem; cr_wire : option elem }.
Definition cr_empty : cresp := mkCr 200 [] None None.
(* control-response.cpp:66-82 wireEncode, with Block::encode *)
Definition cr_encode (c : cresp) : res (elem * cresp) :=
  match cr_wire c with
  | Some e => Ok (e, c)
  | None =>
      let v := tlv_nni 102 (cr_code c) ++ tlv_enc 103 (cr_text c) ++ match cr_body c with Some b => e_wire b | None => [] end in
      let! w := alloc (tlv_enc 101 v) in
      let e := mkBlock 101 v in
      Ok (e, mkCr (cr_code c) (cr_text c) (cr_body c) (Some e))
  end.
(* control-response.cpp:84-115 wireDecode *)
Definition cr_decode (e : elem) : res cresp :=
  if negb (e_type e =? 101) then Err ETlv
  else
    let! es := parseValue (e_val e) in
    match es with
    | a :: es1 =>
        if negb (e_type a =? 102) then Err ETlv
        else
          let! code := readNNIBlockAs two32 a in
          match es1 with
          | b :: es2 => if negb (e_type b =? 103) then Err ETlv else Ok (mkCr code (e_val b) (hd_error es2) (Some e))
          | [] => Err ETlv
          end
    | [] => Err ETlv
    end.
(* control-response.cpp:42-63 *)
Inductive crop := CrCode (n : N) | CrText (s : bytes) | CrBody (b : elem) | CrEncode | CrDecode (e : elem).
Definition cr_step (o : crop) (c : cresp) : option cresp :=
  match o with
  | CrCode n => Some (mkCr n (cr_text c) (cr_body c) None)
  | CrText s => Some (mkCr (cr_code c) s (cr_body c) None)
  | CrBody b => Some (mkCr (cr_code c) (cr_text c) (Some b) None)
  | CrEncode => match cr_encode c with Ok (_, c') => Some c' | Err _ => Some c end
  | CrDecode e => match cr_decode e with Ok c' => Some c' | Err _ => None end
  end.
Fixpoint cr_run (l : list crop) (c : cresp) : option cresp :=
  match l with [] => Some c | o :: l' => match cr_step o c with Some c' => cr_run l' c' | None => None end end.

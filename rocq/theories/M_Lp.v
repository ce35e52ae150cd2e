(* NDNLPv2 packets: lp/packet.{hpp,cpp}, lp/field-decl.hpp, lp/fields.hpp, lp/nack-header.cpp,
   lp/cache-policy.cpp, lp/pit-token.{hpp,cpp}, lp/prefix-announcement-header.cpp. *)
From Verif Require Import Base M_Tlv.

(* lp/tlv.hpp:34-53 *)
Definition tLpPacket : N := 100.
Definition tNackReason : N := 801.
Definition tCachePolicyType : N := 821.
Definition HEADER3_MIN : N := 800.
Definition HEADER3_MAX : N := 959.

(* lp/fields.hpp:125-140 FieldSet *)
Inductive lpf := FFragment | FSequence | FFragIndex | FFragCount | FPitToken | FNack | FNextHopFaceId | FIncomingFaceId |
  FCachePolicy | FCongestionMark | FAck | FTxSequence | FNonDiscovery | FPrefixAnnouncement.
Definition FieldSet : list lpf := [FFragment; FSequence; FFragIndex; FFragCount; FPitToken; FNack; FNextHopFaceId; FIncomingFaceId;
  FCachePolicy; FCongestionMark; FAck; FTxSequence; FNonDiscovery; FPrefixAnnouncement].
(* FIELD::TlvType, lp/fields.hpp:47-120 with lp/tlv.hpp:35-52 *)
Definition lf_type (f : lpf) : N :=
  match f with
  | FFragment => 80 | FSequence => 81 | FFragIndex => 82 | FFragCount => 83 | FPitToken => 98 | FNack => 800 | FNextHopFaceId => 816
  | FIncomingFaceId => 812 | FCachePolicy => 820 | FCongestionMark => 832 | FAck => 836 | FTxSequence => 840 | FNonDiscovery => 844
  | FPrefixAnnouncement => 848
  end.
(* FIELD::IsRepeatable *)
Definition lf_repeatable (f : lpf) : bool := match f with FAck => true | _ => false end.
(* FIELD::FieldLocation through getLocationSortOrder, lp/packet.cpp:32-40 *)
Definition lf_location (f : lpf) : N := match f with FFragment => 2 | _ => 1 end.

(* lp/packet.cpp:42-72 FieldInfo *)
Record finfo := mkInfo { fi_type : N; fi_recognized : bool; fi_ignore : bool; fi_repeat : bool; fi_loc : N }.
Definition FieldInfo (t : N) : finfo :=
  match List.find (fun f => lf_type f =? t) FieldSet with
  | Some f => mkInfo t true false (lf_repeatable f) (lf_location f)
  | None => mkInfo t false ((HEADER3_MIN <=? t) && (t <=? HEADER3_MAX) && (N.land t 3 =? 0)) false 1
  end.
(* lp/packet.cpp:74-79 compareFieldSortOrder *)
Definition cmpField (a b : finfo) : bool :=
  (fi_loc a <? fi_loc b) || ((fi_loc a =? fi_loc b) && (fi_type a <? fi_type b)).

(* ---- field values ---- *)
(* FIELD::ValueType: a range of octets, an integer, a NackHeader or a CachePolicy (the number held by
   m_reason or m_policy, an int), the empty value, or a prefix announcement (the element of its Data;
   interpreting that Data as a PrefixAnnouncement is not part of this model). *)
Inductive lpv := VRange (b : bytes) | VNum (n : N) | VEnum (z : Z) | VEmpty | VAnn (d : elem).
Inductive lpk := KRange | KNni | KU64 | KNack | KCache | KEmpty | KAnn.
(* the DECODER_TAG and ENCODER_TAG of each field, lp/fields.hpp:47-120 *)
Definition lf_kind (f : lpf) : lpk :=
  match f with
  | FFragment | FPitToken => KRange
  | FSequence | FAck | FTxSequence => KU64
  | FFragIndex | FFragCount | FNextHopFaceId | FIncomingFaceId | FCongestionMark => KNni
  | FNack => KNack | FCachePolicy => KCache | FNonDiscovery => KEmpty | FPrefixAnnouncement => KAnn
  end.
(* the C++ type of the value *)
Definition lv_typed (f : lpf) (v : lpv) : Prop :=
  match lf_kind f, v with
  | KRange, VRange _ => True
  | (KNni | KU64), VNum n => n < two64
  | (KNack | KCache), VEnum z => (- 2 ^ 31 <= z < 2 ^ 31)%Z
  | KEmpty, VEmpty => True
  | KAnn, VAnn d => True
  | _, _ => False
  end.

Definition lp_block (t : N) (v : bytes) : res elem := let! w := alloc (tlv_enc t v) in Ok (mkBlock t v).
(* static_cast<uint64_t>(int) *)
Definition u64_of_int (z : Z) : N := Z.to_N (z mod 2 ^ 64).
(* readNonNegativeIntegerAs<int>, block-helpers.hpp:92-103,113-118 *)
Definition readInt (e : elem) : res Z := let! n := readNNIBlockAs (2 ^ 31) e in Ok (Z.of_N n).

(* lp/nack-header.cpp:62-73 wireEncode *)
Definition nack_encode (reason : Z) : res elem := lp_block 800 (tlv_nni tNackReason (u64_of_int reason)).
(* lp/nack-header.cpp:93-115 wireDecode: m_reason *)
Definition nack_decode (e : elem) : res Z :=
  if negb (e_type e =? 800) then Err ETlv else
  let! es := parseValue (e_val e) in
  match es with
  | [] => Ok 0%Z
  | x :: _ => if e_type x =? tNackReason then readInt x else Err ETlv
  end.
(* lp/nack-header.cpp:117-128 getReason *)
Definition nack_getReason (reason : Z) : Z :=
  if ((reason =? 50) || (reason =? 100) || (reason =? 150))%Z then reason else 0%Z.
(* lp/nack-header.cpp:43-54 isLessSevere *)
Definition isLessSevere (x y : Z) : bool :=
  if (x =? 0)%Z then false else if (y =? 0)%Z then true else (x <? y)%Z.

(* lp/cache-policy.cpp:106-115 getPolicy *)
Definition cp_getPolicy (p : Z) : Z := if (p =? 1)%Z then p else 0%Z.
(* lp/cache-policy.cpp:43-58 wireEncode *)
Definition cp_encode (p : Z) : res elem :=
  if (p =? 0)%Z then Err ETlv else lp_block 820 (tlv_nni tCachePolicyType (u64_of_int p)).
(* lp/cache-policy.cpp:82-104 wireDecode: m_policy *)
Definition cp_decode (e : elem) : res Z :=
  if negb (e_type e =? 820) then Err ETlv else
  let! es := parseValue (e_val e) in
  match es with
  | x :: _ => if e_type x =? tCachePolicyType then
                let! p := readInt x in if (cp_getPolicy p =? 0)%Z then Err ETlv else Ok p
              else Err ETlv
  | [] => Err ETlv
  end.

(* lp/pit-token.cpp:30-37 validate; pit-token.hpp:47-61: a PitToken from, and to, the value of the field *)
Definition pt_valid (b : bytes) : bool := negb ((nlen b <? 1) || (32 <? nlen b)).
Definition pt_ofField (b : bytes) : res bytes := if pt_valid b then Ok b else Err ETlv.
Definition pt_toField (b : bytes) : res bytes := if pt_valid b then Ok b else Err ETlv.

(* lp/field-decl.hpp:107-158, EncodeHelper; prefix-announcement-header.cpp:40-56 *)
Definition lf_encode (f : lpf) (v : lpv) : res elem :=
  match lf_kind f, v with
  | KRange, VRange b => lp_block (lf_type f) b
  | KNni, VNum n => lp_block (lf_type f) (encNNI n)
  | KU64, VNum n => lp_block (lf_type f) (be_enc 8 n)
  | KNack, VEnum z => nack_encode z
  | KCache, VEnum z => cp_encode z
  | KEmpty, VEmpty => lp_block (lf_type f) []
  | KAnn, VAnn d => lp_block (lf_type f) (e_wire d)
  | _, _ => Err ELogic   (* not well typed *)
  end.
(* lp/field-decl.hpp:39-105, 181-189 decode; prefix-announcement-header.cpp:58-68 *)
Definition lf_decode (f : lpf) (e : elem) : res lpv :=
  if negb (e_type e =? lf_type f) then Err ETlv else
  match lf_kind f with
  | KRange => if nlen (e_val e) =? 0 then Err ETlv else Ok (VRange (e_val e))
  | KNni => let! n := readNNIBlock e in Ok (VNum n)
  | KU64 => if negb (nlen (e_val e) =? 8) then Err ETlv else Ok (VNum (be_val (e_val e)))
  | KNack => let! z := nack_decode e in Ok (VEnum z)
  | KCache => let! z := cp_decode e in Ok (VEnum z)
  | KEmpty => if negb (nlen (e_val e) =? 0) then Err ETlv else Ok VEmpty
  | KAnn =>
      let! es := parseValue (e_val e) in
      let! d := of_opt ETlv (List.find (fun x => e_type x =? tData) es) in Ok (VAnn d)
  end.

(* ---- packets ---- *)
(* lp/packet.hpp:208 m_wire: its elements, and its wire while it is current (block.hpp:524-553) *)
Record lpp := mkLp { lp_es : list elem; lp_wire : option elem }.
Definition lp_default : lpp := mkLp [] None.

(* packet.hpp:65-69 *)
Definition lp_empty (p : lpp) : bool := match lp_es p with [] => true | _ => false end.
(* packet.hpp:85-92 *)
Definition lp_count (f : lpf) (p : lpp) : nat := length (filter (fun e => e_type e =? lf_type f) (lp_es p)).
(* packet.hpp:75-79 *)
Definition lp_has (f : lpf) (p : lpp) : bool := Nat.ltb 0 (lp_count f p).
(* packet.hpp:98-113: count counts the occurrences passed so far *)
Fixpoint lp_get_loop (f : lpf) (index count : nat) (es : list elem) : res lpv :=
  match es with
  | [] => Err EOutOfRange
  | e :: es' =>
      if negb (e_type e =? lf_type f) then lp_get_loop f index count es'
      else if Nat.eqb count index then lf_decode f e else lp_get_loop f index (S count) es'
  end.
Definition lp_get (f : lpf) (index : nat) (p : lpp) : res lpv := lp_get_loop f index 0 (lp_es p).
(* packet.hpp:118-132 *)
Fixpoint lp_list_loop (f : lpf) (es : list elem) : res (list lpv) :=
  match es with
  | [] => Ok []
  | e :: es' =>
      if negb (e_type e =? lf_type f) then lp_list_loop f es'
      else let! v := lf_decode f e in let! vs := lp_list_loop f es' in Ok (v :: vs)
  end.
Definition lp_list (f : lpf) (p : lpp) : res (list lpv) := lp_list_loop f (lp_es p).
(* packet.hpp:196-202; Block::remove *)
Definition lp_clear (f : lpf) (p : lpp) : lpp := mkLp (filter (fun e => negb (e_type e =? lf_type f)) (lp_es p)) None.
(* std::upper_bound with comparePos (packet.cpp:145-149) and Block::insert: the elements are kept sorted,
   so the binary search finds the first element that compares greater *)
Fixpoint lp_insert (t : N) (x : elem) (es : list elem) : list elem :=
  match es with
  | [] => [x]
  | e :: es' => if cmpField (FieldInfo t) (FieldInfo (e_type e)) then x :: es else e :: lp_insert t x es'
  end.
(* packet.hpp:150-169: the packet, and the exception if any *)
Definition lp_add (f : lpf) (v : lpv) (p : lpp) : lpp * option err :=
  if negb (lf_repeatable f) && lp_has f p then (p, Some EInvalidArg) else
  match lf_encode f v with
  | Err e => (p, Some e)
  | Ok x => (mkLp (lp_insert (lf_type f) x (lp_es p)) None, None)
  end.
(* packet.hpp:138-144 *)
Definition lp_set (f : lpf) (v : lpv) (p : lpp) : lpp * option err := lp_add f v (lp_clear f p).
(* packet.hpp:175-191 *)
Fixpoint lp_remove_loop (f : lpf) (index count : nat) (es : list elem) : option (list elem) :=
  match es with
  | [] => None
  | e :: es' =>
      if e_type e =? lf_type f then
        if Nat.eqb count index then Some es'
        else match lp_remove_loop f index (S count) es' with Some r => Some (e :: r) | None => None end
      else match lp_remove_loop f index count es' with Some r => Some (e :: r) | None => None end
  end.
Definition lp_remove (f : lpf) (index : nat) (p : lpp) : lpp * option err :=
  match lp_remove_loop f index 0 (lp_es p) with
  | Some es => (mkLp es None, None)
  | None => (p, Some EOutOfRange)
  end.

(* packet.cpp:120-140, the loop of wireDecode *)
Fixpoint lp_check (prev : option finfo) (es : list elem) : bool :=
  match es with
  | [] => true
  | e :: es' =>
      let info := FieldInfo (e_type e) in
      (fi_recognized info || fi_ignore info) &&
      match prev with
      | None => true
      | Some pr => if fi_type info =? fi_type pr then fi_repeat info else cmpField pr info
      end && lp_check (Some info) es'
  end.
(* packet.cpp:104-143 wireDecode *)
Definition lp_decode (w : elem) (p : lpp) : lpp * option err :=
  if (e_type w =? tInterest) || (e_type w =? tData) then lp_add FFragment (VRange (e_wire w)) lp_default else
  if negb (e_type w =? tLpPacket) then (p, Some ETlv) else
  match parseValue (e_val w) with
  | Err e => (p, Some e)
  | Ok es => if lp_check None es then (mkLp es (Some w), None) else (p, Some ETlv)
  end.
(* packet.cpp:90-102 wireEncode, and the packet afterwards.  When the packet is only a Fragment, its
   first element is returned; std::vector::front of an empty vector is undefined.  Otherwise
   Block::encode: elements are re-encoded with the shortest type and length (block.cpp:388-411). *)
Definition lp_encode (p : lpp) : res elem * lpp :=
  let encode :=
    match lp_wire p with
    | Some w => (Ok w, p)
    | None =>
        let es := map (fun e => mkBlock (e_type e) (e_val e)) (lp_es p) in
        match lp_block tLpPacket (concat (map e_wire es)) with
        | Ok w => (Ok w, mkLp es (Some w))
        | Err e => (Err e, p)
        end
    end in
  match lp_es p with
  | [x] => if e_type x =? 80 then
             (match parseValue (e_val x) with
              | Ok (y :: _) => Ok y
              | Ok [] => Err EUb
              | Err e => Err e
              end, p)
           else encode
  | _ => encode
  end.

(* ---- histories ---- *)
Inductive lop := LSet (f : lpf) (v : lpv) | LAdd (f : lpf) (v : lpv) | LRemove (f : lpf) (i : nat) | LClear (f : lpf) | LEncode | LDecode (w : elem).
(* exceptions are caught by the caller *)
Definition lp_step (o : lop) (p : lpp) : lpp :=
  match o with
  | LSet f v => fst (lp_set f v p)
  | LAdd f v => fst (lp_add f v p)
  | LRemove f i => fst (lp_remove f i p)
  | LClear f => lp_clear f p
  | LEncode => snd (lp_encode p)
  | LDecode w => fst (lp_decode w p)
  end.
Definition lp_run (l : list lop) (p : lpp) : lpp := fold_left (fun p o => lp_step o p) l p.

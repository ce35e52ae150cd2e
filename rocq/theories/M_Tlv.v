(* Model of ndn-cxx/encoding/tlv.hpp (number readers, sizes), encoding/encoder.cpp
   (number writers) and of the parsing parts of encoding/block.cpp, on octet lists.
   An iterator range [begin,end) is the list of octets it spans; a reader returns the
   remaining list instead of advancing `begin`. *)
From Verif Require Import Base.

(* ---- TLV-TYPE numbers: encoding/tlv.hpp:66-120 ---- *)
Definition tInvalid : N := 0.
Definition tInterest : N := 5.
Definition tData : N := 6.
Definition tName : N := 7.
Definition tGenericNameComponent : N := 8.
Definition tImplicitSha256DigestComponent : N := 1.
Definition tParametersSha256DigestComponent : N := 2.
Definition tKeywordNameComponent : N := 32.
Definition tSegmentNameComponent : N := 50.
Definition tByteOffsetNameComponent : N := 52.
Definition tVersionNameComponent : N := 54.
Definition tTimestampNameComponent : N := 56.
Definition tSequenceNumNameComponent : N := 58.
Definition tCanBePrefix : N := 33.
Definition tMustBeFresh : N := 18.
Definition tForwardingHint : N := 30.
Definition tNonce : N := 10.
Definition tInterestLifetime : N := 12.
Definition tHopLimit : N := 34.
Definition tApplicationParameters : N := 36.
Definition tInterestSignatureInfo : N := 44.
Definition tInterestSignatureValue : N := 46.
Definition tMetaInfo : N := 20.
Definition tContent : N := 21.
Definition tSignatureInfo : N := 22.
Definition tSignatureValue : N := 23.
Definition tContentType : N := 24.
Definition tFreshnessPeriod : N := 25.
Definition tFinalBlockId : N := 26.
Definition tSignatureType : N := 27.
Definition tKeyLocator : N := 28.
Definition tKeyDigest : N := 29.
Definition tSignatureNonce : N := 38.
Definition tSignatureTime : N := 40.
Definition tSignatureSeqNum : N := 42.
Definition tValidityPeriod : N := 253.
Definition tNotBefore : N := 254.
Definition tNotAfter : N := 255.

(* encoding/tlv.hpp:41 MAX_NDN_PACKET_SIZE *)
Definition MAX_NDN_PACKET_SIZE : N := 8800.

(* encoding/tlv.hpp:161-165 isCriticalType *)
Definition isCriticalType (t : N) : bool := (t <=? 31) || negb (t mod 2 =? 0).

(* ---- reading ---- *)

(* Value of octets read most significant first: encoding/tlv.hpp:317-347 (memcpy +
   big_to_native) and 351-355 (`number = (number << 8) | *begin`). *)
Definition be_val (l : bytes) : N := fold_left (fun acc b => acc * 256 + bn b) l 0.

(* encoding/tlv.hpp:308-358 detail::readNumber; both the fast and the slow path.
   Simplified: on failure the position of `begin` is not reported (callers discard it). *)
Definition readNumber (size : N) (inp : bytes) : option (N * bytes) :=
  if nlen inp <? size then None
  else Some (be_val (ntake size inp), ndrop size inp).

(* encoding/tlv.hpp:362-378 readVarNumber (non-throwing) *)
Definition readVarNumber (inp : bytes) : option (N * bytes) :=
  match inp with
  | [] => None
  | b :: rest =>
      let firstOctet := bn b in
      if firstOctet <? 253 then Some (firstOctet, rest)
      else readNumber (2 ^ (N.land firstOctet 3)) rest
  end.

(* encoding/tlv.hpp:380-392 readType (non-throwing) *)
Definition readType (inp : bytes) : option (N * bytes) :=
  match readVarNumber inp with
  | None => None
  | Some (n, rest) =>
      if (n =? tInvalid) || (4294967295 <? n) then None else Some (n, rest)
  end.

(* encoding/tlv.hpp:394-405 readVarNumber (throwing) *)
Definition readVarNumberX (inp : bytes) : res (N * bytes) := of_opt ETlv (readVarNumber inp).

(* encoding/tlv.hpp:407-417 readType (throwing) *)
Definition readTypeX (inp : bytes) : res (N * bytes) :=
  let! r := readVarNumberX inp in
  let (n, rest) := r in
  if (n =? tInvalid) || (4294967295 <? n) then Err ETlv else Ok (n, rest).

(* encoding/tlv.hpp:419-425 sizeOfVarNumber *)
Definition sizeOfVarNumber (n : N) : N :=
  if n <? 253 then 1
  else if n <=? 65535 then 3
  else if n <=? 4294967295 then 5 else 9.

(* encoding/tlv.hpp:427-442 readNonNegativeInteger *)
Definition readNonNegativeInteger (len : N) (inp : bytes) : res (N * bytes) :=
  if negb ((len =? 1) || (len =? 2) || (len =? 4) || (len =? 8)) then Err ETlv
  else of_opt ETlv (readNumber len inp).

(* encoding/tlv.hpp:444-450 sizeOfNonNegativeInteger *)
Definition sizeOfNonNegativeInteger (n : N) : N :=
  if n <=? 255 then 1
  else if n <=? 65535 then 2
  else if n <=? 4294967295 then 4 else 8.

(* ---- writing ---- *)

(* The k low-order octets of n, most significant first: boost::endian::native_to_big on an
   unsigned integer of k octets, as used in encoding/encoder.cpp:108-200. *)
Fixpoint be_enc (k : nat) (n : N) : bytes :=
  match k with
  | O => []
  | S k' => nb (n / 256 ^ N.of_nat k') :: be_enc k' n
  end.

(* encoding/encoder.cpp:108-133 prependVarNumber, 135-160 appendVarNumber: octets added.
   The argument is a uint64_t; for n >= 2^64 the model keeps the low 64 bits. *)
Definition encVarNumber (n : N) : bytes :=
  if n <? 253 then [nb n]
  else if n <=? 65535 then nb 253 :: be_enc 2 n
  else if n <=? 4294967295 then nb 254 :: be_enc 4 n
  else nb 255 :: be_enc 8 n.

(* encoding/encoder.cpp:162-200 prependNonNegativeInteger, appendNonNegativeInteger *)
Definition encNNI (n : N) : bytes :=
  if n <=? 255 then [nb n]
  else if n <=? 65535 then be_enc 2 n
  else if n <=? 4294967295 then be_enc 4 n
  else be_enc 8 n.

(* A TLV element as every prepend*Block helper writes it: value, then length, then type, in
   front (encoding/block-helpers.cpp:30-38, 60-69, 137-148; block-helpers.hpp:304-359). *)
Definition tlv_enc (t : N) (v : bytes) : bytes :=
  encVarNumber t ++ encVarNumber (nlen v) ++ v.

(* encoding/block-helpers.cpp:60-69 prependNonNegativeIntegerBlock *)
Definition tlv_nni (t : N) (n : N) : bytes := tlv_enc t (encNNI n).

(* ---- elements found in a wire ---- *)

(* A Block that refers to a complete element inside a buffer (encoding/block.hpp, members
   m_buffer, m_begin, m_end, m_valueBegin, m_valueEnd, m_type): its type, the octets of its
   type and length fields as received, and its value. *)
Record elem := mkElem { e_type : N; e_hdr : bytes; e_val : bytes }.

(* octets [m_begin, m_end) *)
Definition e_wire (e : elem) : bytes := e_hdr e ++ e_val e.

(* Element produced by an encoder: encoding/block-helpers.cpp:156-166 makeBinaryBlock and the
   other make*Block functions *)
Definition mkBlock (t : N) (v : bytes) : elem :=
  mkElem t (encVarNumber t ++ encVarNumber (nlen v)) v.

(* encoding/block-helpers.cpp:77-87 makeNonNegativeIntegerBlock *)
Definition mkNNIBlock (t n : N) : elem := mkBlock t (encNNI n).

(* encoding/block-helpers.cpp:46-56 makeEmptyBlock *)
Definition mkEmptyBlock (t : N) : elem := mkBlock t [].

(* encoding/block.cpp:192-219 Block::fromBuffer(span) and 164-190 fromBuffer(buffer, offset)
   with the octets from offset on: the element at the beginning, and what follows it. *)
Definition fromBuffer (inp : bytes) : option (elem * bytes) :=
  match readType inp with
  | None => None
  | Some (t, r1) =>
      match readVarNumber r1 with
      | None => None
      | Some (len, r2) =>
          if nlen r2 <? len then None
          else Some (mkElem t (ntake (nlen inp - nlen r2) inp) (ntake len r2), ndrop len r2)
      end
  end.

(* encoding/block.cpp:54-76 Block(span): same, throwing *)
Definition blockFromSpan (inp : bytes) : res elem :=
  let! r := readTypeX inp in
  let (t, r1) := r in
  let! r' := readVarNumberX r1 in
  let (len, r2) := r' in
  if nlen r2 <? len then Err ETlv
  else Ok (mkElem t (ntake (nlen inp - nlen r2) inp) (ntake len r2)).

(* encoding/block.cpp:78-115 Block(buffer[, begin, end], verifyLength = true): the octets must
   be exactly one element.  An empty buffer is std::invalid_argument. *)
Definition blockFromWire (inp : bytes) : res elem :=
  match inp with
  | [] => Err EInvalidArg
  | _ =>
    let! r := readTypeX inp in
    let (t, r1) := r in
    let! r' := readVarNumberX r1 in
    let (len, r2) := r' in
    if negb (len =? nlen r2) then Err ETlv
    else Ok (mkElem t (ntake (nlen inp - nlen r2) inp) r2)
  end.

(* encoding/block.cpp:313-321 Block::blockFromValue *)
Definition blockFromValue (e : elem) : res elem :=
  if nlen (e_val e) =? 0 then Err ETlv else blockFromWire (e_val e).

(* encoding/block.cpp:221-251 Block::fromStream.  The stream is the list of octets still to be
   read; std::istream::putback (229-231) is taken to succeed.  tlSize + length is computed
   modulo 2^64 as in the code (233-234).  Returns the element (re-encoded with the shortest
   type and length) and the rest of the stream. *)
Definition fromStream (inp : bytes) : res (elem * bytes) :=
  let! r := readTypeX inp in
  let (t, r1) := r in
  let! r' := readVarNumberX r1 in
  let (len, r2) := r' in
  let tlSize := sizeOfVarNumber t + sizeOfVarNumber len in
  if MAX_NDN_PACKET_SIZE <? (tlSize + len) mod two64 then Err ETlv
  else if nlen r2 <? len then Err ETlv
  else Ok (mkElem t (encVarNumber t ++ encVarNumber len) (ntake len r2), ndrop len r2).

(* encoding/block.cpp:334-349, the loop of Block::parse: elements of a TLV-VALUE, together
   with how the loop ended.  The list contains the elements completed before a failure. *)
Inductive parse_end :=
| PDone        (* begin == end *)
| PBadHeader   (* readType / readVarNumber threw: m_elements keeps what was found so far *)
| PTooLong     (* length exceeds the parent value: m_elements.clear() before the throw *)
| PFuel.

Fixpoint parse_loop (fuel : nat) (v : bytes) : list elem * parse_end :=
  match fuel with
  | O => ([], PFuel)
  | S fuel' =>
      match v with
      | [] => ([], PDone)
      | _ =>
          match readType v with
          | None => ([], PBadHeader)
          | Some (t, r1) =>
              match readVarNumber r1 with
              | None => ([], PBadHeader)
              | Some (len, r2) =>
                  if nlen r2 <? len then ([], PTooLong)
                  else
                    let e := mkElem t (ntake (nlen v - nlen r2) v) (ntake len r2) in
                    let (es, st) := parse_loop fuel' (ndrop len r2) in
                    (e :: es, st)
              end
          end
      end
  end.

(* encoding/block.cpp:325-350 Block::parse on a block whose elements are not parsed yet *)
Definition parseValue (v : bytes) : res (list elem) :=
  match parse_loop (S (length v)) v with
  | (es, PDone) => Ok es
  | (_, PFuel) => Err EFuel
  | (_, _) => Err ETlv
  end.

(* encoding/block-helpers.cpp:89-94 readNonNegativeInteger(Block) *)
Definition readNNIBlock (e : elem) : res N :=
  let! r := readNonNegativeInteger (nlen (e_val e)) (e_val e) in Ok (fst r).

(* encoding/block-helpers.hpp:92-103 readNonNegativeIntegerAs<R> for an unsigned R with the
   given number of values *)
Definition readNNIBlockAs (limit : N) (e : elem) : res N :=
  let! n := readNNIBlock e in if limit <=? n then Err ETlv else Ok n.

(* encoding/block.cpp:483-490 Block::equals on blocks with a value *)
Definition elem_eqb (a b : elem) : bool :=
  (e_type a =? e_type b) && (nlen (e_val a) =? nlen (e_val b)) && bytes_eqb (e_val a) (e_val b).

(* Constructing the Buffer of an EncodingBuffer: std::vector<uint8_t> throws std::length_error
   beyond max_size(), 2^63 - 1 octets. *)
Definition MAX_BUFFER : N := 9223372036854775807.
Definition alloc (w : bytes) : res bytes := if MAX_BUFFER <? nlen w then Err ELength else Ok w.

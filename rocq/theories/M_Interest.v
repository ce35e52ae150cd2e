(* Model of interest.{hpp,cpp} and of KeyChain::sign(Interest).

   As in M_Packet, wireEncode(encoder) is given front to back, and operations that may change the
   object before throwing return the object left behind and the exception. *)
From Verif Require Import Base M_Tlv M_Str M_Name M_Packet.

(* interest.hpp:469-485.  The elements of m_parameters always have a wire. *)
Record interest := mkInt {
  i_name : name; i_cbp : bool; i_mbf : bool; i_fh : list name; i_nonce : option bytes;
  i_life : N; i_hop : option byte; i_params : list elem; i_wire : option elem }.
(* interest.hpp:44 DEFAULT_INTEREST_LIFETIME, 4 s *)
Definition DEFAULT_LIFETIME : N := 4000.
(* a default-constructed Interest *)
Definition in_default : interest := mkInt nm_empty false false [] None DEFAULT_LIFETIME None [] None.

Definition in_hasParams (i : interest) : bool := match i_params i with [] => false | _ => true end.

(* interest.cpp:749-761 findParametersDigestComponent *)
Inductive didx := DNone | DMany | DAt (j : nat).
Fixpoint digest_from (j : nat) (pos : didx) (cs : list comp) : didx :=
  match cs with
  | [] => pos
  | c :: cs' =>
      if isParametersSha256Digest c
      then match pos with DNone => digest_from (S j) (DAt j) cs' | _ => DMany end
      else digest_from (S j) pos cs'
  end.
Definition digestIndex (n : name) : didx := digest_from 0 DNone (n_comps n).

Definition in_setN (n : name) (i : interest) : interest :=
  mkInt n (i_cbp i) (i_mbf i) (i_fh i) (i_nonce i) (i_life i) (i_hop i) (i_params i) (i_wire i).
Definition in_setP (p : list elem) (i : interest) : interest :=
  mkInt (i_name i) (i_cbp i) (i_mbf i) (i_fh i) (i_nonce i) (i_life i) (i_hop i) p (i_wire i).
Definition in_setW (w : option elem) (i : interest) : interest :=
  mkInt (i_name i) (i_cbp i) (i_mbf i) (i_fh i) (i_nonce i) (i_life i) (i_hop i) (i_params i) w.

(* interest.cpp:51-121 wireEncode(encoder): the checks *)
Definition in_check (i : interest) : res unit :=
  match digestIndex (i_name i) with
  | DMany => Err EAssert
  | DNone => if in_hasParams i then Err ETlv else Ok tt
  | DAt _ => if in_hasParams i then Ok tt else Err ETlv
  end.
(* interest.cpp:82-117 the TLV-VALUE, with the nonce *)
Definition in_value (nonce : bytes) (i : interest) : bytes :=
  nm_octets (i_name i) ++
  (if i_cbp i then tlv_enc tCanBePrefix [] else []) ++
  (if i_mbf i then tlv_enc tMustBeFresh [] else []) ++
  (match i_fh i with [] => [] | l => tlv_enc tForwardingHint (concat (map nm_octets l)) end) ++
  tlv_enc tNonce nonce ++
  (if i_life i =? DEFAULT_LIFETIME then [] else tlv_nni tInterestLifetime (i_life i)) ++
  (match i_hop i with Some h => tlv_enc tHopLimit [h] | None => [] end) ++
  concat (map e_wire (i_params i)).

(* interest.cpp:178-218 the elements of ForwardingHint *)
Fixpoint fh_decode (es : list elem) : res (list name) :=
  match es with
  | [] => Ok []
  | e :: es' =>
      if e_type e =? tName then
        let! n := nm_decode e in let! r := fh_decode es' in Ok (n :: r)
      else if e_type e =? 31 then
        let! sub := parseValue (e_val e) in
        let! x := of_opt ETlv (List.find (fun x => e_type x =? tName) sub) in
        let! n := nm_decode x in let! r := fh_decode es' in Ok (n :: r)
      else if isCriticalType (e_type e) then Err ETlv
      else fh_decode es'
  end.

(* interest.cpp:170-301 the loop of wireDecode.  Simplified: a ForwardingHint that cannot be decoded
   leaves m_forwardingHint empty (in the code, the names decoded so far). *)
Fixpoint in_loop (es : list elem) (last : N) (i : interest) : interest * option err :=
  match es with
  | [] => (i, None)
  | e :: es' =>
      let '(mkInt n cbp mbf fh nonce life hop par w) := i in
      if e_type e =? tCanBePrefix then
        if 2 <=? last then (i, Some ETlv)
        else if negb (nlen (e_val e) =? 0) then (i, Some ETlv)
        else in_loop es' 2 (mkInt n true mbf fh nonce life hop par w)
      else if e_type e =? tMustBeFresh then
        if 3 <=? last then (i, Some ETlv)
        else if negb (nlen (e_val e) =? 0) then (i, Some ETlv)
        else in_loop es' 3 (mkInt n cbp true fh nonce life hop par w)
      else if e_type e =? tForwardingHint then
        if 4 <=? last then (i, Some ETlv)
        else match (let! sub := parseValue (e_val e) in fh_decode sub) with
             | Err x => (i, Some x)
             | Ok l => in_loop es' 4 (mkInt n cbp mbf (fh ++ l) nonce life hop par w)
             end
      else if e_type e =? tNonce then
        if 5 <=? last then (i, Some ETlv)
        else if negb (nlen (e_val e) =? 4) then (i, Some ETlv)
        else in_loop es' 5 (mkInt n cbp mbf fh (Some (e_val e)) life hop par w)
      else if e_type e =? tInterestLifetime then
        if 6 <=? last then (i, Some ETlv)
        else match readNNIBlock e with
             | Err x => (i, Some x)
             | Ok v => in_loop es' 6 (mkInt n cbp mbf fh nonce v hop par w)
             end
      else if e_type e =? tHopLimit then
        if 7 <=? last then in_loop es' last i
        else match e_val e with
             | [h] => in_loop es' 7 (mkInt n cbp mbf fh nonce life (Some h) par w)
             | _ => (i, Some ETlv)
             end
      else if e_type e =? tApplicationParameters then
        if 8 <=? last then in_loop es' last i
        else in_loop es' 8 (mkInt n cbp mbf fh nonce life hop (par ++ [e]) w)
      else if isCriticalType (e_type e) then (i, Some ETlv)
      else if in_hasParams i
      then in_loop es' last (mkInt n cbp mbf fh nonce life hop (par ++ [e]) w)
      else in_loop es' last i
  end.

Section WithSha.
(* util/sha256: the SHA-256 function *)
Variable sha256 : bytes -> bytes.

(* interest.cpp:712-727 computeParametersDigest *)
Definition in_digest (i : interest) : bytes := sha256 (concat (map e_wire (i_params i))).
(* interest.cpp:691-710 isParametersDigestValid *)
Definition in_digestValid (i : interest) : res bool :=
  match digestIndex (i_name i) with
  | DNone => Ok (negb (in_hasParams i))
  | DMany => Err EAssert
  | DAt j =>
      if negb (in_hasParams i) then Ok false
      else let! c := nm_get (Z.of_nat j) (i_name i) in Ok (bytes_eqb (c_val c) (in_digest i))
  end.
(* interest.cpp:729-747 addOrReplaceParametersDigestComponent: the new m_name *)
Definition in_addDigest (i : interest) : res name :=
  let! c := comp_ofBuffer tParametersSha256DigestComponent (in_digest i) in
  match digestIndex (i_name i) with
  | DNone => Ok (nm_append c (i_name i))
  | DMany => Err EAssert
  | DAt j => nm_set (Z.of_nat j) c (i_name i)
  end.
Definition in_withDigest (i : interest) : interest * option err :=
  match in_addDigest i with
  | Ok n => (in_setN n i, None)
  | Err x => (i, Some x)
  end.
(* the common end of several setters: addOrReplaceParametersDigestComponent(); m_wire.reset() *)
Definition in_refreshDigest (i : interest) : interest * option err :=
  match in_withDigest i with
  | (i', None) => (in_setW None i', None)
  | r => r
  end.

(* interest.cpp:141-306 wireDecode, with s_autoCheckParametersDigest = check *)
Definition in_decode (check : bool) (e : elem) (i : interest) : interest * option err :=
  if negb (e_type e =? tInterest) then (i, Some ETlv)
  else
    let i0 := in_setW (Some e) i in
    match parseValue (e_val e) with
    | Err x => (i0, Some x)
    | Ok [] => (i0, Some ETlv)
    | Ok (n :: es) =>
        if negb (e_type n =? tName) then (i0, Some ETlv)
        else match nm_decode n with
             | Err x => (i0, Some x)
             | Ok nm =>
                 match n_comps nm, digestIndex nm with
                 | [], _ => (i0, Some ETlv)
                 | _, DMany => (i0, Some ETlv)
                 | _, _ =>
                     match in_loop es 1 (mkInt nm false false [] None DEFAULT_LIFETIME None [] (Some e)) with
                     | (i', Some x) => (i', Some x)
                     | (i', None) =>
                         if check then
                           match in_digestValid i' with
                           | Ok true => (i', None)
                           | Ok false => (i', Some ETlv)
                           | Err x => (i', Some x)
                           end
                         else (i', None)
                     end
                 end
             end
    end.

(* interest.cpp:408-416 getNonce; r is what generateNonce() returns *)
Definition in_getNonce (r : bytes) (i : interest) : interest * bytes :=
  match i_nonce i with
  | Some n => (i, n)
  | None =>
      (mkInt (i_name i) (i_cbp i) (i_mbf i) (i_fh i) (Some r) (i_life i) (i_hop i) (i_params i) None, r)
  end.

(* interest.cpp:125-139 wireEncode() *)
Definition in_encode (check : bool) (r : bytes) (i : interest) : interest * res elem :=
  match i_wire i with
  | Some e => (i, Ok e)
  | None =>
      match in_check i with
      | Err x => (i, Err x)
      | Ok _ =>
          let (i1, nonce) := in_getNonce r i in
          let v := in_value nonce i1 in
          match alloc (tlv_enc tInterest v) with
          | Err x => (i1, Err x)
          | Ok _ =>
              let e := mkBlock tInterest v in
              match in_decode check e i1 with
              | (i2, Some x) => (i2, Err x)
              | (i2, None) => (i2, Ok e)
              end
          end
      end
  end.

(* interest.cpp:353-369 *)
Definition in_setName (n : name) (i : interest) : interest * option err :=
  match digestIndex n with
  | DMany => (i, Some EInvalidArg)
  | _ =>
      if nm_equals n (i_name i) then (i, None)
      else
        let i1 := in_setN n i in
        if in_hasParams i1 then in_refreshDigest i1 else (in_setW None i1, None)
  end.
(* interest.cpp:371-379 *)
Definition in_setCanBePrefix (b : bool) (i : interest) : interest :=
  if Bool.eqb b (i_cbp i) then i
  else mkInt (i_name i) b (i_mbf i) (i_fh i) (i_nonce i) (i_life i) (i_hop i) (i_params i) None.
(* interest.cpp:381-389 *)
Definition in_setMustBeFresh (b : bool) (i : interest) : interest :=
  if Bool.eqb b (i_mbf i) then i
  else mkInt (i_name i) (i_cbp i) b (i_fh i) (i_nonce i) (i_life i) (i_hop i) (i_params i) None.
(* interest.cpp:391-397 *)
Definition in_setForwardingHint (l : list name) (i : interest) : interest :=
  mkInt (i_name i) (i_cbp i) (i_mbf i) l (i_nonce i) (i_life i) (i_hop i) (i_params i) None.
(* interest.cpp:418-426 *)
Definition optbytes_eqb (a b : option bytes) : bool :=
  match a, b with None, None => true | Some x, Some y => bytes_eqb x y | _, _ => false end.
Definition in_setNonce (n : option bytes) (i : interest) : interest :=
  if optbytes_eqb n (i_nonce i) then i
  else mkInt (i_name i) (i_cbp i) (i_mbf i) (i_fh i) n (i_life i) (i_hop i) (i_params i) None.
(* interest.cpp:428-439; rs are the successive results of generateNonce().  EFuel: the loop has not
   ended after all of them. *)
Definition in_refreshNonce (rs : list bytes) (i : interest) : interest * option err :=
  match i_nonce i with
  | None => (i, None)
  | Some old =>
      match List.find (fun r => negb (bytes_eqb r old)) rs with
      | Some r => (mkInt (i_name i) (i_cbp i) (i_mbf i) (i_fh i) (Some r) (i_life i) (i_hop i) (i_params i) None, None)
      | None => (i, Some EFuel)
      end
  end.
(* interest.cpp:441-448 *)
Definition in_getLifetime (i : interest) : Z :=
  if (MAX_MS <? Z.of_N (i_life i))%Z then MAX_MS else Z.of_N (i_life i).
(* interest.cpp:450-463 *)
Definition in_setLifetime (t : Z) (i : interest) : interest * option err :=
  if (t <? 0)%Z then (i, Some EInvalidArg)
  else if Z.to_N t =? i_life i then (i, None)
  else (mkInt (i_name i) (i_cbp i) (i_mbf i) (i_fh i) (i_nonce i) (Z.to_N t) (i_hop i) (i_params i) None, None).
(* interest.cpp:465-473 *)
Definition optbyte_eqb (a b : option byte) : bool :=
  match a, b with None, None => true | Some x, Some y => beqb x y | _, _ => false end.
Definition in_setHopLimit (h : option byte) (i : interest) : interest :=
  if optbyte_eqb h (i_hop i) then i
  else mkInt (i_name i) (i_cbp i) (i_mbf i) (i_fh i) (i_nonce i) (i_life i) h (i_params i) None.

(* interest.cpp:475-490 setApplicationParametersInternal *)
Definition in_setParamsInternal (p : elem) (i : interest) : interest * option err :=
  match i_params i with
  | [] => in_refreshDigest (in_setP [p] i)
  | q :: r =>
      if negb (e_type q =? tApplicationParameters) then (i, Some EAssert)
      else in_refreshDigest (in_setP (p :: r) i)
  end.
(* Block::encode (encoding/block.cpp:361-406) of a Block with a value *)
Definition elem_of_blk (b : blk) : elem :=
  match c_hdr b with Some h => mkElem (c_type b) h (c_val b) | None => mkBlock (c_type b) (c_val b) end.
(* interest.cpp:492-505 setApplicationParameters(Block) *)
Definition in_setParamsBlock (b : blk) (i : interest) : interest * option err :=
  if negb (blk_isValid b) then (i, Some EInvalidArg)
  else if c_type b =? tApplicationParameters then in_setParamsInternal (elem_of_blk b) i
  else in_setParamsInternal (mkBlock tApplicationParameters (blk_octets b)) i.
(* interest.cpp:507-527 setApplicationParameters(span), (string_view), (ConstBufferPtr) *)
Definition in_setParams (v : bytes) (i : interest) : interest * option err :=
  in_setParamsInternal (mkBlock tApplicationParameters v) i.
(* interest.cpp:529-539 *)
Definition in_unsetParams (i : interest) : interest * option err :=
  let i1 := in_setP [] i in
  match digestIndex (i_name i) with
  | DAt j =>
      match nm_erase (Z.of_nat j) (i_name i) with
      | Ok n => (in_setW None (in_setN n i1), None)
      | Err x => (i1, Some x)
      end
  | _ => (in_setW None i1, None)
  end.

(* interest.cpp:763-769 findFirstParameter: split at the first element of type t *)
Definition first_param (t : N) (i : interest) : option elem := List.find (fun e => e_type e =? t) (i_params i).
(* interest.cpp:551-559 *)
Definition in_getSigInfo (i : interest) : res (option siginfo) :=
  match first_param tInterestSignatureInfo i with
  | None => Ok None
  | Some e => match si_decode SiInterest e with (s, None) => Ok (Some s) | (_, Some x) => Err x end
  end.
(* interest.cpp:541-549 isSigned, noexcept *)
Definition in_isSigned (i : interest) : res bool :=
  if nlen (i_params i) <? 3 then Ok false
  else match in_getSigInfo i with
       | Err _ => Err ETerminate
       | Ok None => Ok false
       | Ok (Some _) =>
           match first_param tInterestSignatureValue i with
           | None => Ok false
           | Some _ =>
               match rev (n_comps (i_name i)) with
               | [] => Ok false
               | c :: _ => Ok (c_type c =? tParametersSha256DigestComponent)
               end
           end
       end.
(* interest.cpp:561-593 *)
Definition in_setSigInfo (s : siginfo) (i : interest) : interest * option err :=
  let i1 := match i_params i with
            | [] => in_setP [mkEmptyBlock tApplicationParameters] i
            | _ => i
            end in
  match si_encode SiInterest s with
  | Err x => (i1, Some x)
  | Ok (e, _) =>
      match split_type tInterestSignatureInfo (i_params i1) with
      | (a, x :: b) =>
          if elem_eqb x e then (i1, None) else in_refreshDigest (in_setP (a ++ e :: b) i1)
      | (_, []) =>
          let (a, b) := split_type tInterestSignatureValue (i_params i1) in
          in_refreshDigest (in_setP (a ++ e :: b) i1)
      end
  end.
(* interest.cpp:605-654 setSignatureValue *)
Definition in_setSigValue (v : bytes) (i : interest) : interest * option err :=
  let e := mkBlock tInterestSignatureValue v in
  match split_type tInterestSignatureInfo (i_params i) with
  | (_, []) => (i, Some ETlv)
  | (a, x :: b) =>
      match split_type tInterestSignatureValue (i_params i) with
      | (c, y :: d) =>
          if elem_eqb y e then (i, None) else in_refreshDigest (in_setP (c ++ e :: d) i)
      | (_, []) => in_refreshDigest (in_setP (a ++ x :: e :: b) i)
      end
  end.

(* the elements up to the last one that is stored as a parameter *)
Definition stored_param (e : elem) : bool :=
  negb ((e_type e =? tHopLimit) || (e_type e =? tApplicationParameters)).
Fixpoint drop_ignored_tail (es : list elem) : list elem :=
  match es with
  | [] => []
  | e :: es' =>
      match drop_ignored_tail es' with
      | [] => if stored_param e then [e] else []
      | r => e :: r
      end
  end.
(* interest.cpp:656-687 extractSignedRanges: the octets of its two ranges.  They are ranges of the
   wire: elements between ApplicationParameters and the last signed parameter are included even if
   wireDecode ignored them. *)
Definition in_signedRanges (check : bool) (r : bytes) (i : interest) : interest * res (bytes * bytes) :=
  match in_encode check r i with
  | (i', Err x) => (i', Err x)
  | (i', Ok e) =>
      match rev (n_comps (i_name i')) with
      | [] => (i', Err EAssert)
      | c :: cs =>
          if negb (c_type c =? tParametersSha256DigestComponent) then (i', Err ETlv)
          else match first_param tInterestSignatureInfo i' with
               | None => (i', Err ETlv)
               | Some _ =>
                   match snd (split_type tApplicationParameters (elems_of e)) with
                   | [] => (i', Err EAssert)
                   | ap :: post =>
                       let signed := drop_ignored_tail (fst (split_type tInterestSignatureValue post)) in
                       (i', Ok (concat (map blk_octets (rev cs)), concat (map e_wire (ap :: signed))))
                   end
               end
      end
  end.
(* security/key-chain.cpp:412-423 sign(Interest), the V03 format; signer is the signing operation on the
   concatenated ranges *)
Definition in_sign (check : bool) (signer : bytes -> bytes) (s : siginfo) (r : bytes) (i : interest)
  : interest * option err :=
  match in_setSigInfo s i with
  | (i1, Some x) => (i1, Some x)
  | (i1, None) =>
      match in_signedRanges check r i1 with
      | (i2, Err x) => (i2, Some x)
      | (i2, Ok (a, b)) => in_setSigValue (signer (a ++ b)) i2
      end
  end.

(* interest.cpp:318-341 matchesData *)
Definition in_matchesData (i : interest) (d : data) : data * res bool :=
  if nm_size (i_name i) =? nm_size (d_name d) + 1 then
    match rev (n_comps (i_name i)) with
    | [] => (d, Err EUb)
    | c :: _ =>
        if isImplicitSha256Digest c then
          match da_getFullName sha256 d with
          | (d', Ok full) => (d', Ok (nm_equals (i_name i) full))
          | (d', Err x) => (d', Err x)
          end
        else (d, Ok false)
    end
  else if i_cbp i then (d, Ok (nm_isPrefixOf (i_name i) (d_name d)))
  else (d, Ok (nm_equals (i_name i) (d_name d))).
(* interest.cpp:343-349 matchesInterest *)
Definition in_matchesInterest (i j : interest) : bool :=
  nm_equals (i_name i) (i_name j) && Bool.eqb (i_cbp i) (i_cbp j) && Bool.eqb (i_mbf i) (i_mbf j).
End WithSha.

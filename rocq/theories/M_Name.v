(* Model of name-component.{hpp,cpp}, impl/name-component-types.hpp and name.{hpp,cpp}. *)
From Verif Require Import Base M_Tlv M_Str.

(* name-component.hpp:112 class Component (a Block): type, value, and the type-length octets of
   its wire if it has one.  Components are never parsed, so m_elements is left out. *)
Record comp := mkComp { c_type : N; c_hdr : option bytes; c_val : bytes }.

(* a Block with a wire seen as a component, and back *)
Definition comp_of_elem (e : elem) : comp := mkComp (e_type e) (Some (e_hdr e)) (e_val e).

(* Block::equals (encoding/block.cpp:483-490), inherited *)
Definition comp_eqb (a b : comp) : bool :=
  (c_type a =? c_type b) && (nlen (c_val a) =? nlen (c_val b)) && bytes_eqb (c_val a) (c_val b).

(* encoding/tlv.hpp:115-116 *)
Definition NameComponentMin : N := 1.
Definition NameComponentMax : N := 65535.

(* impl/name-component-types.hpp:317-387 the table of component types *)
Inductive ctype := CtSha256 (uriPrefix : bytes) | CtGeneric | CtDecimal (uriPrefix : bytes) | CtBase.
Definition ctype_of (t : N) : ctype :=
  if t =? tImplicitSha256DigestComponent then CtSha256 (str "sha256digest")
  else if t =? tParametersSha256DigestComponent then CtSha256 (str "params-sha256")
  else if t =? tGenericNameComponent then CtGeneric
  else if t =? tKeywordNameComponent then CtBase
  else if t =? tSegmentNameComponent then CtDecimal (str "seg")
  else if t =? tByteOffsetNameComponent then CtDecimal (str "off")
  else if t =? tVersionNameComponent then CtDecimal (str "v")
  else if t =? tTimestampNameComponent then CtDecimal (str "t")
  else if t =? tSequenceNumNameComponent then CtDecimal (str "seq")
  else CtBase.
(* impl/name-component-types.hpp:334-341 findByUriPrefix *)
Definition findByUriPrefix (p : bytes) : option N :=
  List.find (fun t => match ctype_of t with
                      | CtSha256 u | CtDecimal u => bytes_eqb u p
                      | _ => false
                      end)
    [tImplicitSha256DigestComponent; tParametersSha256DigestComponent; tSegmentNameComponent;
     tByteOffsetNameComponent; tVersionNameComponent; tTimestampNameComponent; tSequenceNumNameComponent].

(* name-component.cpp:114-121 ensureValid, types.hpp:193-201 check *)
Definition comp_valid (t : N) (v : bytes) : bool :=
  (NameComponentMin <=? t) && (t <=? NameComponentMax) &&
  match ctype_of t with CtSha256 _ => nlen v =? 32 | _ => true end.
Definition ensureValid (c : comp) : res comp :=
  if comp_valid (c_type c) (c_val c) then Ok c else Err ETlv.

(* name-component.cpp:85-89 Component(type) *)
Definition comp_ofType (t : N) : res comp := ensureValid (mkComp t None []).
(* name-component.cpp:91-95 Component(Block); Block with a wire *)
Definition comp_ofBlock (e : elem) : res comp := ensureValid (comp_of_elem e).
(* name-component.cpp:97-101 Component(type, buffer): no wire *)
Definition comp_ofBuffer (t : N) (v : bytes) : res comp := ensureValid (mkComp t None v).
(* name-component.cpp:103-107 Component(type, span) *)
Definition comp_ofSpan (t : N) (v : bytes) : res comp := ensureValid (comp_of_elem (mkBlock t v)).
(* name-component.cpp:109-112 Component(string) *)
Definition comp_ofString (v : bytes) : comp := comp_of_elem (mkBlock tGenericNameComponent v).

(* ---- URI ---- *)

Definition allPeriods (v : bytes) : bool := forallb (fun c => beqb c cPeriod) v.

(* name-component.cpp:123-136 parseUriEscapedValue *)
Definition parseUriEscapedValue (t : N) (input : bytes) : res comp :=
  let value := unescape input in
  if allPeriods value then
    if nlen value <? 3 then Err ETlv else comp_ofSpan t (ntake (nlen value - 3) value)
  else comp_ofSpan t value.

(* name-component.cpp:346-350 fromNumber *)
Definition fromNumber (n t : N) : res comp := comp_ofBlock (mkNNIBlock t n).

(* types.hpp:223-234 and 275-292 parseAltUriValue; 98-102 unreachable *)
Definition parseAltUriValue (t : N) (input : bytes) : res comp :=
  match ctype_of t with
  | CtSha256 _ =>
      match fromHex input with
      | Ok v => comp_ofBuffer t v
      | Err EInvalidArg => Err ETlv
      | Err e => Err e
      end
  | CtDecimal _ =>
      match stoull input with
      | Ok n => if bytes_eqb (to_string n) input then fromNumber n t else Err ETlv
      | Err EInvalidArg => Err ETlv
      | Err EOutOfRange => Err ETlv
      | Err e => Err e
      end
  | _ => Err EUb
  end.

(* name-component.cpp:138-158 Component::fromUri *)
Definition comp_fromUri (input : bytes) : res comp :=
  match split_at cEqual input with
  | None => parseUriEscapedValue tGenericNameComponent input
  | Some (typePrefix, rest) =>
      (* strtoul reads on into the text after the prefix and stops at '=' *)
      let '(t, _, _) := strtoull input in
      if (NameComponentMin <=? t) && (t <=? NameComponentMax) && bytes_eqb (to_string t) typePrefix
      then parseUriEscapedValue t rest
      else match findByUriPrefix typePrefix with
           | None => Err ETlv
           | Some t => parseAltUriValue t rest
           end
  end.

(* name-component.hpp: UriFormat, after name-component.cpp:160-186 has resolved the environment *)
Inductive uri_format := CANONICAL | ALTERNATE.

(* types.hpp:150-159 writeUriEscapedValue *)
Definition writeUriEscapedValue (v : bytes) : bytes :=
  (if allPeriods v then [cPeriod; cPeriod; cPeriod] else []) ++ escape v.
(* types.hpp:110-115 ComponentType::writeUri *)
Definition writeUriBase (c : comp) : bytes := to_string (c_type c) ++ cEqual :: writeUriEscapedValue (c_val c).

(* name-component.cpp:209-214 isNumber *)
Definition isNumber (c : comp) : bool :=
  let n := nlen (c_val c) in (n =? 1) || (n =? 2) || (n =? 4) || (n =? 8).
(* name-component.cpp:260-267 toNumber *)
Definition toNumber (c : comp) : res N :=
  if isNumber c then
    let! r := readNonNegativeInteger (nlen (c_val c)) (c_val c) in Ok (fst r)
  else Err ETlv.

(* types.hpp:171-175, 236-241, 294-303 writeUri; a failing toNumber cannot occur there *)
Definition writeUriAlt (c : comp) : bytes :=
  match ctype_of (c_type c) with
  | CtGeneric => writeUriEscapedValue (c_val c)
  | CtSha256 p => p ++ cEqual :: toHex false (c_val c)
  | CtDecimal p =>
      match toNumber c with
      | Ok n => p ++ cEqual :: to_string n
      | Err _ => writeUriBase c
      end
  | CtBase => writeUriBase c
  end.
(* name-component.cpp:188-197 Component::toUri *)
Definition comp_toUri (f : uri_format) (c : comp) : bytes :=
  match f with CANONICAL => writeUriBase c | ALTERNATE => writeUriAlt c end.

(* ---- naming conventions ---- *)

Inductive convention := MARKER | TYPED | EITHER.
(* name-component.cpp:71-81 *)
Definition canDecodeMarker (d : convention) : bool := match d with TYPED => false | _ => true end.
Definition canDecodeTyped (d : convention) : bool := match d with MARKER => false | _ => true end.

(* name-component.cpp:216-221 isNumberWithMarker *)
Definition isNumberWithMarker (m : byte) (c : comp) : bool :=
  let n := nlen (c_val c) in
  ((n =? 2) || (n =? 3) || (n =? 5) || (n =? 9)) &&
  match c_val c with b :: _ => beqb b m | [] => false end.
(* name-component.cpp:269-278 toNumberWithMarker *)
Definition toNumberWithMarker (m : byte) (c : comp) : res N :=
  if isNumberWithMarker m c then
    let! r := readNonNegativeInteger (nlen (c_val c) - 1) (tl (c_val c)) in Ok (fst r)
  else Err ETlv.
(* name-component.cpp:352-369 fromNumberWithMarker *)
Definition fromNumberWithMarker (m : byte) (n : N) : res comp :=
  comp_ofBlock (mkBlock tGenericNameComponent (m :: encNNI n)).

(* the five kinds of numeric components: name-component.hpp:62-68 markers, tlv.hpp types *)
Inductive nkind := KSegment | KByteOffset | KVersion | KTimestamp | KSequenceNumber.
Definition kind_marker (k : nkind) : byte :=
  match k with
  | KSegment => x00 | KByteOffset => xfb | KVersion => xfd | KTimestamp => xfc | KSequenceNumber => xfe
  end.
Definition kind_type (k : nkind) : N :=
  match k with
  | KSegment => tSegmentNameComponent | KByteOffset => tByteOffsetNameComponent
  | KVersion => tVersionNameComponent | KTimestamp => tTimestampNameComponent
  | KSequenceNumber => tSequenceNumNameComponent
  end.
(* name-component.cpp:223-256 isSegment, isByteOffset, isVersion, isTimestamp, isSequenceNumber *)
Definition isKind (d : convention) (k : nkind) (c : comp) : bool :=
  (canDecodeMarker d && (c_type c =? tGenericNameComponent) && isNumberWithMarker (kind_marker k) c) ||
  (canDecodeTyped d && (c_type c =? kind_type k) && isNumber c).
(* name-component.cpp:280-342 toSegment, ..., toSequenceNumber.  toTimestamp is modelled up to
   the number of microseconds (without the conversion to a time_point at 329). *)
Definition toKind (d : convention) (k : nkind) (c : comp) : res N :=
  if canDecodeMarker d && (c_type c =? tGenericNameComponent) then toNumberWithMarker (kind_marker k) c
  else if canDecodeTyped d && (c_type c =? kind_type k) then toNumber c
  else Err ETlv.
(* name-component.cpp:371-410 fromSegment, ..., fromSequenceNumber *)
Definition fromKind (e : convention) (k : nkind) (n : N) : res comp :=
  match e with
  | MARKER => fromNumberWithMarker (kind_marker k) n
  | _ => fromNumber n (kind_type k)
  end.

(* name-component.cpp:414-424 *)
Definition isImplicitSha256Digest (c : comp) : bool :=
  (c_type c =? tImplicitSha256DigestComponent) && (nlen (c_val c) =? 32).
Definition isParametersSha256Digest (c : comp) : bool :=
  (c_type c =? tParametersSha256DigestComponent) && (nlen (c_val c) =? 32).

(* ---- order ---- *)

(* conversion of an unsigned difference to int *)
Definition to_int32 (z : Z) : Z := ((z + 2147483648) mod 4294967296 - 2147483648)%Z.

(* std::memcmp over the shorter length; only the sign is specified *)
Fixpoint memcmp (a b : bytes) : Z :=
  match a, b with
  | x :: a', y :: b' =>
      if bn x <? bn y then (-1)%Z else if bn y <? bn x then 1%Z else memcmp a' b'
  | _, _ => 0%Z
  end.

(* name-component.cpp:428-451 Component::compare *)
Definition comp_compare (a b : comp) : Z :=
  match c_hdr a, c_hdr b with
  | Some ha, Some hb => memcmp (ha ++ c_val a) (hb ++ c_val b)
  | _, _ =>
      let cmpType := to_int32 (Z.of_N (c_type a) - Z.of_N (c_type b)) in
      if negb (cmpType =? 0)%Z then cmpType
      else
        let cmpSize := to_int32 (Z.of_N (nlen (c_val a)) - Z.of_N (nlen (c_val b))) in
        if negb (cmpSize =? 0)%Z then cmpSize
        else memcmp (c_val a) (c_val b)
  end.

(* ---- successor ---- *)

(* types.hpp:128-135: add one from the last octet; true if it overflowed all octets *)
Fixpoint inc_octets (v : bytes) : bool * bytes :=
  match v with
  | [] => (true, [])
  | b :: v' =>
      let (ov, w) := inc_octets v' in
      if ov then let nv := (bn b + 1) mod 256 in (nv =? 0, nb nv :: w) else (false, b :: w)
  end.
(* types.hpp:122-145 getSuccessorImpl *)
Definition getSuccessorImpl (c : comp) : bool * elem :=
  let (ov, w) := inc_octets (c_val c) in
  (ov, mkBlock (c_type c) (if ov then w ++ [x00] else w)).
(* types.hpp:69-74, 210-215 getMinValue *)
Definition getMinValue (t : N) : bytes :=
  match ctype_of t with CtSha256 _ => repeat x00 32 | _ => [] end.
(* types.hpp:60-64, 203-208 and name-component.cpp:453-464 getSuccessor *)
Definition comp_getSuccessor (c : comp) : res comp :=
  let (ext, s) := getSuccessorImpl c in
  match ctype_of (c_type c) with
  | CtSha256 _ =>
      if ext then comp_ofSpan (c_type c + 1) (getMinValue (c_type c + 1)) else comp_ofBlock s
  | _ => comp_ofBlock s
  end.

(* name-component.cpp:466-477 Component::wireEncode(encoder) *)
Definition comp_octets (c : comp) : bytes := tlv_enc (c_type c) (c_val c).

(* ---- Name ---- *)

(* name.hpp:681 m_wire: its elements, and the element's octets if m_wire.hasWire() *)
Record name := mkName { n_comps : list comp; n_wire : option elem }.

(* name.cpp:39 Name() *)
Definition nm_empty : name := mkName [] None.
(* a Name holding the given components and no wire (a sequence of append()) *)
Definition nm_of (cs : list comp) : name := mkName cs None.

(* name.cpp:90-102 Name::wireEncode(encoder): components are re-encoded *)
Definition nm_octets (n : name) : bytes := tlv_enc tName (concat (map comp_octets (n_comps n))).

(* name.cpp:124-132 wireDecode, of a complete element.  The object left behind by a throw is
   described for Block::parse in M_Block. *)
Definition nm_decode (e : elem) : res name :=
  if negb (e_type e =? tName) then Err ETlv
  else let! es := parseValue (e_val e) in Ok (mkName (map comp_of_elem es) (Some e)).

(* name.cpp:106-122 wireEncode(): the wire, and the Name with its caches filled *)
Definition nm_encode (n : name) : res (elem * name) :=
  match n_wire n with
  | Some e => Ok (e, n)
  | None =>
      let e := mkBlock tName (concat (map comp_octets (n_comps n))) in
      let! _ := alloc (e_wire e) in
      let! es := parseValue (e_val e) in
      Ok (e, mkName (map comp_of_elem es) (Some e))
  end.

(* name.cpp:134-141 deepCopy *)
Definition nm_deepCopy (n : name) : res name :=
  let! r := nm_encode (mkName (n_comps n) None) in Ok (snd r).

Definition nm_size (n : name) : N := nlen (n_comps n).

(* index conversion of get/at/set/erase: a negative index counts from the end; None if outside *)
Definition nm_index (i : Z) (n : name) : option nat :=
  let sz := Z.of_N (nm_size n) in
  let j := (if i <? 0 then i + sz else i)%Z in
  if ((j <? 0) || (sz <=? j))%Z then None else Some (Z.to_nat j).

(* name.cpp:145-157 at *)
Definition nm_at (i : Z) (n : name) : res comp :=
  match nm_index i n with
  | Some j => of_opt EUb (nth_error (n_comps n) j)
  | None => Err ETlv
  end.
(* name.hpp:191-198 get: out of range is undefined *)
Definition nm_get (i : Z) (n : name) : res comp :=
  match nm_index i n with
  | Some j => of_opt EUb (nth_error (n_comps n) j)
  | None => Err EUb
  end.

Definition npos : N := two64 - 1.

(* name.cpp:159-176 getSubName, for a ssize_t and a size_t; iStart + nComponents wraps *)
Definition nm_getSubName (i : Z) (cnt : N) (n : name) : name :=
  let sz := nm_size n in
  let i1 := (if i <? 0 then i + Z.of_N sz else i)%Z in
  let iStart := if (i1 <? 0)%Z then 0 else Z.to_N i1 in
  let iEnd := if cnt =? npos then sz else N.min sz ((iStart + cnt) mod two64) in
  mkName (ntake (iEnd - iStart) (ndrop iStart (n_comps n))) None.
(* name.hpp:240-247 getPrefix; size() + nComponents is computed in size_t *)
Definition nm_getPrefix (k : Z) (n : name) : name :=
  if (k <? 0)%Z then nm_getSubName 0 (Z.to_N ((Z.of_N (nm_size n) + k) mod Z.of_N two64)) n
  else nm_getSubName 0 (Z.to_N k) n.

(* name.hpp:307-323 append(Component) *)
Definition nm_append (c : comp) (n : name) : name := mkName (n_comps n ++ [c]) None.
(* name.cpp:216-228 append(PartialName); appending nothing does not touch the wire *)
Definition nm_appendName (m n : name) : name := fold_left (fun a c => nm_append c a) (n_comps m) n.
(* name.cpp:180-202 set *)
Definition nm_set (i : Z) (c : comp) (n : name) : res name :=
  match nm_index i n with
  | Some j => Ok (mkName (firstn j (n_comps n) ++ c :: skipn (S j) (n_comps n)) None)
  | None => Err EUb
  end.
(* name.cpp:244-253 erase *)
Definition nm_erase (i : Z) (n : name) : res name :=
  match nm_index i n with
  | Some j => Ok (mkName (firstn j (n_comps n) ++ skipn (S j) (n_comps n)) None)
  | None => Err EUb
  end.
(* name.cpp:255-259 clear *)
Definition nm_clear (n : name) : name := nm_empty.

(* name.cpp:274-288 isPrefixOf *)
Fixpoint comps_prefix (a b : list comp) : bool :=
  match a, b with
  | [], _ => true
  | x :: a', y :: b' => comp_eqb x y && comps_prefix a' b'
  | _ :: _, [] => false
  end.
Definition nm_isPrefixOf (a b : name) : bool :=
  if nm_size b <? nm_size a then false else comps_prefix (n_comps a) (n_comps b).
(* name.cpp:290-302 equals *)
Definition nm_equals (a b : name) : bool :=
  if negb (nm_size a =? nm_size b) then false else comps_prefix (n_comps a) (n_comps b).

(* name.cpp:311-316: the first difference among the first count components *)
Fixpoint comps_cmp (a b : list comp) : Z :=
  match a, b with
  | x :: a', y :: b' => let c := comp_compare x y in if negb (c =? 0)%Z then c else comps_cmp a' b'
  | _, _ => 0%Z
  end.
(* name.cpp:304-319 compare(pos1, count1, other, pos2, count2).  A position past the end makes
   size() - pos wrap around and get() read out of range. *)
Definition nm_compareSub (pos1 cnt1 : N) (a : name) (pos2 cnt2 : N) (b : name) : res Z :=
  if (nm_size a <? pos1) || (nm_size b <? pos2) then Err EUb
  else
    let count1 := N.min cnt1 (nm_size a - pos1) in
    let count2 := N.min cnt2 (nm_size b - pos2) in
    let count := N.min count1 count2 in
    let c := comps_cmp (ntake count (ndrop pos1 (n_comps a))) (ntake count (ndrop pos2 (n_comps b))) in
    Ok (if negb (c =? 0)%Z then c else to_int32 (Z.of_N count1 - Z.of_N count2)).
(* name.hpp:633-637 compare(other) *)
Definition nm_compare (a b : name) : res Z := nm_compareSub 0 npos a 0 npos b.

(* name.cpp:263-272 getSuccessor *)
Definition nm_getSuccessor (n : name) : res name :=
  match rev (n_comps n) with
  | [] =>
      Ok (nm_of [mkComp tImplicitSha256DigestComponent None (repeat x00 32)])
  | last :: _ =>
      let! s := comp_getSuccessor last in Ok (nm_append s (nm_getPrefix (-1) n))
  end.

(* name.cpp:321-335 toUri *)
Definition nm_toUri (f : uri_format) (n : name) : bytes :=
  match n_comps n with
  | [] => [cSlash]
  | cs => concat (map (fun c => cSlash :: comp_toUri f c) cs)
  end.

(* name.cpp:51-76: scheme, leading slash and authority; None: only an authority *)
Definition uri_path (uri : bytes) : option bytes :=
  let uri := match split_at cColon uri with
             | Some (before, after) =>
                 match split_at cSlash before with
                 | Some _ => uri   (* a slash comes before the colon *)
                 | None => after
                 end
             | None => uri
             end in
  match uri with
  | c :: r =>
      if beqb c cSlash then
        match r with
        | c2 :: r2 =>
            if beqb c2 cSlash then
              match split_at cSlash r2 with Some (_, rest) => Some rest | None => None end
            else Some r
        | [] => Some r
        end
      else Some uri
  | [] => Some uri
  end.
(* name.cpp:78-87, the loop over components *)
Fixpoint uri_loop (fuel : nat) (uri : bytes) : res (list comp) :=
  match fuel with
  | O => Err EFuel
  | S f =>
      match uri with
      | [] => Ok []
      | _ =>
          match split_at cSlash uri with
          | None => let! c := comp_fromUri uri in Ok [c]
          | Some (component, rest) =>
              let! c := comp_fromUri component in
              match rest with
              | [] => Ok [c]
              | _ => let! cs := uri_loop f rest in Ok (c :: cs)
              end
          end
      end
  end.
(* name.cpp:46-88 Name(uri) *)
Definition nm_fromUri (uri : bytes) : res name :=
  match uri with
  | [] => Ok nm_empty
  | _ =>
      match uri_path uri with
      | None => Ok nm_empty
      | Some path => let! cs := uri_loop (S (length path)) path in Ok (nm_of cs)
      end
  end.

(* Model of meta-info.{hpp,cpp}, key-locator.{hpp,cpp}, signature-info.{hpp,cpp} and data.{hpp,cpp}.

   A packet's wireEncode(encoder) writes its elements back to front; by C07/C08 the octets are
   those of the elements written front to back, which is how they are given here.

   Operations that change an object before they may throw return the object left behind together
   with the exception, if any: (object, None) is a normal return. *)
From Verif Require Import Base M_Tlv M_Str M_Name.

(* Block: a Block held by a packet that is not being built from sub-elements: its type, value,
   and the type-length octets of its wire if it has one (the same shape as a name component). *)
Definition blk : Type := comp.
(* encoding/block.hpp: default constructor, an invalid Block *)
Definition blk_invalid : blk := mkComp tInvalid None [].
(* encoding/block.hpp isValid *)
Definition blk_isValid (b : blk) : bool := negb (c_type b =? tInvalid).
(* encoding/block-helpers.cpp:191-202 prependBlock *)
Definition blk_octets (b : blk) : bytes :=
  match c_hdr b with Some h => h ++ c_val b | None => tlv_enc (c_type b) (c_val b) end.
(* encoding/block.cpp:361-406 encode() on such a Block *)
Definition blk_encode (b : blk) : blk :=
  match c_hdr b with Some _ => b | None => comp_of_elem (mkBlock (c_type b) (c_val b)) end.

(* ---- MetaInfo ---- *)

(* meta-info.hpp:201-206 *)
Record metainfo := mkMI {
  mi_type : N; mi_fresh : N; mi_final : option comp; mi_app : list blk; mi_wire : option elem }.
(* meta-info.hpp:201-206 default member initialisers *)
Definition mi_empty : metainfo := mkMI 0 0 None [] None.

(* std::chrono::milliseconds::max() *)
Definition MAX_MS : Z := 9223372036854775807.

(* meta-info.cpp:37-43 *)
Definition mi_setType (t : N) (m : metainfo) : metainfo := mkMI t (mi_fresh m) (mi_final m) (mi_app m) None.
(* meta-info.cpp:45-52 *)
Definition mi_getFreshnessPeriod (m : metainfo) : Z :=
  if (MAX_MS <? Z.of_N (mi_fresh m))%Z then MAX_MS else Z.of_N (mi_fresh m).
(* meta-info.cpp:54-63 *)
Definition mi_setFreshnessPeriod (f : Z) (m : metainfo) : metainfo * option err :=
  if (f <? 0)%Z then (m, Some EInvalidArg)
  else (mkMI (mi_type m) (Z.to_N f) (mi_final m) (mi_app m) None, None).
(* meta-info.cpp:65-71 *)
Definition mi_setFinalBlock (c : option comp) (m : metainfo) : metainfo :=
  mkMI (mi_type m) (mi_fresh m) c (mi_app m) None.
Definition app_type_ok (b : blk) : bool := (128 <=? c_type b) && (c_type b <=? 252).
(* meta-info.cpp:79-90 *)
Definition mi_setAppMetaInfo (l : list blk) (m : metainfo) : metainfo * option err :=
  if forallb app_type_ok l then (mkMI (mi_type m) (mi_fresh m) (mi_final m) l None, None)
  else (m, Some ETlv).
(* meta-info.cpp:92-101 *)
Definition mi_addAppMetaInfo (b : blk) (m : metainfo) : metainfo * option err :=
  if app_type_ok b then (mkMI (mi_type m) (mi_fresh m) (mi_final m) (mi_app m ++ [b]) None, None)
  else (m, Some ETlv).
(* meta-info.cpp:103-114: the first of that type *)
Fixpoint remove_first (t : N) (l : list blk) : option (list blk) :=
  match l with
  | [] => None
  | b :: l' => if c_type b =? t then Some l'
               else match remove_first t l' with Some r => Some (b :: r) | None => None end
  end.
Definition mi_removeAppMetaInfo (t : N) (m : metainfo) : metainfo * bool :=
  match remove_first t (mi_app m) with
  | Some l => (mkMI (mi_type m) (mi_fresh m) (mi_final m) l None, true)
  | None => (m, false)
  end.
(* meta-info.cpp:116-122 *)
Definition mi_findAppMetaInfo (t : N) (m : metainfo) : option blk :=
  List.find (fun b => c_type b =? t) (mi_app m).

(* meta-info.cpp:124-159 wireEncode(encoder) *)
Definition mi_value (m : metainfo) : bytes :=
  (if mi_type m =? 0 then [] else tlv_nni tContentType (mi_type m)) ++
  (if mi_fresh m =? 0 then [] else tlv_nni tFreshnessPeriod (mi_fresh m)) ++
  (match mi_final m with None => [] | Some c => tlv_enc tFinalBlockId (comp_octets c) end) ++
  concat (map blk_octets (mi_app m)).
Definition mi_octets (m : metainfo) : bytes := tlv_enc tMetaInfo (mi_value m).
Definition mi_setWire (w : option elem) (m : metainfo) : metainfo :=
  mkMI (mi_type m) (mi_fresh m) (mi_final m) (mi_app m) w.
(* meta-info.cpp:163-177 wireEncode() *)
Definition mi_encode (m : metainfo) : res (elem * metainfo) :=
  match mi_wire m with
  | Some e => Ok (e, m)
  | None =>
      let! _ := alloc (mi_octets m) in
      let e := mkBlock tMetaInfo (mi_value m) in Ok (e, mi_setWire (Some e) m)
  end.

(* the element at the front if it has type t *)
Definition take_if (t : N) (es : list elem) : option elem * list elem :=
  match es with
  | e :: es' => if e_type e =? t then (Some e, es') else (None, es)
  | [] => (None, [])
  end.
(* meta-info.cpp:179-224 wireDecode; m_appMetaInfo is not cleared first *)
Definition mi_decode (e : elem) (m : metainfo) : metainfo * option err :=
  let m0 := mi_setWire (Some e) m in
  match parseValue (e_val e) with
  | Err x => (m0, Some x)
  | Ok es =>
      let (ct, es1) := take_if tContentType es in
      match (match ct with Some v => readNNIBlockAs two32 v | None => Ok 0 end) with
      | Err x => (m0, Some x)
      | Ok t =>
          let m1 := mkMI t (mi_fresh m) (mi_final m) (mi_app m) (Some e) in
          let (fp, es2) := take_if tFreshnessPeriod es1 in
          match (match fp with Some v => readNNIBlock v | None => Ok 0 end) with
          | Err x => (m1, Some x)
          | Ok f =>
              let m2 := mkMI t f (mi_final m) (mi_app m) (Some e) in
              let (fb, es3) := take_if tFinalBlockId es2 in
              match fb with
              | None => (mkMI t f None (mi_app m ++ map comp_of_elem es3) (Some e), None)
              | Some v =>
                  match blockFromValue v with
                  | Err x => (m2, Some x)   (* the argument of emplace throws: old value kept *)
                  | Ok b =>
                      match comp_ofBlock b with
                      | Err x => (mkMI t f None (mi_app m) (Some e), Some x)  (* emplace has reset it *)
                      | Ok c => (mkMI t f (Some c) (mi_app m ++ map comp_of_elem es3) (Some e), None)
                      end
                  end
              end
          end
      end
  end.

(* ---- KeyLocator ---- *)

(* key-locator.hpp: m_locator, std::variant<monostate, Name, Block, uint32_t> *)
Inductive locator := KlNone | KlName (n : name) | KlDigest (b : blk) | KlOther (t : N).
Record keylocator := mkKL { kl_loc : locator; kl_wire : option elem }.
Definition kl_empty : keylocator := mkKL KlNone None.

(* key-locator.cpp:44-63 wireEncode(encoder) *)
Definition kl_value (k : keylocator) : res bytes :=
  match kl_loc k with
  | KlNone => Ok []
  | KlName n => Ok (nm_octets n)
  | KlDigest b => Ok (blk_octets b)
  | KlOther _ => Err ETlv
  end.
(* key-locator.cpp:67-81 wireEncode() *)
Definition kl_encode (k : keylocator) : res (elem * keylocator) :=
  match kl_wire k with
  | Some e => Ok (e, k)
  | None =>
      let! v := kl_value k in
      let! _ := alloc (tlv_enc tKeyLocator v) in
      let e := mkBlock tKeyLocator v in Ok (e, mkKL (kl_loc k) (Some e))
  end.
(* key-locator.cpp:83-109 wireDecode; nothing of the previous value survives a normal return.
   Simplified: the object left behind by a throw is not described. *)
Definition kl_decode (e : elem) : res keylocator :=
  if negb (e_type e =? tKeyLocator) then Err ETlv
  else
    let! es := parseValue (e_val e) in
    match es with
    | [] => Ok (mkKL KlNone (Some e))
    | x :: _ =>
        if e_type x =? tName then let! n := nm_decode x in Ok (mkKL (KlName n) (Some e))
        else if e_type x =? tKeyDigest then Ok (mkKL (KlDigest (comp_of_elem x)) (Some e))
        else Ok (mkKL (KlOther (e_type x)) (Some e))
    end.
(* key-locator.cpp:147-153 *)
Definition kl_setName (n : name) (k : keylocator) : keylocator := mkKL (KlName n) None.
(* key-locator.cpp:166-175 *)
Definition kl_setKeyDigest (b : blk) (k : keylocator) : res keylocator :=
  if negb (c_type b =? tKeyDigest) then Err EInvalidArg else Ok (mkKL (KlDigest b) None).
(* key-locator.cpp:177-184 *)
Definition kl_setKeyDigestBuf (d : bytes) (k : keylocator) : keylocator :=
  mkKL (KlDigest (comp_of_elem (mkBlock tKeyDigest d))) None.
(* key-locator.cpp:128-134 *)
Definition kl_clear (k : keylocator) : keylocator := kl_empty.

(* key-locator.hpp operator==: compares m_locator *)
Definition kl_eqb (a b : keylocator) : bool :=
  match kl_loc a, kl_loc b with
  | KlNone, KlNone => true
  | KlName m, KlName n => nm_equals m n
  | KlDigest x, KlDigest y => comp_eqb x y
  | KlOther t, KlOther u => t =? u
  | _, _ => false
  end.

(* ---- SignatureInfo ---- *)

(* signature-info.hpp: m_type (int32_t, -1 = unset, here None), m_keyLocator, m_otherTlvs, m_wire *)
Record siginfo := mkSI {
  si_type : option N; si_key : option keylocator; si_other : list blk; si_wire : option elem }.
Definition si_empty : siginfo := mkSI None None [] None.
(* signature-info.cpp:33-37 *)
Definition si_of (t : N) (k : option keylocator) : siginfo := mkSI (Some t) k [] None.

Inductive si_kind := SiData | SiInterest.
(* signature-info.hpp: enum class Type *)
Definition si_tlv (k : si_kind) : N :=
  match k with SiData => tSignatureInfo | SiInterest => tInterestSignatureInfo end.

(* signature-info.cpp:44-85 wireEncode(encoder, type) *)
Definition si_value (s : siginfo) : res bytes :=
  match si_type s with
  | None => Err ETlv
  | Some t =>
      let! kl := (match si_key s with
                  | None => Ok []
                  | Some k => let! v := kl_value k in Ok (tlv_enc tKeyLocator v)
                  end) in
      Ok (tlv_nni tSignatureType t ++ kl ++ concat (map blk_octets (si_other s)))
  end.
Definition si_octets (k : si_kind) (s : siginfo) : res bytes :=
  let! v := si_value s in Ok (tlv_enc (si_tlv k) v).
Definition si_setWire (w : option elem) (s : siginfo) : siginfo :=
  mkSI (si_type s) (si_key s) (si_other s) w.
(* signature-info.cpp:93-107 wireEncode(type): a cached wire is returned whatever its type *)
Definition si_encode (k : si_kind) (s : siginfo) : res (elem * siginfo) :=
  match si_wire s with
  | Some e => Ok (e, s)
  | None =>
      let! v := si_value s in
      let! _ := alloc (tlv_enc (si_tlv k) v) in
      let e := mkBlock (si_tlv k) v in Ok (e, si_setWire (Some e) s)
  end.

(* signature-info.cpp:123-165 the loop of wireDecode *)
Fixpoint si_loop (es : list elem) (last : N) (s : siginfo) : siginfo * option err :=
  match es with
  | [] => (s, None)
  | e :: es' =>
      let keep := mkSI (si_type s) (si_key s) (si_other s ++ [comp_of_elem e]) (si_wire s) in
      if e_type e =? tSignatureType then
        if 0 <? last then (s, Some ETlv)
        else match readNNIBlockAs two16 e with
             | Err x => (s, Some x)
             | Ok t => si_loop es' 1 (mkSI (Some t) (si_key s) (si_other s) (si_wire s))
             end
      else if e_type e =? tKeyLocator then
        if 1 <? last then (s, Some ETlv)
        else match kl_decode e with
             | Err x => (s, Some x)
             | Ok k => si_loop es' 2 (mkSI (si_type s) (Some k) (si_other s) (si_wire s))
             end
      else if e_type e =? tSignatureNonce then
        if nlen (e_val e) <? 1 then (s, Some ETlv) else si_loop es' last keep
      else if e_type e =? tValidityPeriod then si_loop es' last keep
      else if isCriticalType (e_type e) then (s, Some ETlv)
      else si_loop es' last keep
  end.
(* signature-info.cpp:109-170 wireDecode; nothing of the previous value survives.
   parse() precedes the type check, so a parse error wins. *)
Definition si_decode (k : si_kind) (e : elem) : siginfo * option err :=
  let s0 := mkSI None None [] (Some e) in
  match parseValue (e_val e) with
  | Err x => (s0, Some x)
  | Ok es =>
      if negb (e_type e =? si_tlv k) then (s0, Some ETlv)
      else match si_loop es 0 s0 with
           | (s, Some x) => (s, Some x)
           | (s, None) => match si_type s with None => (s, Some ETlv) | Some _ => (s, None) end
           end
  end.

(* signature-info.cpp:172-180; the argument is a tlv::SignatureTypeValue, a uint16_t *)
Definition si_setSignatureType (t : N) (s : siginfo) : siginfo :=
  match si_type s with
  | Some u => if t =? u then s else mkSI (Some t) (si_key s) (si_other s) None
  | None => mkSI (Some t) (si_key s) (si_other s) None
  end.
Definition optkl_eqb (a b : option keylocator) : bool :=
  match a, b with None, None => true | Some x, Some y => kl_eqb x y | _, _ => false end.
(* signature-info.cpp:191-199 *)
Definition si_setKeyLocator (k : option keylocator) (s : siginfo) : siginfo :=
  if optkl_eqb k (si_key s) then s else mkSI (si_type s) k (si_other s) None.
(* signature-info.cpp:300-314: the first of the same type is replaced *)
Fixpoint replace_first (b : blk) (l : list blk) : option (list blk * bool) :=
  match l with
  | [] => None
  | x :: l' =>
      if c_type x =? c_type b then (if comp_eqb x b then Some (l, false) else Some (b :: l', true))
      else match replace_first b l' with Some (r, ch) => Some (x :: r, ch) | None => None end
  end.
Definition si_addCustomTlv (b : blk) (s : siginfo) : siginfo :=
  match replace_first b (si_other s) with
  | None => mkSI (si_type s) (si_key s) (si_other s ++ [b]) None
  | Some (l, true) => mkSI (si_type s) (si_key s) l None
  | Some (_, false) => s
  end.
(* signature-info.cpp:316-327: all of that type *)
Definition si_removeCustomTlv (t : N) (s : siginfo) : siginfo :=
  if existsb (fun b => c_type b =? t) (si_other s)
  then mkSI (si_type s) (si_key s) (filter (fun b => negb (c_type b =? t)) (si_other s)) None
  else s.
(* signature-info.cpp:290-298, 329-335 *)
Definition si_getCustomTlv (t : N) (s : siginfo) : option blk :=
  List.find (fun b => c_type b =? t) (si_other s).
(* signature-info.cpp:223-243 *)
Definition si_getNonce (s : siginfo) : option bytes :=
  match si_getCustomTlv tSignatureNonce s with Some b => Some (c_val b) | None => None end.
Definition si_setNonce (n : option bytes) (s : siginfo) : siginfo :=
  match n with
  | None => si_removeCustomTlv tSignatureNonce s
  | Some v => si_addCustomTlv (comp_of_elem (mkBlock tSignatureNonce v)) s
  end.
(* signature-info.cpp:268-288; 245-266 (time, as its Unix timestamp in ms) are the same with
   tSignatureTime *)
Definition si_getNumber (t : N) (s : siginfo) : res (option N) :=
  match si_getCustomTlv t s with
  | Some b => let! r := readNonNegativeInteger (nlen (c_val b)) (c_val b) in Ok (Some (fst r))
  | None => Ok None
  end.
Definition si_setNumber (t : N) (n : option N) (s : siginfo) : siginfo :=
  match n with
  | None => si_removeCustomTlv t s
  | Some v => si_addCustomTlv (comp_of_elem (mkNNIBlock t v)) s
  end.

(* signature-info.cpp:337-343 operator== *)
Definition optN_eqb (a b : option N) : bool :=
  match a, b with None, None => true | Some x, Some y => x =? y | _, _ => false end.
Fixpoint blks_eqb (a b : list blk) : bool :=
  match a, b with
  | [], [] => true
  | x :: a', y :: b' => comp_eqb x y && blks_eqb a' b'
  | _, _ => false
  end.
Definition si_eqb (a b : siginfo) : bool :=
  optN_eqb (si_type a) (si_type b) && optkl_eqb (si_key a) (si_key b) &&
  blks_eqb (si_other a) (si_other b).

(* ---- Data ---- *)

(* data.hpp: m_name, m_metaInfo, m_content, m_signatureInfo, m_signatureValue, m_wire, m_fullName *)
Record data := mkData {
  d_name : name; d_meta : metainfo; d_content : blk; d_sinfo : siginfo; d_sval : blk;
  d_wire : option elem; d_full : name }.
(* data.cpp:27-30 Data(name) *)
Definition da_of (n : name) : data := mkData n mi_empty blk_invalid si_empty blk_invalid None nm_empty.
Definition da_empty : data := da_of nm_empty.

(* data.hpp hasContent *)
Definition da_hasContent (d : data) : bool := blk_isValid (d_content d).

(* data.cpp:37-78 wireEncode(encoder, wantUnsignedPortionOnly = true) *)
Definition da_unsigned (d : data) : res bytes :=
  let! si := si_octets SiData (d_sinfo d) in
  Ok (nm_octets (d_name d) ++ mi_octets (d_meta d) ++
      (if da_hasContent d then blk_octets (d_content d) else []) ++ si).
(* data.cpp:37-78 wireEncode(encoder), the TLV-VALUE *)
Definition da_value (d : data) : res bytes :=
  match si_type (d_sinfo d) with
  | None => Err ETlv
  | Some _ => let! u := da_unsigned d in Ok (u ++ blk_octets (d_sval d))
  end.

(* data.cpp:145-189 the loop of wireDecode *)
Fixpoint da_loop (es : list elem) (last : N) (d : data) : data * option err :=
  match es with
  | [] => (d, None)
  | e :: es' =>
      if e_type e =? tMetaInfo then
        if 2 <=? last then (d, Some ETlv)
        else
          let (m, x) := mi_decode e (d_meta d) in
          let d' := mkData (d_name d) m (d_content d) (d_sinfo d) (d_sval d) (d_wire d) (d_full d) in
          match x with Some _ => (d', x) | None => da_loop es' 2 d' end
      else if e_type e =? tContent then
        if 3 <=? last then (d, Some ETlv)
        else da_loop es' 3
          (mkData (d_name d) (d_meta d) (comp_of_elem e) (d_sinfo d) (d_sval d) (d_wire d) (d_full d))
      else if e_type e =? tSignatureInfo then
        if 4 <=? last then (d, Some ETlv)
        else
          let (s, x) := si_decode SiData e in
          let d' := mkData (d_name d) (d_meta d) (d_content d) s (d_sval d) (d_wire d) (d_full d) in
          match x with Some _ => (d', x) | None => da_loop es' 4 d' end
      else if e_type e =? tSignatureValue then
        if 5 <=? last then (d, Some ETlv)
        else da_loop es' 5
          (mkData (d_name d) (d_meta d) (d_content d) (d_sinfo d) (comp_of_elem e) (d_wire d) (d_full d))
      else if isCriticalType (e_type e) then (d, Some ETlv)
      else da_loop es' last d
  end.
(* data.cpp:117-197 wireDecode.  Simplified: a Name whose value cannot be parsed leaves the old
   m_name behind (in the code m_name.m_wire is already replaced). *)
Definition da_decode (e : elem) (d : data) : data * option err :=
  if negb (e_type e =? tData) then (d, Some ETlv)
  else
    let d0 := mkData (d_name d) (d_meta d) (d_content d) (d_sinfo d) (d_sval d) (Some e) (d_full d) in
    match parseValue (e_val e) with
    | Err x => (d0, Some x)
    | Ok [] => (d0, Some ETlv)
    | Ok (n :: es) =>
        if negb (e_type n =? tName) then (d0, Some ETlv)
        else match nm_decode n with
             | Err x => (d0, Some x)
             | Ok nm =>
                 match da_loop es 1
                         (mkData nm mi_empty blk_invalid si_empty blk_invalid (Some e) nm_empty) with
                 | (d', Some x) => (d', Some x)
                 | (d', None) =>
                     match si_type (d_sinfo d') with
                     | None => (d', Some ETlv)
                     | Some _ => if blk_isValid (d_sval d') then (d', None) else (d', Some ETlv)
                     end
                 end
             end
    end.

(* data.cpp:101-115 wireEncode(): the object left behind and the wire *)
Definition da_encode (d : data) : data * res elem :=
  match d_wire d with
  | Some e => (d, Ok e)
  | None =>
      match da_value d with
      | Err x => (d, Err x)
      | Ok v =>
          match alloc (tlv_enc tData v) with
          | Err x => (d, Err x)
          | Ok _ =>
              let e := mkBlock tData v in
              match da_decode e d with
              | (d', Some x) => (d', Err x)
              | (d', None) => (d', Ok e)
              end
          end
      end
  end.
(* data.cpp:86-99 wireEncode(encoder, signature), the encoder holding the octets u *)
Definition da_finish (u sig : bytes) (d : data) : data * res elem :=
  let e := mkBlock tData (u ++ tlv_enc tSignatureValue sig) in
  match alloc (e_wire e) with
  | Err x => (d, Err x)
  | Ok _ =>
      match da_decode e d with
      | (d', Some x) => (d', Err x)
      | (d', None) => (d', Ok e)
      end
  end.

(* data.cpp:213-218 resetWire *)
Definition da_set (n : name) (m : metainfo) (c : blk) (s : siginfo) (v : blk) : data :=
  mkData n m c s v None nm_empty.
(* data.cpp:220-228 *)
Definition da_setName (n : name) (d : data) : data :=
  if nm_equals n (d_name d) then d else da_set n (d_meta d) (d_content d) (d_sinfo d) (d_sval d).
(* data.cpp:230-236 *)
Definition da_setMetaInfo (m : metainfo) (d : data) : data :=
  da_set (d_name d) m (d_content d) (d_sinfo d) (d_sval d).
(* data.cpp:238-254 *)
Definition da_setContentBlock (b : blk) (d : data) : data * option err :=
  if negb (blk_isValid b) then (d, Some EInvalidArg)
  else
    let c := if c_type b =? tContent then blk_encode b
             else comp_of_elem (mkBlock tContent (blk_octets b)) in
    (da_set (d_name d) (d_meta d) c (d_sinfo d) (d_sval d), None).
(* data.cpp:256-270 *)
Definition da_setContent (v : bytes) (d : data) : data :=
  da_set (d_name d) (d_meta d) (comp_of_elem (mkBlock tContent v)) (d_sinfo d) (d_sval d).
(* data.cpp:272-282 *)
Definition da_setContentBuf (v : bytes) (d : data) : data :=
  da_set (d_name d) (d_meta d) (mkComp tContent None v) (d_sinfo d) (d_sval d).
(* data.cpp:284-292 *)
Definition da_unsetContent (d : data) : data :=
  if blk_isValid (d_content d)
  then da_set (d_name d) (d_meta d) blk_invalid (d_sinfo d) (d_sval d) else d.
(* data.cpp:294-300 *)
Definition da_setSignatureInfo (s : siginfo) (d : data) : data :=
  da_set (d_name d) (d_meta d) (d_content d) s (d_sval d).
(* data.cpp:302-308 *)
Definition da_setSignatureValue (v : bytes) (d : data) : data :=
  da_set (d_name d) (d_meta d) (d_content d) (d_sinfo d) (comp_of_elem (mkBlock tSignatureValue v)).
(* data.cpp:310-320 *)
Definition da_setSignatureValueBuf (v : bytes) (d : data) : data :=
  da_set (d_name d) (d_meta d) (d_content d) (d_sinfo d) (mkComp tSignatureValue None v).
(* data.cpp:336-344 *)
Definition da_setContentType (t : N) (d : data) : data :=
  if t =? mi_type (d_meta d) then d else da_setMetaInfo (mi_setType t (d_meta d)) d.
(* data.cpp:346-354 *)
Definition da_setFreshnessPeriod (f : Z) (d : data) : data * option err :=
  if (f =? mi_getFreshnessPeriod (d_meta d))%Z then (d, None)
  else match mi_setFreshnessPeriod f (d_meta d) with
       | (m, Some x) => (d, Some x)
       | (m, None) => (da_setMetaInfo m d, None)
       end.
Definition optcomp_eqb (a b : option comp) : bool :=
  match a, b with None, None => true | Some x, Some y => comp_eqb x y | _, _ => false end.
(* data.cpp:356-364 *)
Definition da_setFinalBlock (c : option comp) (d : data) : data :=
  if optcomp_eqb c (mi_final (d_meta d)) then d else da_setMetaInfo (mi_setFinalBlock c (d_meta d)) d.

(* encoding/block.hpp elements() of a Block after parse() (encoding/block.cpp:325-350): what was
   found before a malformed header, nothing after a length that is too large *)
Definition elems_of (e : elem) : list elem :=
  match parse_loop (S (length (e_val e))) (e_val e) with
  | (_, PTooLong) => []
  | (es, _) => es
  end.
(* Block::find *)
Fixpoint split_type (t : N) (es : list elem) : list elem * list elem :=
  match es with
  | [] => ([], [])
  | e :: es' => if e_type e =? t then ([], es) else let (a, b) := split_type t es' in (e :: a, b)
  end.
(* data.cpp:322-334 extractSignedRanges: the octets of its single range *)
Definition da_signedRange (d : data) : data * res bytes :=
  match da_encode d with
  | (d', Err x) => (d', Err x)
  | (d', Ok e) =>
      match fst (split_type tSignatureValue (elems_of e)) with
      | [] => (d', Err EUb)   (* std::prev of the first iterator *)
      | es => (d', Ok (concat (map e_wire es)))
      end
  end.

Section WithSha.
(* util/sha256.hpp Sha256::computeDigest *)
Variable sha256 : bytes -> bytes.
(* data.cpp:199-211 getFullName *)
Definition da_getFullName (d : data) : data * res name :=
  match n_comps (d_full d) with
  | _ :: _ => (d, Ok (d_full d))
  | [] =>
      match d_wire d with
      | None => (d, Err ETlv)
      | Some e =>
          match comp_ofBuffer tImplicitSha256DigestComponent (sha256 (e_wire e)) with
          | Err x => (mkData (d_name d) (d_meta d) (d_content d) (d_sinfo d) (d_sval d) (d_wire d) (d_name d), Err x)
          | Ok c =>
              let full := nm_append c (d_name d) in
              (mkData (d_name d) (d_meta d) (d_content d) (d_sinfo d) (d_sval d) (d_wire d) full, Ok full)
          end
      end
  end.
(* security/key-chain.cpp:399-410 KeyChain::sign(Data): signer is the signing operation *)
Definition da_sign (signer : bytes -> bytes) (s : siginfo) (d : data) : data * res elem :=
  let d1 := da_setSignatureInfo s d in
  match da_unsigned d1 with
  | Err x => (d1, Err x)
  | Ok u => da_finish u (signer u) d1
  end.
End WithSha.

(* Model of security/safe-bag.{hpp,cpp}, security/additional-description.{hpp,cpp}, and the text form of security/signing-info.{hpp,cpp}. *)
From Verif Require Import Base M_Tlv M_Str M_Name M_Packet.
Open Scope N_scope.
Open Scope list_scope.

(* ---- SafeBag ---- *)
(* tlv-security.hpp:33-36 *)
Definition tSafeBag : N := 128.
Definition tEncryptedKey : N := 129.
(* safe-bag.hpp:100-103.  m_wire is not modelled: it is only written, and returned by the call that writes it. *)
Record sbag := mkSb { sb_cert : data; sb_key : bytes }.
(* safe-bag.cpp:44-59 wireEncode(encoder): the certificate is encoded anew from its fields (Data::wireEncode(encoder), data.cpp:37-78) *)
Definition sb_value (b : sbag) : res bytes :=
  let! v := da_value (sb_cert b) in Ok (tlv_enc tData v ++ tlv_enc tEncryptedKey (sb_key b)).
(* safe-bag.cpp:63-74 wireEncode() *)
Definition sb_encode (b : sbag) : res elem :=
  let! v := sb_value b in
  let! _ := alloc (tlv_enc tSafeBag v) in
  Ok (mkBlock tSafeBag v).
(* safe-bag.cpp:76-108 wireDecode into an object that holds the certificate d.  The state of the object after an exception is not modelled. *)
Definition sb_decode (e : elem) (d : data) : res sbag :=
  if negb (e_type e =? tSafeBag) then Err ETlv
  else
    let! es := parseValue (e_val e) in
    match es with
    | [] => Err ETlv
    | c :: es' =>
        match da_decode c d with
        | (_, Some x) => Err x
        | (d', None) =>
            match es' with
            | [] => Err ETlv
            | k :: rest => if negb (e_type k =? tEncryptedKey) then Err ETlv
                           else match rest with [] => Ok (mkSb d' (e_val k)) | _ => Err ETlv end
            end
        end
    end.

(* ---- AdditionalDescription ---- *)
(* tlv.hpp:110-113 *)
Definition tAdditionalDescription : N := 258.
Definition tDescriptionEntry : N := 512.
Definition tDescriptionKey : N := 513.
Definition tDescriptionValue : N := 514.
(* std::less<std::string>: the octets compared as unsigned, a proper prefix comes first *)
Fixpoint bytes_cmp (a b : bytes) : comparison :=
  match a, b with
  | [], [] => Eq
  | [], _ => Lt
  | _, [] => Gt
  | x :: a', y :: b' => match bn x ?= bn y with Eq => bytes_cmp a' b' | c => c end
  end.
(* additional-description.hpp:120-123.  ad_info: m_info, a std::map, as the list of its entries in ascending order *)
Record adesc := mkAd { ad_info : list (bytes * bytes); ad_wire : option elem }.
Definition ad_empty : adesc := mkAd [] None.
(* std::map::insert_or_assign, operator[] with an assignment *)
Fixpoint map_put (k v : bytes) (l : list (bytes * bytes)) : list (bytes * bytes) :=
  match l with
  | [] => [(k, v)]
  | (k', v') :: l' =>
      match bytes_cmp k k' with
      | Lt => (k, v) :: l
      | Eq => (k', v) :: l'
      | Gt => (k', v') :: map_put k v l'
      end
  end.
(* additional-description.cpp:37-45 get *)
Definition ad_get (k : bytes) (a : adesc) : res bytes :=
  match find (fun x => bytes_eqb (fst x) k) (ad_info a) with Some x => Ok (snd x) | None => Err ETlv end.
(* additional-description.cpp:53-57 has *)
Definition ad_has (k : bytes) (a : adesc) : bool := existsb (fun x => bytes_eqb (fst x) k) (ad_info a).
(* additional-description.cpp:47-51 set: m_wire is not reset *)
Definition ad_set (k v : bytes) (a : adesc) : adesc := mkAd (map_put k v (ad_info a)) (ad_wire a).
(* additional-description.cpp:85-103 wireEncode(encoder) *)
Definition ad_entry (x : bytes * bytes) : bytes := tlv_enc tDescriptionEntry (tlv_enc tDescriptionKey (fst x) ++ tlv_enc tDescriptionValue (snd x)).
Definition ad_value (a : adesc) : bytes := concat (map ad_entry (ad_info a)).
(* additional-description.cpp:107-121 wireEncode() *)
Definition ad_encode (a : adesc) : res (elem * adesc) :=
  match ad_wire a with
  | Some e => Ok (e, a)
  | None =>
      let! _ := alloc (tlv_enc tAdditionalDescription (ad_value a)) in
      let e := mkBlock tAdditionalDescription (ad_value a) in
      Ok (e, mkAd (ad_info a) (Some e))
  end.
(* additional-description.cpp:134-157 the loop over the elements *)
Fixpoint ad_loop (es : list elem) (l : list (bytes * bytes)) : res (list (bytes * bytes)) :=
  match es with
  | [] => Ok l
  | e :: es' =>
      if e_type e =? tDescriptionEntry then
        let! xs := parseValue (e_val e) in
        match xs with
        | [k; v] =>
            if negb (e_type k =? tDescriptionKey) || negb (e_type v =? tDescriptionValue) then Err ETlv
            else ad_loop es' (map_put (e_val k) (e_val v) l)
        | _ => Err ETlv
        end
      else if isCriticalType (e_type e) then Err ETlv
      else ad_loop es' l
  end.
(* additional-description.cpp:123-158 wireDecode.  The state of the object after an exception is not modelled. *)
Definition ad_decode (e : elem) : res adesc :=
  if negb (e_type e =? tAdditionalDescription) then Err ETlv
  else let! es := parseValue (e_val e) in let! l := ad_loop es [] in Ok (mkAd l (Some e)).
(* additional-description.hpp:113-117 operator== *)
Fixpoint info_eqb (a b : list (bytes * bytes)) : bool :=
  match a, b with
  | [], [] => true
  | x :: a', y :: b' => bytes_eqb (fst x) (fst y) && bytes_eqb (snd x) (snd y) && info_eqb a' b'
  | _, _ => false
  end.
Definition ad_eqb (a b : adesc) : bool := info_eqb (ad_info a) (ad_info b).
Inductive ad_op := AdSet (k v : bytes) | AdEncode | AdDecode (e : elem).
(* None: an exception from wireDecode *)
Definition ad_step (o : ad_op) (a : adesc) : option adesc :=
  match o with
  | AdSet k v => Some (ad_set k v a)
  | AdEncode => match ad_encode a with Ok (_, a') => Some a' | Err _ => Some a end
  | AdDecode e => match ad_decode e with Ok a' => Some a' | Err _ => None end
  end.
Fixpoint ad_run (l : list ad_op) (a : adesc) : option adesc :=
  match l with [] => Some a | o :: l' => match ad_step o a with Some a' => ad_run l' a' | None => None end end.

(* ---- SigningInfo ---- *)
(* signing-info.hpp:46-59 SignerType *)
Inductive sg_type := SgNull | SgId | SgKey | SgCert | SgSha256 | SgHmac.
(* signing-info.hpp:306-313: the members that make the text *)
Record sginfo := mkSg { sg_kind : sg_type; sg_name : name }.
(* signing-info.cpp:31-43 *)
Definition sg_digestName : name := match nm_fromUri (str "/localhost/identity/digest-sha256") with Ok n => n | Err _ => nm_empty end.
Definition sg_hmacName : name := match nm_fromUri (str "/localhost/identity/hmac") with Ok n => n | Err _ => nm_empty end.
(* signing-info.cpp:69-105 SigningInfo(signingStr).  load: base64Decode, PrivateKey::loadRaw and getKeyDigest (signing-info.cpp:134-150): the digest of
   the key, or an exception.  f: the default format of Name << and toUri, which an environment variable chooses (name-component.hpp:35-46). *)
Definition sg_parse (f : uri_format) (load : bytes -> res bytes) (s : bytes) : res sginfo :=
  match s with
  | [] => Ok (mkSg SgNull nm_empty)
  | _ =>
      match split_at cColon s with
      | None => Err EInvalidArg
      | Some (scheme, arg) =>
          if bytes_eqb scheme (str "id") then
            if bytes_eqb arg (nm_toUri f sg_digestName) then Ok (mkSg SgSha256 nm_empty)
            else let! n := nm_fromUri arg in Ok (mkSg SgId n)
          else if bytes_eqb scheme (str "key") then let! n := nm_fromUri arg in Ok (mkSg SgKey n)
          else if bytes_eqb scheme (str "cert") then let! n := nm_fromUri arg in Ok (mkSg SgCert n)
          else if bytes_eqb scheme (str "hmac-sha256") then
            let! d := load arg in Ok (mkSg SgHmac (nm_append (mkComp tGenericNameComponent None d) sg_hmacName))
          else Err EInvalidArg
      end
  end.
(* signing-info.cpp:185-203 operator<< *)
Definition sg_print (f : uri_format) (i : sginfo) : bytes :=
  match sg_kind i with
  | SgNull => []
  | SgId => str "id:" ++ nm_toUri f (sg_name i)
  | SgKey => str "key:" ++ nm_toUri f (sg_name i)
  | SgCert => str "cert:" ++ nm_toUri f (sg_name i)
  | SgSha256 => str "id:" ++ nm_toUri f sg_digestName
  | SgHmac => str "id:" ++ nm_toUri f (sg_name i)
  end.

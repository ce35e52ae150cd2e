(* Model of Data packets with a prescribed content: link.{hpp,cpp}, metadata-object.{hpp,cpp}, prefix-announcement.{hpp,cpp}.
   Signing is given as a SignatureInfo and the signing operation, as in M_Packet; None is a KeyChain::sign that throws before it touches the packet
   (no such identity or key: security/key-chain.cpp:399-404).  Printing is not modelled. *)
From Coq Require Import ZArith.
From Verif Require Import Base M_Tlv M_Str M_Name M_Packet M_Validity.
Open Scope N_scope.
Open Scope list_scope.

(* ---- Link ---- *)

(* link.hpp: the Data and m_delegations *)
Record link := mkLink { lk_data : data; lk_dels : list name }.
(* link.cpp:28 Link() *)
Definition lk_empty : link := mkLink da_empty [].
(* link.cpp:42-47 encodeContent: the type, then a Content element with the names in it, which allocates *)
Definition lk_encodeContent (l : link) : link * option err :=
  let d := da_setContentType 1 (lk_data l) in
  let c := mkBlock tContent (concat (map nm_octets (lk_dels l))) in
  match alloc (e_wire c) with
  | Err x => (mkLink d (lk_dels l), Some x)
  | Ok _ => let (d', o) := da_setContentBlock (comp_of_elem c) d in (mkLink d' (lk_dels l), o)
  end.
(* link.cpp:35-40 Link(name, delegations) *)
Definition lk_new (n : name) (ds : list name) : link * option err := lk_encodeContent (mkLink (da_of n) ds).
(* link.cpp:63-70 the loop of wireDecode *)
Fixpoint lk_loop (es : list elem) (acc : list name) : list name * option err :=
  match es with
  | [] => (acc, None)
  | e :: es' =>
      if e_type e =? tName then match nm_decode e with Ok n => lk_loop es' (acc ++ [n]) | Err x => (acc, Some x) end
      else if isCriticalType (e_type e) then (acc, Some ETlv)
      else lk_loop es' acc
  end.
(* link.cpp:49-71 wireDecode: the object left behind, and what it throws *)
Definition lk_decode (e : elem) (l : link) : link * option err :=
  match da_decode e (lk_data l) with
  | (d, Some x) => (mkLink d (lk_dels l), Some x)
  | (d, None) =>
      if negb (mi_type (d_meta d) =? 1) then (mkLink d (lk_dels l), Some ETlv)
      else match parseValue (c_val (d_content d)) with
           | Err x => (mkLink d [], Some x)
           | Ok es => let (ns, o) := lk_loop es [] in (mkLink d ns, o)
           end
  end.
(* link.cpp:73-78 setDelegationList *)
Definition lk_set (ds : list name) (l : link) : link * option err := lk_encodeContent (mkLink (lk_data l) ds).
(* link.cpp:80-90 addDelegation *)
Definition lk_add (n : name) (l : link) : link * res bool :=
  if existsb (fun x => nm_equals x n) (lk_dels l) then (l, Ok false)
  else let (l', o) := lk_encodeContent (mkLink (lk_data l) (lk_dels l ++ [n])) in
       (l', match o with None => Ok true | Some x => Err x end).
(* link.cpp:92-103 removeDelegation *)
Definition lk_remove (n : name) (l : link) : link * res bool :=
  if existsb (fun x => nm_equals x n) (lk_dels l)
  then let (l', o) := lk_encodeContent (mkLink (lk_data l) (filter (fun x => negb (nm_equals x n)) (lk_dels l))) in
       (l', match o with None => Ok true | Some x => Err x end)
  else (l, Ok false).
(* removeDelegation(getDelegationList()[i]): the argument is a reference to an element of the list that std::remove works on, so it changes
   when that element is overwritten.  The loop of libstdc++'s __remove_if after the first match: f is the element looked at, r where the next kept one goes *)
Fixpoint rm_loop (fuel : nat) (i r f : nat) (arr : list name) : list name :=
  match fuel with
  | O => firstn r arr
  | S fuel' =>
      match nth_error arr f, nth_error arr i with
      | Some x, Some v =>
          if nm_equals x v then rm_loop fuel' i r (S f) arr
          else rm_loop fuel' i (S r) (S f) (firstn r arr ++ x :: skipn (S r) arr)
      | _, _ => firstn r arr
      end
  end.
Fixpoint find_at (v : name) (l : list name) : nat :=
  match l with [] => O | x :: l' => if nm_equals x v then O else S (find_at v l') end.
Definition lk_removeAt (i : nat) (l : link) : link * res bool :=
  match nth_error (lk_dels l) i with
  | None => (l, Err EUb)
  | Some v =>
      let j := find_at v (lk_dels l) in
      let (l', o) := lk_encodeContent (mkLink (lk_data l) (rm_loop (length (lk_dels l)) i j (S j) (lk_dels l))) in
      (l', match o with None => Ok true | Some x => Err x end)
  end.

Section Special.
Variable conv dconv : convention.      (* the conventions for encoding and decoding *)

(* name[-3] is the keyword, name[-2] a version, name[-1] a segment: metadata-object.cpp:85-90, prefix-announcement.cpp:32-36 *)
Definition versioned (kw : comp) (n : name) : bool :=
  (3 <=? nm_size n) &&
  match nm_get (-3) n, nm_get (-2) n, nm_get (-1) n with
  | Ok k, Ok v, Ok s => comp_eqb k kw && isKind dconv KVersion v && isKind dconv KSegment s
  | _, _, _ => false
  end.

(* ---- MetadataObject ---- *)

(* metadata-object.cpp:78-83 getKeywordComponent *)
Definition kw_metadata : comp := mkComp tKeywordNameComponent None (str "metadata").
(* metadata-object.cpp:30-47 MetadataObject(data): the versioned name *)
Definition mo_ofData (d : data) : res name :=
  if negb (versioned kw_metadata (d_name d)) then Err ETlv
  else if negb (mi_type (d_meta d) =? 0) then Err ETlv
  else if nlen (c_val (d_content d)) =? 0 then Err ETlv
  else let! es := parseValue (c_val (d_content d)) in
       let! x := of_opt ETlv (find (fun e => e_type e =? tName) es) in
       nm_decode x.
(* metadata-object.cpp:49-69 makeData; version: the one given, or the time, as a uint64_t *)
Definition mo_makeData (vname disc : name) (signing : option (siginfo * (bytes -> bytes))) (version : N) (fresh : Z) : res data :=
  if (nm_size disc =? 0) || negb (match nm_get (-1) disc with Ok c => comp_eqb c kw_metadata | Err _ => false end) then Err ETlv
  else
    let! v := fromKind conv KVersion version in
    let! s := fromKind conv KSegment 0 in
    let! w := nm_encode vname in
    match da_setContentBlock (comp_of_elem (fst w)) (da_of (nm_append s (nm_append v disc))) with
    | (_, Some x) => Err x
    | (d1, None) =>
        match da_setFreshnessPeriod fresh d1 with
        | (_, Some x) => Err x
        | (d2, None) =>
            match signing with
            | None => Err ERuntime
            | Some (si, signer) => match da_sign signer si d2 with (d3, Ok _) => Ok d3 | (_, Err x) => Err x end
            end
        end
    end.
(* metadata-object.cpp:92-98 makeDiscoveryInterest: the name of the Interest, which has CanBePrefix and MustBeFresh *)
Definition mo_discovery (n : name) : name := nm_append kw_metadata n.

(* ---- PrefixAnnouncement ---- *)

(* prefix-announcement.cpp:119-124 getKeywordComponent *)
Definition kw_pa : comp := mkComp tKeywordNameComponent None (str "PA").
(* encoding/tlv-nfd.hpp:45 *)
Definition tExpirationPeriod : N := 109.
(* prefix-announcement.hpp:147-151: m_data, m_announcedName, m_expiration (ms), m_validity *)
Record pann := mkPa { pa_data : option data; pa_name : name; pa_exp : Z; pa_valid : option validity }.
(* prefix-announcement.cpp:27 *)
Definition pa_new : pann := mkPa None nm_empty 0 None.
(* a uint64_t converted to the int64_t of time::milliseconds *)
Definition as_int64 (n : N) : Z := if n <? 2 ^ 63 then Z.of_N n else (Z.of_N n - 2 ^ 64)%Z.
(* an int64_t converted to uint64_t *)
Definition as_uint64 (z : Z) : N := Z.to_N (z mod 2 ^ 64).
Section Validity.
Variable other : bytes -> res Z.       (* the library, on times that are not in the basic ISO format: see M_Validity *)
(* prefix-announcement.cpp:29-64 PrefixAnnouncement(data) *)
Definition pa_ofData (d : data) : res pann :=
  if negb (versioned kw_pa (d_name d)) then Err ETlv
  else if negb (mi_type (d_meta d) =? 5) then Err ETlv
  else if nlen (c_val (d_content d)) =? 0 then Err ETlv
  else
    let! es := parseValue (c_val (d_content d)) in
    let! x := of_opt ETlv (find (fun e => e_type e =? tExpirationPeriod) es) in
    let! n := readNNIBlock x in
    let! v := match find (fun e => e_type e =? tValidityPeriod) es with
              | None => Ok None
              | Some y => let! p := vp_ofBlock other y in Ok (Some p)
              end in
    if existsb (fun e => negb (e_type e =? tExpirationPeriod) && negb (e_type e =? tValidityPeriod) && isCriticalType (e_type e)) es
    then Err ETlv
    else Ok (mkPa (Some d) (nm_getPrefix (-3) (d_name d)) (as_int64 n) v).
End Validity.
(* prefix-announcement.cpp:66-90 toData: the object left behind and the Data.  m_data is assigned before the packet is signed. *)
Definition pa_toData (signing : option (siginfo * (bytes -> bytes))) (version : N) (p : pann) : pann * res data :=
  match pa_data p with
  | Some d => (p, Ok d)
  | None =>
      match fromKind conv KVersion version, fromKind conv KSegment 0 with
      | Ok v, Ok s =>
          let d0 := da_setContentType 5 (da_of (nm_append s (nm_append v (nm_append kw_pa (pa_name p))))) in
          let '(valid, w) := match pa_valid p with
                             | None => (None, [])
                             | Some q => let (q', e) := vp_wireEncode q in (Some q', e_wire e)
                             end in
          let c := mkBlock tContent (e_wire (mkNNIBlock tExpirationPeriod (as_uint64 (pa_exp p))) ++ w) in
          match da_setContentBlock (comp_of_elem c) d0 with
          | (d1, Some x) => (mkPa (Some d1) (pa_name p) (pa_exp p) valid, Err x)
          | (d1, None) =>
              match signing with
              | None => (mkPa (Some d1) (pa_name p) (pa_exp p) valid, Err ERuntime)
              | Some (si, signer) =>
                  match da_sign signer si d1 with
                  | (d2, Ok _) => (mkPa (Some d2) (pa_name p) (pa_exp p) valid, Ok d2)
                  | (d2, Err x) => (mkPa (Some d2) (pa_name p) (pa_exp p) valid, Err x)
                  end
              end
          end
      | Err x, _ => (p, Err x)
      | _, Err x => (p, Err x)
      end
  end.
(* prefix-announcement.cpp:92-98 setAnnouncedName, 100-109 setExpiration, 111-117 setValidityPeriod *)
Definition pa_setName (n : name) (p : pann) : pann := mkPa None n (pa_exp p) (pa_valid p).
Definition pa_setExpiration (z : Z) (p : pann) : pann * option err :=
  if (z <? 0)%Z then (p, Some EInvalidArg) else (mkPa None (pa_name p) z (pa_valid p), None).
Definition pa_setValidity (v : option validity) (p : pann) : pann := mkPa None (pa_name p) (pa_exp p) v.
(* prefix-announcement.hpp:138-144 operator== *)
Definition pa_eqb (a b : pann) : bool :=
  nm_equals (pa_name a) (pa_name b) && (pa_exp a =? pa_exp b)%Z &&
  match pa_valid a, pa_valid b with
  | None, None => true
  | Some x, Some y => vp_eqb x y
  | _, _ => false
  end.
End Special.

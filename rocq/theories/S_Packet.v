(* Vocabulary of the statements about MetaInfo, KeyLocator, SignatureInfo and Data. *)
From Verif Require Import Base S_Tlv M_Tlv M_Name S_Name M_Packet.

(* ---- observable fields ---- *)

(* a Block the user supplies or reads is an encodable element *)
Definition blk_ok (b : blk) : Prop := is_tlv (c_type b) (c_val b) (blk_octets b).

(* MetaInfo: ContentType, FreshnessPeriod, FinalBlockId, AppMetaInfo *)
Definition mi_fields (m : metainfo) : N * N * option key * list key :=
  (mi_type m, mi_fresh m, option_map ckey (mi_final m), map ckey (mi_app m)).
(* KeyLocator: nothing, a name, a digest, or an unsupported type *)
Inductive kl_view := KvNone | KvName (n : list key) | KvDigest (k : key) | KvOther (t : N).
Definition kl_fields (k : keylocator) : kl_view :=
  match kl_loc k with
  | KlNone => KvNone | KlName n => KvName (nkey n) | KlDigest b => KvDigest (ckey b) | KlOther t => KvOther t
  end.
(* SignatureInfo: SignatureType, KeyLocator, all other elements in order *)
Definition si_fields (s : siginfo) : option N * option kl_view * list key :=
  (si_type s, option_map kl_fields (si_key s), map ckey (si_other s)).
(* Data: Name, MetaInfo, Content (type 0 if absent), SignatureInfo, SignatureValue *)
Record da_view := mkDV {
  v_name : list key; v_meta : N * N * option key * list key; v_content : key;
  v_sinfo : option N * option kl_view * list key; v_sval : key }.
Definition da_fields (d : data) : da_view :=
  mkDV (nkey (d_name d)) (mi_fields (d_meta d)) (ckey (d_content d)) (si_fields (d_sinfo d)) (ckey (d_sval d)).

(* ---- values in the ranges of the C++ types; elements that a decoder does not confuse ---- *)
Definition mi_ok (m : metainfo) : Prop :=
  mi_type m < 2 ^ 32 /\ mi_fresh m < 2 ^ 64 /\
  (forall c, mi_final m = Some c -> valid_key (ckey c)) /\
  Forall (fun b => blk_ok b /\ c_type b <> 24 /\ c_type b <> 25 /\ c_type b <> 26) (mi_app m).
Definition kl_ok (k : keylocator) : Prop :=
  match kl_loc k with
  | KlName n => Forall ctype_ok (n_comps n)
  | KlDigest b => c_type b = 29 /\ blk_ok b
  | _ => True
  end.
(* NDN packet specification: types below 32 and odd types are critical *)
Definition critical (t : N) : Prop := t < 32 \/ N.odd t = true.
(* elements SignatureInfo keeps: non-critical ones and ValidityPeriod (253); SignatureNonce (38) is not empty *)
Definition si_other_ok (b : blk) : Prop :=
  blk_ok b /\ (~ critical (c_type b) \/ c_type b = 253) /\ (c_type b = 38 -> c_val b <> []).
Definition si_ok (s : siginfo) : Prop :=
  (forall t, si_type s = Some t -> t < 2 ^ 16) /\
  (forall k, si_key s = Some k -> kl_ok k) /\
  Forall si_other_ok (si_other s).
Definition content_ok (b : blk) : Prop := b = blk_invalid \/ c_type b = 21 /\ blk_ok b.
Definition sval_ok (b : blk) : Prop := b = blk_invalid \/ c_type b = 23 /\ blk_ok b.
Definition da_ok (d : data) : Prop :=
  Forall ctype_ok (n_comps (d_name d)) /\ mi_ok (d_meta d) /\ content_ok (d_content d) /\
  si_ok (d_sinfo d) /\ sval_ok (d_sval d).

(* ---- the layouts the packet specification gives: (type, value) sequences ---- *)
(* MetaInfo: ContentType (24), FreshnessPeriod (25), FinalBlockId (26) each only if set, then the rest *)
Definition mi_layout (v : N * N * option key * list key) (l : list key) : Prop :=
  let '(t, f, c, a) := v in
  exists lt lf lc, l = lt ++ lf ++ lc ++ a /\
    (t = 0 /\ lt = [] \/ t <> 0 /\ exists d, shortest_nni t d /\ lt = [(24, d)]) /\
    (f = 0 /\ lf = [] \/ f <> 0 /\ exists d, shortest_nni f d /\ lf = [(25, d)]) /\
    match c with None => lc = [] | Some k => exists w, is_tlv (fst k) (snd k) w /\ lc = [(26, w)] end.
(* KeyLocator: nothing, a Name (7) or a KeyDigest (29) *)
Definition kl_layout (v : kl_view) (w : bytes) : Prop :=
  match v with
  | KvNone => w = []
  | KvName n => exists x, is_tlv_seq n x /\ is_tlv 7 x w
  | KvDigest k => fst k = 29 /\ is_tlv 29 (snd k) w
  | KvOther _ => False
  end.
(* SignatureInfo: SignatureType (27), KeyLocator (28) if set, then the rest *)
Definition si_layout (v : option N * option kl_view * list key) (l : list key) : Prop :=
  let '(t, k, a) := v in
  exists n d lk, t = Some n /\ shortest_nni n d /\ l = (27, d) :: lk ++ a /\
    match k with None => lk = [] | Some x => exists w, kl_layout x w /\ lk = [(28, w)] end.

(* ---- the layout of a Data packet ---- *)
Definition da_recognised (t : N) : bool := (t =? 20) || (t =? 21) || (t =? 22) || (t =? 23).
Definition opt_list {A} (o : option A) : list A := match o with Some x => [x] | None => [] end.
(* the elements after the Name: in this order, each at most once, with non-critical
   unrecognised elements anywhere *)
Definition da_layout (mi c : option elem) (si sv : elem) (es : list elem) : Prop :=
  filter (fun e => da_recognised (e_type e)) es = opt_list mi ++ opt_list c ++ [si; sv] /\
  Forall (fun e => da_recognised (e_type e) = false -> ~ critical (e_type e)) es /\
  (forall e, mi = Some e -> e_type e = 20) /\ (forall e, c = Some e -> e_type e = 21) /\
  e_type si = 22 /\ e_type sv = 23.
(* an element with these parts: n the Name element, es what follows it *)
Definition da_parts (e n : elem) (es : list elem) (mi c : option elem) (si sv : elem) (nm : name) (m : metainfo)
  (s : siginfo) : Prop :=
  e_type e = 6 /\ parseValue (e_val e) = Ok (n :: es) /\ nm_decode n = Ok nm /\
  da_layout mi c si sv es /\
  match mi with Some x => mi_decode x mi_empty = (m, None) | None => m = mi_empty end /\
  si_decode SiData si = (s, None).
Definition blk_of (c : option elem) : blk := match c with Some x => comp_of_elem x | None => blk_invalid end.
(* sequences of (type, value) that are not a Data: no Name first; no SignatureInfo; no SignatureValue;
   a recognised element repeated or before one that must precede it; a critical unrecognised element *)
Inductive da_malformed : list key -> Prop :=
| mal_empty : da_malformed []
| mal_noname : forall t v l, t <> 7 -> da_malformed ((t, v) :: l)
| mal_nosinfo : forall k l, ~ In 22 (map fst l) -> da_malformed (k :: l)
| mal_nosval : forall k l, ~ In 23 (map fst l) -> da_malformed (k :: l)
| mal_order : forall k a x b y c, da_recognised (fst x) = true -> da_recognised (fst y) = true -> fst y <= fst x ->
    da_malformed (k :: a ++ x :: b ++ y :: c)
| mal_critical : forall k a x b, da_recognised (fst x) = false -> critical (fst x) -> da_malformed (k :: a ++ x :: b).
(* what decoding an element yields, ignoring which object it is decoded into *)
Definition da_reads (w : bytes) : option da_view :=
  match da_decode (mkBlock tData w) da_empty with (d, None) => Some (da_fields d) | _ => None end.

(* ---- histories ---- *)

Inductive mi_op :=
| MSetType (t : N) | MSetFresh (f : Z) | MSetFinal (c : option comp) | MSetApp (l : list blk)
| MAddApp (b : blk) | MRemoveApp (t : N) | MEncode.
Definition mi_step (op : mi_op) (m : metainfo) : metainfo :=
  match op with
  | MSetType t => mi_setType t m
  | MSetFresh f => fst (mi_setFreshnessPeriod f m)
  | MSetFinal c => mi_setFinalBlock c m
  | MSetApp l => fst (mi_setAppMetaInfo l m)
  | MAddApp b => fst (mi_addAppMetaInfo b m)
  | MRemoveApp t => fst (mi_removeAppMetaInfo t m)
  | MEncode => match mi_encode m with Ok r => snd r | Err _ => m end
  end.
Definition mi_run (ops : list mi_op) (m : metainfo) : metainfo := fold_left (fun m op => mi_step op m) ops m.
(* arguments are in the ranges of their C++ types *)
Definition mi_op_ok (op : mi_op) : Prop :=
  match op with
  | MSetType t => t < 2 ^ 32
  | MSetFresh f => (f <= MAX_MS)%Z
  | MSetFinal (Some c) => valid_key (ckey c)
  | MSetApp l => Forall blk_ok l
  | MAddApp b => blk_ok b
  | _ => True
  end.

Inductive si_op :=
| SSetType (t : N) | SSetKey (k : option keylocator) | SSetNonce (n : option bytes)
| SSetNumber (t : N) (n : option N) | SAddCustom (b : blk) | SRemoveCustom (t : N) | SEncode.
Definition si_step (k : si_kind) (op : si_op) (s : siginfo) : siginfo :=
  match op with
  | SSetType t => si_setSignatureType t s
  | SSetKey kl => si_setKeyLocator kl s
  | SSetNonce n => si_setNonce n s
  | SSetNumber t n => si_setNumber t n s
  | SAddCustom b => si_addCustomTlv b s
  | SRemoveCustom t => si_removeCustomTlv t s
  | SEncode => match si_encode k s with Ok r => snd r | Err _ => s end
  end.
Definition si_run (k : si_kind) (ops : list si_op) (s : siginfo) : siginfo :=
  fold_left (fun s op => si_step k op s) ops s.
Definition si_op_ok (op : si_op) : Prop :=
  match op with
  | SSetType t => t < 2 ^ 16
  | SSetKey (Some k) => kl_ok k
  | SSetNonce (Some v) => v <> [] /\ nlen v < 2 ^ 64
  | SSetNumber t (Some n) => (t = 40 \/ t = 42) /\ n < 2 ^ 64
  | SAddCustom b => si_other_ok b
  | _ => True
  end.

(* what each call does to the fields *)
Definition mi_effect (op : mi_op) (v v' : N * N * option key * list key) : Prop :=
  let '(t, f, c, l) := v in
  match op with
  | MSetType t' => v' = (t', f, c, l)
  | MSetFresh f' => v' = if (f' <? 0)%Z then v else (t, Z.to_N f', c, l)
  | MSetFinal c' => v' = (t, f, option_map ckey c', l)
  | MSetApp l' => v' = if forallb (fun b => (128 <=? c_type b) && (c_type b <=? 252)) l' then (t, f, c, map ckey l') else v
  | MAddApp b => v' = if (128 <=? c_type b) && (c_type b <=? 252) then (t, f, c, l ++ [ckey b]) else v
  | MRemoveApp x =>   (* the first of that type *)
      (exists a k r, l = a ++ k :: r /\ fst k = x /\ ~ In x (map fst a) /\ v' = (t, f, c, a ++ r)) \/
      ~ In x (map fst l) /\ v' = v
  | MEncode => v' = v
  end.
(* the first element of the same type is replaced, or the element is added at the end *)
Definition put_first (k : key) (l l' : list key) : Prop :=
  (exists a x r, l = a ++ x :: r /\ fst x = fst k /\ ~ In (fst k) (map fst a) /\ l' = a ++ k :: r) \/
  ~ In (fst k) (map fst l) /\ l' = l ++ [k].
Definition drop_type (t : N) (l : list key) : list key := filter (fun k => negb (fst k =? t)) l.
Definition si_effect (op : si_op) (v v' : option N * option kl_view * list key) : Prop :=
  let '(t, k, l) := v in
  match op with
  | SSetType t' => v' = (Some t', k, l)
  | SSetKey k' => v' = (t, option_map kl_fields k', l)
  | SSetNonce (Some n) => exists l', put_first (38, n) l l' /\ v' = (t, k, l')
  | SSetNonce None => v' = (t, k, drop_type 38 l)
  | SSetNumber x (Some n) => exists l' d, shortest_nni n d /\ put_first (x, d) l l' /\ v' = (t, k, l')
  | SSetNumber x None => v' = (t, k, drop_type x l)
  | SAddCustom b => exists l', put_first (ckey b) l l' /\ v' = (t, k, l')
  | SRemoveCustom x => v' = (t, k, drop_type x l)
  | SEncode => v' = v
  end.

Section Histories.
Variable sha256 : bytes -> bytes.

(* one Data object: every call, with the object it leaves behind and whether it threw *)
Inductive da_op :=
| DSetName (n : name) | DSetMeta (m : metainfo) | DSetContentBlock (b : blk) | DSetContent (v : bytes)
| DSetContentBuf (v : bytes) | DUnsetContent | DSetSigInfo (s : siginfo) | DSetSigValue (v : bytes)
| DSetSigValueBuf (v : bytes) | DSetType (t : N) | DSetFresh (f : Z) | DSetFinal (c : option comp)
| DEncode | DFullName | DSignedRange | DSign (signer : bytes -> bytes) (s : siginfo) | DDecode (e : elem).
Definition err_of {A} (r : res A) : option err := match r with Ok _ => None | Err x => Some x end.
Definition da_step (op : da_op) (d : data) : data * option err :=
  match op with
  | DSetName n => (da_setName n d, None)
  | DSetMeta m => (da_setMetaInfo m d, None)
  | DSetContentBlock b => da_setContentBlock b d
  | DSetContent v => (da_setContent v d, None)
  | DSetContentBuf v => (da_setContentBuf v d, None)
  | DUnsetContent => (da_unsetContent d, None)
  | DSetSigInfo s => (da_setSignatureInfo s d, None)
  | DSetSigValue v => (da_setSignatureValue v d, None)
  | DSetSigValueBuf v => (da_setSignatureValueBuf v d, None)
  | DSetType t => (da_setContentType t d, None)
  | DSetFresh f => da_setFreshnessPeriod f d
  | DSetFinal c => (da_setFinalBlock c d, None)
  | DEncode => let (d', r) := da_encode d in (d', err_of r)
  | DFullName => let (d', r) := da_getFullName sha256 d in (d', err_of r)
  | DSignedRange => let (d', r) := da_signedRange d in (d', err_of r)
  | DSign signer s => let (d', r) := da_sign signer s d in (d', err_of r)
  | DDecode e => da_decode e d
  end.
Definition da_run (ops : list da_op) (d : data) : data := fold_left (fun d op => fst (da_step op d)) ops d.
(* every call of the history that threw left the object as it was *)
Fixpoint clean (ops : list da_op) (d : data) : Prop :=
  match ops with
  | [] => True
  | op :: ops' =>
      (snd (da_step op d) = None \/ fst (da_step op d) = d) /\ clean ops' (fst (da_step op d))
  end.
(* arguments are in the ranges of their C++ types and encodable *)
Definition da_op_ok (op : da_op) : Prop :=
  match op with
  | DSetName n => Forall ctype_ok (n_comps n)
  | DSetMeta m => mi_ok m
  | DSetContentBlock b => blk_ok b /\ nlen (blk_octets b) < 2 ^ 64
  | DSetContent v | DSetContentBuf v | DSetSigValue v | DSetSigValueBuf v => nlen v < 2 ^ 64
  | DSetSigInfo s => si_ok s
  | DSetType t => t < 2 ^ 32
  | DSetFresh f => (f <= MAX_MS)%Z
  | DSetFinal (Some c) => valid_key (ckey c)
  | DSign signer s => si_ok s
  (* a received packet whose MetaInfo, if any, has its elements in the specified order *)
  | DDecode e => is_tlv (e_type e) (e_val e) (e_wire e) /\
      forall d, da_decode e da_empty = (d, None) -> mi_ok (d_meta d)
  | _ => True
  end.
(* what each call that returns does to the fields *)
Definition da_effect (op : da_op) (v v' : da_view) : Prop :=
  let '(mkDV n (t, f, c, l) ct s sv) := v in
  let meta m' := mkDV n m' ct s sv in
  let content k := mkDV n (v_meta v) k s sv in
  match op with
  | DSetName n' => v' = mkDV (nkey n') (v_meta v) ct s sv
  | DSetMeta m' => v' = meta (mi_fields m')
  | DSetContentBlock b => v' = content (21, if c_type b =? 21 then c_val b else blk_octets b)
  | DSetContent x | DSetContentBuf x => v' = content (21, x)
  | DUnsetContent => v' = content (0, [])
  | DSetSigInfo s' => v' = mkDV n (v_meta v) ct (si_fields s') sv
  | DSetSigValue x | DSetSigValueBuf x => v' = mkDV n (v_meta v) ct s (23, x)
  | DSetType t' => v' = meta (t', f, c, l)
  (* getFreshnessPeriod clamps to 2^63-1 ms *)
  | DSetFresh f' => exists r, v' = meta (t, r, c, l) /\ N.min r (2 ^ 63 - 1) = Z.to_N f' /\ (0 <= f')%Z
  | DSetFinal c' => v' = meta (t, f, option_map ckey c', l)
  | DEncode | DFullName | DSignedRange => v' = v
  | DSign signer s' => exists u, v' = mkDV n (v_meta v) ct (si_fields s') (23, signer u)
  | DDecode e => da_reads (e_val e) = Some v'
  end.
End Histories.

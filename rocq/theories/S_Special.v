(* Vocabulary of the statements about Link, MetadataObject and PrefixAnnouncement. *)
From Coq Require Import ZArith.
From Verif Require Import Base S_Tlv M_Tlv M_Str M_Name S_Name M_Packet S_Packet M_Validity S_Validity M_Special.
Open Scope N_scope.
Open Scope list_scope.

(* the Names among a sequence of (type, value), in order; elements of other types are not critical *)
Inductive names_in : list key -> list (list key) -> Prop :=
| ni_nil : names_in [] []
| ni_name : forall v cs l ns, is_tlv_seq cs v -> names_in l ns -> names_in ((7, v) :: l) (cs :: ns)
| ni_other : forall t v l ns, t <> 7 -> ~ critical t -> names_in l ns -> names_in ((t, v) :: l) ns.
(* a packet says these delegations: its ContentType is Link (1) and its Content holds these Names *)
Definition says (d : data) (ns : list (list key)) : Prop :=
  mi_type (d_meta d) = 1 /\ exists l, is_tlv_seq l (c_val (d_content d)) /\ names_in l ns.
Definition key_dec : forall a b : list key, {a = b} + {a <> b}.
Proof. apply list_eq_dec. intros [t v] [t' v']. destruct (N.eq_dec t t') as [->|T]; [|right; congruence]. destruct (list_eq_dec Coq.Strings.Byte.byte_eq_dec v v') as [->|V]; [left; reflexivity|right; congruence]. Defined.

(* a name, with its cached wire if it has one *)
Definition name_ok (n : name) : Prop :=
  Forall ctype_ok (n_comps n) /\
  forall e, n_wire n = Some e -> e_type e = 7 /\ is_tlv_seq (nkey n) (e_val e) /\ is_tlv 7 (e_val e) (e_wire e).

Section Histories.
Variable sha256 : bytes -> bytes.
(* one Link object; the calls it inherits from Data, except those that set MetaInfo, ContentType or Content *)
Inductive lk_op := LSet (ds : list name) | LAdd (n : name) | LRemove (n : name) | LDecode (e : elem) | LData (op : da_op).
(* what a call returns: a bool for addDelegation and removeDelegation *)
Definition lk_step (op : lk_op) (l : link) : link * res (option bool) :=
  let ret (p : link * option err) := (fst p, match snd p with None => Ok None | Some x => Err x end) in
  let retb (p : link * res bool) := (fst p, match snd p with Ok b => Ok (Some b) | Err x => Err x end) in
  match op with
  | LSet ds => ret (lk_set ds l)
  | LAdd n => retb (lk_add n l)
  | LRemove n => retb (lk_remove n l)
  | LDecode e => ret (lk_decode e l)
  | LData op => let (d, o) := da_step sha256 op (lk_data l) in ret (mkLink d (lk_dels l), o)
  end.
Definition lk_run (ops : list lk_op) (l : link) : link := fold_left (fun l op => fst (lk_step op l)) ops l.
(* every call of the history that threw left the object as it was *)
Fixpoint lk_clean (ops : list lk_op) (l : link) : Prop :=
  match ops with
  | [] => True
  | op :: ops' => ((exists r, snd (lk_step op l) = Ok r) \/ fst (lk_step op l) = l) /\ lk_clean ops' (fst (lk_step op l))
  end.
Definition lk_op_ok (op : lk_op) : Prop :=
  match op with
  | LSet ds => Forall (fun n => Forall ctype_ok (n_comps n)) ds
  | LAdd n => Forall ctype_ok (n_comps n)
  | LRemove _ => True
  | LDecode e => da_op_ok (DDecode e)
  | LData op => da_op_ok op /\
      match op with
      | DSetMeta _ | DSetContentBlock _ | DSetContent _ | DSetContentBuf _ | DUnsetContent | DSetType _ | DDecode _ => False
      | _ => True
      end
  end.
(* an object from the constructor with a name and delegations, or decoded *)
Definition lk_start (l : link) : Prop :=
  (exists n ds, Forall ctype_ok (n_comps n) /\ Forall (fun n => Forall ctype_ok (n_comps n)) ds /\ lk_new n ds = (l, None)) \/
  exists e l0, lk_op_ok (LDecode e) /\ lk_decode e l0 = (l, None).
(* what each call that returns does to the list of delegations, and what it returns *)
Definition lk_effect (op : lk_op) (ns : list (list key)) (r : option bool) (ns' : list (list key)) : Prop :=
  match op with
  | LSet ds => ns' = map nkey ds
  | LAdd n => In (nkey n) ns /\ r = Some false /\ ns' = ns \/ ~ In (nkey n) ns /\ r = Some true /\ ns' = ns ++ [nkey n]
  | LRemove n => ns' = remove key_dec (nkey n) ns /\ (In (nkey n) ns /\ r = Some true \/ ~ In (nkey n) ns /\ r = Some false)
  | LDecode e => exists d, da_decode e da_empty = (d, None) /\ says d ns'
  | LData _ => ns' = ns
  end.
End Histories.

(* names that end with a keyword, a version and a segment number *)
Definition ends_with (dconv : convention) (kw : bytes) (n : list key) (pre : list key) : Prop :=
  exists v s nv ns, n = pre ++ [(32, kw); ckey v; ckey s] /\ toKind dconv KVersion v = Ok nv /\ toKind dconv KSegment s = Ok ns.

(* ---- prefix announcements ---- *)
(* the first element of a type *)
Definition first_of (t : N) (l : list key) (v : bytes) : Prop := exists a b, l = a ++ (t, v) :: b /\ ~ In t (map fst a).
Definition valid_ok (other : bytes -> res Z) (p : validity) : Prop :=
  second (vp_nb p) /\ second (vp_na p) /\ forall e, vp_wire p = Some e -> vp_read other (e_wire e) = Ok p.
(* what can be read from an announcement *)
Definition pa_view (p : pann) : list key * Z * option (Z * Z) :=
  (nkey (pa_name p), pa_exp p, option_map (fun v => (vp_nb v, vp_na v)) (pa_valid p)).
(* one object *)
Inductive pa_op := PSetName (n : name) | PSetExp (z : Z) | PSetValid (v : option validity)
  | PToData (signing : option (siginfo * (bytes -> bytes))) (version : N).
Definition pa_step (conv : convention) (op : pa_op) (p : pann) : pann * option err :=
  match op with
  | PSetName n => (pa_setName n p, None)
  | PSetExp z => pa_setExpiration z p
  | PSetValid v => (pa_setValidity v p, None)
  | PToData s n => let (p', r) := pa_toData conv s n p in (p', err_of r)
  end.
Definition pa_run (conv : convention) (ops : list pa_op) (p : pann) : pann := fold_left (fun p op => fst (pa_step conv op p)) ops p.
(* no toData of the history threw *)
Fixpoint signs (conv : convention) (ops : list pa_op) (p : pann) : Prop :=
  match ops with
  | [] => True
  | op :: ops' => match op with PToData _ _ => snd (pa_step conv op p) = None | _ => True end /\ signs conv ops' (fst (pa_step conv op p))
  end.
Definition pa_op_ok (other : bytes -> res Z) (op : pa_op) : Prop :=
  match op with
  | PSetName n => Forall ctype_ok (n_comps n) /\ nlen (n_comps n) + 3 < 2 ^ 64
  | PSetExp z => (z < 2 ^ 63)%Z
  | PSetValid (Some v) => valid_ok other v
  | PSetValid None => True
  | PToData s n => n < 2 ^ 64 /\ forall si f, s = Some (si, f) -> si_ok si
  end.
(* an object from the default constructor, or of a received packet; its expiration is not negative *)
Definition pa_start (dconv : convention) (other : bytes -> res Z) (p : pann) : Prop :=
  p = pa_new \/ exists e d, da_decode e da_empty = (d, None) /\ nm_size (d_name d) + 3 < 2 ^ 64 /\ pa_ofData dconv other d = Ok p /\ (0 <= pa_exp p)%Z.
(* the packet is metadata and carries this name *)
Definition metadata_of (dconv : convention) (d : data) (cs : list key) : Prop :=
  (exists pre, ends_with dconv (str "metadata") (nkey (d_name d)) pre) /\ mi_type (d_meta d) = 0 /\
  exists l v, is_tlv_seq l (c_val (d_content d)) /\ first_of 7 l v /\ is_tlv_seq cs v.
(* the packet announces a prefix, with an ExpirationPeriod (109), perhaps a ValidityPeriod (253), and otherwise only elements that are not critical;
   the number of milliseconds is read as a signed integer *)
Definition announces (dconv : convention) (other : bytes -> res Z) (d : data) (view : list key * Z * option (Z * Z)) : Prop :=
  let '(pre, z, valid) := view in
  ends_with dconv (str "PA") (nkey (d_name d)) pre /\ mi_type (d_meta d) = 5 /\
  exists l v n, is_tlv_seq l (c_val (d_content d)) /\ first_of 109 l v /\ is_nni n v /\
    z = (if (n <? 2 ^ 63)%N then Z.of_N n else Z.of_N n - 2 ^ 64)%Z /\
    match valid with
    | None => ~ In 253 (map fst l)
    | Some (nb, na) => exists w x q, first_of 253 l w /\ is_tlv 253 w x /\ vp_read other x = Ok q /\ vp_nb q = nb /\ vp_na q = na
    end /\
    forall t, In t (map fst l) -> t = 109 \/ t = 253 \/ ~ critical t.

(* Vocabulary of the statements about Interests. *)
From Verif Require Import Base S_Tlv M_Tlv M_Str M_Name S_Name M_Packet S_Packet M_Interest.

(* ---- observable fields ---- *)
Record in_view := mkIV {
  iv_name : list key; iv_cbp : bool; iv_mbf : bool; iv_fh : list (list key); iv_nonce : option bytes;
  iv_life : N; iv_hop : option byte; iv_params : list elem }.
Definition in_fields (i : interest) : in_view :=
  mkIV (nkey (i_name i)) (i_cbp i) (i_mbf i) (map nkey (i_fh i)) (i_nonce i) (i_life i) (i_hop i) (i_params i).

(* an element with its octets *)
Definition elem_ok (e : elem) : Prop := is_tlv (e_type e) (e_val e) (e_wire e).
(* ApplicationParameters (36) followed by non-critical elements that are neither another
   ApplicationParameters nor a HopLimit (34) *)
Definition params_ok (p : list elem) : Prop :=
  match p with
  | [] => True
  | ap :: r => elem_ok ap /\ e_type ap = 36 /\
      Forall (fun e => elem_ok e /\ ~ critical (e_type e) /\ e_type e <> 34 /\ e_type e <> 36) r
  end.
Definition in_ok (i : interest) : Prop :=
  Forall ctype_ok (n_comps (i_name i)) /\ Forall (fun n => Forall ctype_ok (n_comps n)) (i_fh i) /\
  (forall x, i_nonce i = Some x -> nlen x = 4) /\ i_life i < 2 ^ 64 /\ params_ok (i_params i).

(* ---- the parameters digest ---- *)
(* ParametersSha256DigestComponents: type 2, 32 octets *)
Definition digests (l : list key) : list key := filter (fun k => (fst k =? 2) && (nlen (snd k) =? 32)) l.
Definition octets_of (es : list elem) : bytes := concat (map e_wire es).
(* with parameters, exactly one digest, of the octets of the parameters; without, none *)
Definition digest_ok (sha256 : bytes -> bytes) (n : list key) (p : list elem) : Prop :=
  digests n = match p with [] => [] | _ => [(2, sha256 (octets_of p))] end.

(* ---- the layout of an Interest ---- *)
Definition in_rank (t : N) : N :=
  if t =? 33 then 2 else if t =? 18 then 3 else if t =? 30 then 4 else if t =? 10 then 5
  else if t =? 12 then 6 else if t =? 34 then 7 else if t =? 36 then 8 else 0.
Definition in_recognised (t : N) : bool := negb (in_rank t =? 0).
(* the elements of a ForwardingHint: Names (7), or Delegations (31) whose first Name counts; others, if
   not critical, are ignored *)
Inductive hint_reads : list elem -> list name -> Prop :=
| hr_nil : hint_reads [] []
| hr_name : forall e n es ns, nm_decode e = Ok n -> hint_reads es ns -> hint_reads (e :: es) (n :: ns)
| hr_delegation : forall e a x b n es ns, e_type e = 31 -> parseValue (e_val e) = Ok (a ++ x :: b) ->
    Forall (fun y => e_type y <> 7) a -> nm_decode x = Ok n -> hint_reads es ns -> hint_reads (e :: es) (n :: ns)
| hr_other : forall e es ns, e_type e <> 7 -> ~ critical (e_type e) -> hint_reads es ns -> hint_reads (e :: es) ns.
(* what follows the Name: CanBePrefix (33), MustBeFresh (18), ForwardingHint (30), Nonce (10),
   InterestLifetime (12), HopLimit (34) in this order, each at most once (repeated HopLimits are
   ignored), with unrecognised non-critical elements anywhere; then ApplicationParameters (36) and any
   non-critical elements, of which those of type 34 and 36 are ignored *)
Record in_layout (es : list elem) (cbp mbf fh nonce life : option elem) (hops : list elem)
  (ap : option elem) (post : list elem) : Prop := {
  il_pre : exists pre, es = pre ++ opt_list ap ++ post /\
    filter (fun e => in_recognised (e_type e)) pre =
      opt_list cbp ++ opt_list mbf ++ opt_list fh ++ opt_list nonce ++ opt_list life ++ hops /\
    Forall (fun e => in_recognised (e_type e) = false -> ~ critical (e_type e)) pre;
  il_cbp : forall e, cbp = Some e -> e_type e = 33 /\ e_val e = [];
  il_mbf : forall e, mbf = Some e -> e_type e = 18 /\ e_val e = [];
  il_fh : forall e, fh = Some e -> e_type e = 30;
  il_nonce : forall e, nonce = Some e -> e_type e = 10 /\ nlen (e_val e) = 4;
  il_life : forall e, life = Some e -> e_type e = 12;
  il_hops : Forall (fun e => e_type e = 34) hops;
  il_ap : forall e, ap = Some e -> e_type e = 36;
  il_noap : ap = None -> post = [];
  il_post : Forall (fun e => ~ critical (e_type e)) post }.
Definition is_some {A} (o : option A) : bool := match o with Some _ => true | None => false end.
(* e is an Interest element that means i *)
Definition in_means (e : elem) (i : interest) : Prop :=
  exists n es cbp mbf fh nonce life hops ap post,
    e_type e = 5 /\ parseValue (e_val e) = Ok (n :: es) /\
    in_layout es cbp mbf fh nonce life hops ap post /\
    nm_decode n = Ok (i_name i) /\ n_comps (i_name i) <> [] /\ (length (digests (nkey (i_name i))) <= 1)%nat /\
    i_cbp i = is_some cbp /\ i_mbf i = is_some mbf /\
    match fh with
    | None => i_fh i = []
    | Some x => exists sub, parseValue (e_val x) = Ok sub /\ hint_reads sub (i_fh i)
    end /\
    i_nonce i = option_map e_val nonce /\
    match life with None => i_life i = 4000 | Some x => is_nni (i_life i) (e_val x) end /\
    match hops with [] => i_hop i = None | x :: _ => exists h, e_val x = [h] /\ i_hop i = Some h end /\
    i_params i = opt_list ap ++ filter (fun x => negb ((e_type x =? 34) || (e_type x =? 36))) post /\
    i_wire i = Some e.
(* sequences of (type, value) that are not an Interest *)
Inductive in_malformed : list key -> Prop :=
| iml_empty : in_malformed []
| iml_noname : forall t v l, t <> 7 -> in_malformed ((t, v) :: l)
| iml_noncomp : forall l, in_malformed ((7, []) :: l)
(* a critical recognised element repeated, or after one that must follow it *)
| iml_order : forall k a x b y c, in_recognised (fst x) = true -> in_recognised (fst y) = true -> critical (fst y) ->
    in_rank (fst y) <= in_rank (fst x) -> in_malformed (k :: a ++ x :: b ++ y :: c)
| iml_critical : forall k a x b, in_recognised (fst x) = false -> critical (fst x) -> in_malformed (k :: a ++ x :: b)
| iml_flag : forall k a t v b, t = 33 \/ t = 18 -> v <> [] -> in_malformed (k :: a ++ (t, v) :: b)
| iml_nonce : forall k a v b, nlen v <> 4 -> in_malformed (k :: a ++ (10, v) :: b)
| iml_life : forall k a v b, (forall n, ~ is_nni n v) -> in_malformed (k :: a ++ (12, v) :: b).

Section WithSha.
Variable sha256 : bytes -> bytes.

Definition in_reads (check : bool) (w : bytes) : option in_view :=
  match in_decode sha256 check (mkBlock tInterest w) in_default with (i, None) => Some (in_fields i) | _ => None end.

(* ---- histories of one Interest object ---- *)
Inductive in_op :=
| ISetName (n : name) | ISetCbp (b : bool) | ISetMbf (b : bool) | ISetHint (l : list name)
| IGetNonce (r : bytes) | ISetNonce (n : option bytes) | IRefresh (rs : list bytes) | ISetLife (t : Z)
| ISetHop (h : option byte) | ISetParamsBlock (b : blk) | ISetParams (v : bytes) | IUnset
| ISetSigInfo (s : siginfo) | ISetSigValue (v : bytes) | IEncode (r : bytes) | IRanges (r : bytes)
| IDecode (e : elem).
(* with the parameters digest checked by wireDecode, the default *)
Definition in_step (op : in_op) (i : interest) : interest * option err :=
  match op with
  | ISetName n => in_setName sha256 n i
  | ISetCbp b => (in_setCanBePrefix b i, None)
  | ISetMbf b => (in_setMustBeFresh b i, None)
  | ISetHint l => (in_setForwardingHint l i, None)
  | IGetNonce r => (fst (in_getNonce r i), None)
  | ISetNonce n => (in_setNonce n i, None)
  | IRefresh rs => in_refreshNonce rs i
  | ISetLife t => in_setLifetime t i
  | ISetHop h => (in_setHopLimit h i, None)
  | ISetParamsBlock b => in_setParamsBlock sha256 b i
  | ISetParams v => in_setParams sha256 v i
  | IUnset => in_unsetParams i
  | ISetSigInfo s => in_setSigInfo sha256 s i
  | ISetSigValue v => in_setSigValue sha256 v i
  | IEncode r => let (i', x) := in_encode sha256 true r i in (i', err_of x)
  | IRanges r => let (i', x) := in_signedRanges sha256 true r i in (i', err_of x)
  | IDecode e => in_decode sha256 true e i
  end.
Definition in_run (ops : list in_op) (i : interest) : interest := fold_left (fun i op => fst (in_step op i)) ops i.
(* neither encoding nor decoding *)
Definition in_setter (op : in_op) : bool := match op with IEncode _ | IRanges _ | IDecode _ => false | _ => true end.
(* every call of the history that threw left the object as it was *)
Fixpoint in_clean (ops : list in_op) (i : interest) : Prop :=
  match ops with
  | [] => True
  | op :: ops' => (snd (in_step op i) = None \/ fst (in_step op i) = i) /\ in_clean ops' (fst (in_step op i))
  end.
(* a SignatureInfo whose cached encoding, if any, is one for Interests (44) *)
Definition si_for_interest (s : siginfo) : Prop :=
  si_ok s /\ forall e, si_wire s = Some e -> elem_ok e /\ e_type e = 44.
(* arguments in the ranges of their C++ types and encodable; nonces have four octets *)
Definition in_op_ok (op : in_op) : Prop :=
  match op with
  | ISetName n => Forall ctype_ok (n_comps n)
  | ISetHint l => Forall (fun n => Forall ctype_ok (n_comps n)) l
  | IGetNonce r | IEncode r | IRanges r => nlen r = 4
  | ISetNonce n => forall x, n = Some x -> nlen x = 4
  | IRefresh rs => Forall (fun r => nlen r = 4) rs
  | ISetLife t => (t <= MAX_MS)%Z
  | ISetParamsBlock b => blk_ok b /\ nlen (blk_octets b) < 2 ^ 64
  | ISetParams v | ISetSigValue v => nlen v < 2 ^ 64
  | ISetSigInfo s => si_for_interest s
  | IDecode e => elem_ok e
  | _ => True
  end.
(* what each call that returns does to the fields.  "The name with the digest": the name itself without
   parameters; otherwise the digest of the parameters replaces the digest component, or is appended *)
Definition with_digest (n : list key) (p : list elem) (n' : list key) : Prop :=
  match p with
  | [] => n' = n
  | _ => let d := (2, sha256 (octets_of p)) in
      digests n = [] /\ n' = n ++ [d] \/
      exists a x b, n = a ++ x :: b /\ digests n = [x] /\ digests a = [] /\ n' = a ++ d :: b
  end.
Definition wn (n : list key) (p : list elem) (v v' : in_view) : Prop :=
  exists n', with_digest n p n' /\
    v' = mkIV n' (iv_cbp v) (iv_mbf v) (iv_fh v) (iv_nonce v) (iv_life v) (iv_hop v) p.
(* the first element of that type is replaced; otherwise it is inserted (at the end, before the first
   SignatureValue; or after the first SignatureInfo) *)
Definition put_sinfo (e : elem) (p p' : list elem) : Prop :=
  (exists a x b, p = a ++ x :: b /\ e_type x = 44 /\ ~ In 44 (map e_type a) /\ p' = a ++ e :: b) \/
  ~ In 44 (map e_type p) /\ exists a b, p = a ++ b /\ ~ In 46 (map e_type a) /\ hd 46 (map e_type b) = 46 /\ p' = a ++ e :: b.
Definition put_sval (e : elem) (p p' : list elem) : Prop :=
  (exists a x b, p = a ++ x :: b /\ e_type x = 46 /\ ~ In 46 (map e_type a) /\ p' = a ++ e :: b) \/
  ~ In 46 (map e_type p) /\ exists a x b, p = a ++ x :: b /\ e_type x = 44 /\ ~ In 44 (map e_type a) /\ p' = a ++ x :: e :: b.
Definition in_effect (op : in_op) (v v' : in_view) : Prop :=
  let '(mkIV n cbp mbf fh nonce life hop p) := v in
  match op with
  | ISetName n' => v' = v /\ nkey n' = n \/ wn (nkey n') p v v'
  | ISetCbp b => v' = mkIV n b mbf fh nonce life hop p
  | ISetMbf b => v' = mkIV n cbp b fh nonce life hop p
  | ISetHint l => v' = mkIV n cbp mbf (map nkey l) nonce life hop p
  | IGetNonce r | IEncode r | IRanges r =>
      v' = v \/ nonce = None /\ v' = mkIV n cbp mbf fh (Some r) life hop p
  | ISetNonce x => v' = mkIV n cbp mbf fh x life hop p
  | IRefresh rs => nonce = None /\ v' = v \/
      exists o r, nonce = Some o /\ In r rs /\ r <> o /\ v' = mkIV n cbp mbf fh (Some r) life hop p
  | ISetLife t => (0 <= t)%Z /\ v' = mkIV n cbp mbf fh nonce (Z.to_N t) hop p
  | ISetHop h => v' = mkIV n cbp mbf fh nonce life h p
  | ISetParamsBlock b => exists e, elem_ok e /\ e_type e = 36 /\
      e_val e = (if c_type b =? 36 then c_val b else blk_octets b) /\ wn n (e :: tl p) v v'
  | ISetParams x => exists e, elem_ok e /\ e_type e = 36 /\ e_val e = x /\ wn n (e :: tl p) v v'
  | IUnset => v' = mkIV (filter (fun k => negb ((fst k =? 2) && (nlen (snd k) =? 32))) n) cbp mbf fh nonce life hop []
  | ISetSigInfo s => exists e q p', elem_ok e /\ e_type e = 44 /\
      (si_wire s = Some e \/ si_wire s = None /\ si_value s = Ok (e_val e)) /\
      (p <> [] /\ q = p \/ p = [] /\ exists a, q = [a] /\ e_type a = 36 /\ e_val a = [] /\ elem_ok a) /\
      put_sinfo e q p' /\ (wn n p' v v' \/ v' = v /\ map e_type p' = map e_type p /\ map e_val p' = map e_val p)
  | ISetSigValue x => exists e p', elem_ok e /\ e_type e = 46 /\ e_val e = x /\ put_sval e p p' /\
      (wn n p' v v' \/ v' = v /\ map e_type p' = map e_type p /\ map e_val p' = map e_val p)
  | IDecode e => in_reads true (e_val e) = Some v'
  end.
End WithSha.

(* ---- what a signature covers ---- *)
Definition ignored (t : N) : bool := (t =? 34) || (t =? 36).
(* e is the Interest n pre ap mid skip rest with name components cs d: the two signed ranges a and b are
   the octets of cs, and of ap mid *)
Definition in_covers (e : elem) (a b : bytes) (cs : list elem) (d : elem) (signed : list elem) : Prop :=
  exists n pre ap mid skip rest,
    Forall elem_ok (n :: pre ++ ap :: mid ++ skip ++ rest) /\ e_val e = octets_of (n :: pre ++ ap :: mid ++ skip ++ rest) /\
    (* the name; d, its last component, is of the type of the parameters digest *)
    e_type n = 7 /\ Forall elem_ok (cs ++ [d]) /\ e_val n = octets_of (cs ++ [d]) /\ e_type d = 2 /\
    (* ap is ApplicationParameters; rest starts with the SignatureValue, if any *)
    ~ In 36 (map e_type pre) /\ e_type ap = 36 /\ ~ In 46 (map e_type (mid ++ skip)) /\ hd 46 (map e_type rest) = 46 /\
    (* skip are the elements before it that wireDecode ignored *)
    Forall (fun x => ignored (e_type x) = true) skip /\ (mid = [] \/ ignored (e_type (last mid ap)) = false) /\
    signed = ap :: mid /\ a = octets_of cs /\ b = octets_of signed.
(* the elements before the first one of type t *)
Definition before (t : N) (l : list elem) : list elem := fst (split_type t l).
(* a SignatureInfo, if there is one, is last or followed by a SignatureValue *)
Definition sig_tail (p : list elem) : Prop :=
  forall a x b, p = a ++ x :: b -> e_type x = 44 -> ~ In 44 (map e_type a) -> hd 46 (map e_type b) = 46.
(* the octets of name components *)
Definition keys_octets (l : list key) : bytes := concat (map (fun k => tlv_enc (fst k) (snd k)) l).

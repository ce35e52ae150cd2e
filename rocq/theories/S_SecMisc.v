(* Vocabulary of the statements about SafeBag, AdditionalDescription and the text form of SigningInfo. *)
From Verif Require Import Base S_Tlv M_Tlv M_Str M_Name S_Name M_Packet S_Packet M_SecMisc.
Open Scope N_scope.
Open Scope list_scope.

(* a Data that can be encoded *)
Definition signed (d : data) : Prop :=
  da_ok d /\ si_type (d_sinfo d) <> None /\ (forall k t, si_key (d_sinfo d) = Some k -> kl_loc k <> KlOther t) /\ blk_isValid (d_sval d) = true.

(* an entry of an AdditionalDescription: DescriptionKey (513), DescriptionValue (514) *)
Definition entry (k v w : bytes) : Prop := is_tlv_seq [(513, k); (514, v)] w.
(* the elements of an AdditionalDescription that can be read *)
Definition readable (x : N * bytes) : Prop := (fst x = 512 /\ exists k v, entry k v (snd x)) \/ (fst x <> 512 /\ ~ critical (fst x)).
(* the value of a key: that of its last entry *)
Inductive described (k : bytes) : list (N * bytes) -> option bytes -> Prop :=
| desc_nil : described k [] None
| desc_hit : forall l v w, entry k v w -> described k (l ++ [(512, w)]) (Some v)
| desc_other_key : forall l k' v w r, entry k' v w -> k' <> k -> described k l r -> described k (l ++ [(512, w)]) r
| desc_other_type : forall l t w r, t <> 512 -> described k l r -> described k (l ++ [(t, w)]) r.
Definition got (r : res bytes) : option bytes := match r with Ok v => Some v | Err _ => None end.
(* lexicographic order of octet strings *)
Inductive lex : bytes -> bytes -> Prop :=
| lex_nil : forall y b, lex [] (y :: b)
| lex_lt : forall x y a b, bn x < bn y -> lex (x :: a) (y :: b)
| lex_eq : forall x a b, lex a b -> lex (x :: a) (x :: b).
Inductive ascending : list (bytes * bytes) -> Prop :=
| asc_nil : ascending []
| asc_cons : forall x l, ascending l -> Forall (fun y => lex (fst x) (fst y)) l -> ascending (x :: l).
Definition ad_op_ok (o : ad_op) : Prop := match o with AdDecode e => exists w, blockFromWire w = Ok e | _ => True end.
(* set is not used after the object was encoded or decoded *)
Definition set_first (l : list ad_op) : Prop := forall l1 l2 k v, l = l1 ++ AdSet k v :: l2 -> forall o, In o l1 -> exists k' v', o = AdSet k' v'.

(* what a signing string says *)
Inductive sg_says (f : uri_format) (load : bytes -> res bytes) : bytes -> sginfo -> Prop :=
| say_null : sg_says f load [] (mkSg SgNull nm_empty)
| say_sha : sg_says f load (str "id:" ++ nm_toUri f sg_digestName) (mkSg SgSha256 nm_empty)
| say_id : forall u n, u <> nm_toUri f sg_digestName -> nm_fromUri u = Ok n -> sg_says f load (str "id:" ++ u) (mkSg SgId n)
| say_key : forall u n, nm_fromUri u = Ok n -> sg_says f load (str "key:" ++ u) (mkSg SgKey n)
| say_cert : forall u n, nm_fromUri u = Ok n -> sg_says f load (str "cert:" ++ u) (mkSg SgCert n)
| say_hmac : forall u d n, load u = Ok d -> nkey n = [(8, str "localhost"); (8, str "identity"); (8, str "hmac"); (8, d)] -> sg_says f load (str "hmac-sha256:" ++ u) (mkSg SgHmac n).
Definition sg_same (i j : sginfo) : Prop := sg_kind i = sg_kind j /\ nkey (sg_name i) = nkey (sg_name j).
(* /localhost/identity/digest-sha256 *)
Definition digest_key : list key := [(8, str "localhost"); (8, str "identity"); (8, str "digest-sha256")].

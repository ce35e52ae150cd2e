(* C20-C24: Data, MetaInfo, KeyLocator, SignatureInfo. *)
From Coq Require Import Lia ZifyBool ZifyNat ZifyN.
From Verif Require Import Base BaseLemmas M_Tlv S_Tlv P_Block M_Str M_Name S_Name M_Packet S_Packet P_Packet P_Data P_DataT P_DataHist.

(* a signed Data used in the examples *)
Definition ex_name : name := nm_of [comp_ofString (str "A"); mkComp 50 None [x01]].
Definition ex_meta : metainfo :=
  mkMI 2 10000 (Some (mkComp 50 None [x07])) [comp_of_elem (mkBlock 200 (str "app"))] None.
Definition ex_si : siginfo :=
  mkSI (Some 3) (Some (mkKL (KlName (nm_of [comp_ofString (str "K")])) None)) [comp_of_elem (mkNNIBlock 40 5)] None.
Definition ex_data : data :=
  mkData ex_name ex_meta (mkComp 21 None (str "hello")) ex_si (comp_of_elem (mkBlock 23 (str "sig"))) None nm_empty.
Lemma ex_blk : forall t v, (0 <? t) && (t <? two32) && (nlen v <? two64) = true -> blk_ok (comp_of_elem (mkBlock t v)).
Proof. intros. apply blk_ok_mk; lia. Qed.
Lemma ex_si_ok : si_ok ex_si.
Proof.
  unfold si_ok. cbn [ex_si si_type si_key si_other]. splits.
  - intros t [= <-]. reflexivity.
  - intros k [= <-]. constructor; [split; reflexivity|constructor].
  - constructor; [|constructor]. unfold si_other_ok. splits; try discriminate.
    + apply ex_blk. reflexivity.
    + left. unfold critical. cbn. intros [H|H]; [lia|discriminate].
Qed.
Lemma ex_mi_ok : mi_ok ex_meta.
Proof.
  unfold mi_ok. cbn [ex_meta mi_type mi_fresh mi_final mi_app]. splits; try reflexivity.
  - intros c [= <-]. unfold valid_key. cbn. lia.
  - constructor; [|constructor]. splits; try discriminate. apply ex_blk. reflexivity.
Qed.
Lemma ex_data_ok : da_ok ex_data.
Proof.
  unfold da_ok. cbn [ex_data d_name d_meta d_content d_sinfo d_sval]. splits.
  - constructor; [split; reflexivity|]. constructor; [split; reflexivity|constructor].
  - apply ex_mi_ok.
  - right. split; [reflexivity|]. apply blk_ok_bare; reflexivity.
  - apply ex_si_ok.
  - right. split; [reflexivity|]. apply ex_blk. reflexivity.
Qed.

(* ---- C20 ---- *)
(* A signed Data (SignatureType and SignatureValue set, KeyLocator not of an unsupported type, wire
   not larger than a buffer can be) encodes to a Data TLV.  Decoding that, into any object, succeeds
   with the same fields, and wireEncode then returns the same element. *)
Theorem C20_data_round_trip : forall d, da_ok d -> d_wire d = None -> si_type (d_sinfo d) <> None ->
  (forall k t, si_key (d_sinfo d) = Some k -> kl_loc k <> KlOther t) -> blk_isValid (d_sval d) = true ->
  (forall v, da_value d = Ok v -> nlen (tlv_enc tData v) <= MAX_BUFFER) ->
  exists d1 e, da_encode d = (d1, Ok e) /\ is_tlv 6 (e_val e) (e_wire e) /\ da_fields d1 = da_fields d /\
    blockFromWire (e_wire e) = Ok e /\
    forall d0, exists d2, da_decode e d0 = (d2, None) /\ da_fields d2 = da_fields d /\ da_encode d2 = (d2, Ok e).
Proof. exact da_round_trip. Qed.
Print Assumptions C20_data_round_trip.

(* A Data that was decoded re-encodes to the element it was decoded from, whatever that was. *)
Theorem C20_reencode : forall e d0 d, da_decode e d0 = (d, None) -> da_encode d = (d, Ok e).
Proof. exact da_reencode. Qed.
Print Assumptions C20_reencode.

Example C20_ex : da_ok ex_data /\ exists d e, da_encode ex_data = (d, Ok e) /\ nlen (e_wire e) = 56.
Proof. split; [exact ex_data_ok|]. do 2 eexists. split; vm_compute; reflexivity. Qed.

(* ---- C21 ---- *)
(* Decoding succeeds exactly on these element sequences, and the result is made of their parts. *)
Theorem C21_decode_exact : forall e d d', da_decode e d = (d', None) <->
  exists n es mi c si sv nm m s, da_parts e n es mi c si sv nm m s /\
    d' = mkData nm m (blk_of c) s (comp_of_elem sv) (Some e) nm_empty.
Proof. exact da_decode_iff. Qed.
Print Assumptions C21_decode_exact.

(* In particular: no Name first, no SignatureInfo, no SignatureValue, a recognised element repeated or
   out of order, or an unrecognised critical element: decoding throws. *)
Theorem C21_rejects : forall e d l, is_tlv_seq l (e_val e) -> da_malformed l -> snd (da_decode e d) <> None.
Proof. exact da_rejects. Qed.
Print Assumptions C21_rejects.

(* An unrecognised non-critical element anywhere after the Name changes neither success nor any field. *)
Theorem C21_ignores : forall l1 w1 l2 w2 t v x, l1 <> [] -> is_tlv_seq l1 w1 -> is_tlv_seq l2 w2 -> is_tlv t v x ->
  da_recognised t = false -> ~ critical t -> da_reads (w1 ++ x ++ w2) = da_reads (w1 ++ w2).
Proof. exact da_insert. Qed.
Print Assumptions C21_ignores.

Definition ex_value : bytes := match da_value ex_data with Ok v => v | Err _ => [] end.
(* ex_value with an element of type 128 after the Name: same fields; of type 129: rejected *)
Example C21_ex :
  exists v, da_reads ex_value = Some v /\
    da_reads (ntake 8 ex_value ++ tlv_enc 128 (str "zz") ++ ndrop 8 ex_value) = Some v /\
    da_reads (ntake 8 ex_value ++ tlv_enc 129 (str "zz") ++ ndrop 8 ex_value) = None.
Proof. eexists. split; [|split]; vm_compute; reflexivity. Qed.
Example C21_ex_malformed : da_malformed [(7, []); (23, []); (22, [])].
Proof. apply (mal_order (7, []) [] (23, []) [] (22, []) []); cbn; auto; lia. Qed.

(* ---- C22 ---- *)
(* Signing: the octets u given to the signer are Name, MetaInfo, Content, SignatureInfo as encoded; they
   are followed by the signature in the packet; they are what extractSignedRanges returns afterwards,
   also for the Data decoded from the wire. *)
Theorem C22_signed_octets : forall signer s d d' e, da_ok d -> si_ok s -> da_sign signer s d = (d', Ok e) ->
  exists u so, si_octets SiData s = Ok so /\
    u = nm_octets (d_name d) ++ mi_octets (d_meta d) ++
        (if da_hasContent d then blk_octets (d_content d) else []) ++ so /\
    da_signedRange d' = (d', Ok u) /\
    e_val e = u ++ tlv_enc tSignatureValue (signer u) /\
    ckey (d_sval d') = (23, signer u) /\ d_wire d' = Some e /\
    (nkey (d_name d'), mi_fields (d_meta d'), ckey (d_content d'), si_fields (d_sinfo d')) =
      (nkey (d_name d), mi_fields (d_meta d), ckey (d_content d), si_fields s) /\
    forall d0, da_decode e d0 = (d', None).
Proof. exact da_sign_range. Qed.
Print Assumptions C22_signed_octets.

(* Equal signed octets mean equal signed fields: for packets received from the network ... *)
Theorem C22_range_injective : forall e1 e2 d1 d2 r, da_decode e1 da_empty = (d1, None) ->
  da_decode e2 da_empty = (d2, None) -> snd (da_signedRange d1) = Ok r -> snd (da_signedRange d2) = Ok r ->
  (nkey (d_name d1), mi_fields (d_meta d1), ckey (d_content d1), si_fields (d_sinfo d1)) =
  (nkey (d_name d2), mi_fields (d_meta d2), ckey (d_content d2), si_fields (d_sinfo d2)).
Proof. exact da_range_inj. Qed.
Print Assumptions C22_range_injective.
(* ... and for packets about to be signed. *)
Theorem C22_unsigned_injective : forall d1 d2 u, da_ok d1 -> da_ok d2 -> nlen u < 2 ^ 64 ->
  da_unsigned d1 = Ok u -> da_unsigned d2 = Ok u ->
  (nkey (d_name d1), mi_fields (d_meta d1), ckey (d_content d1), si_fields (d_sinfo d1)) =
  (nkey (d_name d2), mi_fields (d_meta d2), ckey (d_content d2), si_fields (d_sinfo d2)).
Proof. exact da_unsigned_inj. Qed.
Print Assumptions C22_unsigned_injective.
(* Every decoded Data has a signed range: all elements before the SignatureValue. *)
Theorem C22_range_decoded : forall e d d' n es mi c si sv nm m s, da_parts e n es mi c si sv nm m s ->
  d' = mkData nm m (blk_of c) s (comp_of_elem sv) (Some e) d ->
  da_signedRange d' = (d', Ok (concat (map e_wire (n :: fst (split_type 23 es))))).
Proof. exact da_range_decoded. Qed.
Print Assumptions C22_range_decoded.

Example C22_ex : exists d e, da_sign (fun u => [nb (nlen u)]) ex_si ex_data = (d, Ok e) /\
  c_val (d_sval d) = [nb 49].
Proof. do 2 eexists. split; vm_compute; reflexivity. Qed.

(* ---- C23 ---- *)
(* Data: over every history in which a call that throws leaves the object unchanged (clean), wireEncode
   returns a Data TLV that decodes to the current fields, getFullName is the current name and the SHA-256
   of that wire, and every call changes the fields as documented. *)
Theorem C23_data_partial : forall sha256, (forall b, nlen (sha256 b) = 32) ->
  forall ops n d, Forall ctype_ok (n_comps n) -> Forall da_op_ok ops -> clean sha256 ops (da_of n) ->
  d = da_run sha256 ops (da_of n) ->
  (forall d' e, da_encode d = (d', Ok e) -> is_tlv 6 (e_val e) (e_wire e) /\ da_fields d' = da_fields d /\
     forall d0, exists d1, da_decode e d0 = (d1, None) /\ da_fields d1 = da_fields d) /\
  (forall d' nm, da_getFullName sha256 d = (d', Ok nm) -> exists e, da_encode d = (d, Ok e) /\
     nkey nm = nkey (d_name d) ++ [(1, sha256 (e_wire e))]) /\
  (forall op d', da_op_ok op -> da_step sha256 op d = (d', None) -> da_effect op (da_fields d) (da_fields d')).
Proof. exact da_history. Qed.
Print Assumptions C23_data_partial.

(* MetaInfo: over all histories of setters and encodings. *)
Theorem C23_metainfo : forall ops m, Forall mi_op_ok ops -> m = mi_run ops mi_empty ->
  (forall e m', mi_encode m = Ok (e, m') -> is_tlv 20 (e_val e) (e_wire e) /\ mi_fields m' = mi_fields m /\
     exists m2, mi_decode e mi_empty = (m2, None) /\ mi_fields m2 = mi_fields m) /\
  (forall op, mi_op_ok op -> mi_effect op (mi_fields m) (mi_fields (mi_step op m))).
Proof. exact mi_history. Qed.
Print Assumptions C23_metainfo.

(* SignatureInfo: the same, if it is always encoded as the same one of its two types. *)
Theorem C23_signatureinfo_partial : forall k ops s, Forall si_op_ok ops -> s = si_run k ops si_empty ->
  (forall e s', si_encode k s = Ok (e, s') -> is_tlv (si_tlv k) (e_val e) (e_wire e) /\ si_fields s' = si_fields s /\
     exists s2, si_decode k e = (s2, None) /\ si_fields s2 = si_fields s) /\
  (forall op, si_op_ok op -> si_effect op (si_fields s) (si_fields (si_step k op s))).
Proof. exact si_history. Qed.
Print Assumptions C23_signatureinfo_partial.

(* Without "clean" it is false: wireEncode of a Data without a SignatureValue throws, and a second
   wireEncode returns an element that does not decode. *)
Theorem C23_data_refuted : exists d d1 x e, d = da_setSignatureInfo (si_of 0 None) (da_of ex_name) /\
  da_encode d = (d1, Err x) /\ catchable x = true /\ da_encode d1 = (d1, Ok e) /\ snd (da_decode e da_empty) <> None.
Proof. do 4 eexists. splits; try reflexivity; vm_compute; try reflexivity. discriminate. Qed.
Print Assumptions C23_data_refuted.
(* A SignatureInfo encoded once for a Data is returned for an Interest too. *)
Theorem C23_signatureinfo_refuted : exists s e s' e' s'', si_ok s /\ si_encode SiData s = Ok (e, s') /\
  si_encode SiInterest s' = Ok (e', s'') /\ e_type e' <> si_tlv SiInterest.
Proof. exists ex_si. do 4 eexists. splits; try reflexivity; [apply ex_si_ok|discriminate]. Qed.
Print Assumptions C23_signatureinfo_refuted.

Definition ex_sha (b : bytes) : bytes := repeat (nb (nlen b)) 32.
Definition ex_ops : list da_op :=
  [DSetContentBuf (str "x"); DSign (fun u => str "sig1") ex_si; DFullName; DSetFresh 10; DEncode;
   DSetName ex_name; DSign (fun u => str "sig2") ex_si; DFullName].
Example C23_ex : Forall ctype_ok (n_comps nm_empty) /\ Forall da_op_ok ex_ops /\ clean ex_sha ex_ops da_empty /\
  exists d n, da_getFullName ex_sha (da_run ex_sha ex_ops da_empty) = (d, Ok n) /\ length (n_comps n) = 3%nat /\
    mi_fresh (d_meta d) = 10 /\ c_val (d_sval d) = str "sig2".
Proof.
  split; [constructor|]. split.
  - assert (Fn : Forall ctype_ok (n_comps ex_name)) by (repeat (constructor; try (split; reflexivity))).
    unfold ex_ops. repeat (apply Forall_cons; [try exact Fn|]); try exact I; try exact ex_si_ok; try exact Fn; try reflexivity.
    + cbn. unfold MAX_MS. lia.
    + apply Forall_nil.
  - split; [|do 2 eexists; splits; vm_compute; reflexivity].
    unfold ex_ops. cbn [clean]. splits; try (left; vm_compute; reflexivity). exact I.
Qed.

(* ---- C24 ---- *)
Theorem C24_metainfo_round_trip : forall m, mi_ok m -> mi_wire m = None -> nlen (mi_octets m) <= MAX_BUFFER ->
  exists e m1 m', mi_encode m = Ok (e, m1) /\ mi_fields m1 = mi_fields m /\
    is_tlv 20 (e_val e) (e_wire e) /\ (exists l, is_tlv_seq l (e_val e) /\ mi_layout (mi_fields m) l) /\
    mi_decode e mi_empty = (m', None) /\ mi_fields m' = mi_fields m.
Proof. exact mi_total. Qed.
Print Assumptions C24_metainfo_round_trip.
Theorem C24_keylocator_round_trip : forall k, kl_ok k -> kl_wire k = None -> (forall t, kl_loc k <> KlOther t) ->
  (forall v, kl_value k = Ok v -> nlen (tlv_enc tKeyLocator v) <= MAX_BUFFER) ->
  exists e k1 k', kl_encode k = Ok (e, k1) /\ kl_fields k1 = kl_fields k /\
    is_tlv 28 (e_val e) (e_wire e) /\ kl_layout (kl_fields k) (e_val e) /\
    kl_decode e = Ok k' /\ kl_fields k' = kl_fields k.
Proof. exact kl_total. Qed.
Print Assumptions C24_keylocator_round_trip.
(* si_other_ok excludes empty nonces and critical custom elements (see the refutation below) *)
Theorem C24_signatureinfo_round_trip_partial : forall k s, si_ok s -> si_wire s = None -> si_type s <> None ->
  (forall x t, si_key s = Some x -> kl_loc x <> KlOther t) ->
  (forall v, si_value s = Ok v -> nlen (tlv_enc (si_tlv k) v) <= MAX_BUFFER) ->
  exists e s1 s', si_encode k s = Ok (e, s1) /\ si_fields s1 = si_fields s /\
    is_tlv (si_tlv k) (e_val e) (e_wire e) /\ (exists l, is_tlv_seq l (e_val e) /\ si_layout (si_fields s) l) /\
    si_decode k e = (s', None) /\ si_fields s' = si_fields s.
Proof. exact si_total. Qed.
Print Assumptions C24_signatureinfo_round_trip_partial.
(* A SignatureInfo with a custom element of a critical type, or with an empty nonce, encodes to
   something that does not decode. *)
Theorem C24_signatureinfo_refuted :
  (exists b s e s1, blk_ok b /\ s = si_addCustomTlv b (si_of 0 None) /\ si_encode SiData s = Ok (e, s1) /\
     snd (si_decode SiData e) <> None) /\
  (exists s e s1, s = si_setNonce (Some []) (si_of 0 None) /\ si_encode SiData s = Ok (e, s1) /\
     snd (si_decode SiData e) <> None).
Proof.
  split.
  - exists (comp_of_elem (mkBlock 129 [])). do 3 eexists. splits; try reflexivity; [apply ex_blk; reflexivity|].
    vm_compute. discriminate.
  - do 3 eexists. splits; try reflexivity. vm_compute. discriminate.
Qed.
Print Assumptions C24_signatureinfo_refuted.
(* Decoding a MetaInfo into an object that already has AppMetaInfo keeps the old elements as well. *)
Theorem C24_metainfo_redecode_refuted : exists m e m1 m2, mi_ok m /\ mi_encode m = Ok (e, m1) /\
  mi_decode e m1 = (m2, None) /\ mi_fields m2 <> mi_fields m.
Proof.
  exists ex_meta. do 3 eexists. split; [apply ex_mi_ok|]. split; [vm_compute; reflexivity|]. split; [vm_compute; reflexivity|].
  vm_compute. discriminate.
Qed.
Print Assumptions C24_metainfo_redecode_refuted.
Example C24_ex : mi_ok ex_meta /\ si_ok ex_si /\ nlen (mi_octets ex_meta) = 19.
Proof. splits; [apply ex_mi_ok|apply ex_si_ok|reflexivity]. Qed.

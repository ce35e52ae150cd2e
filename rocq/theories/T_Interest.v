(* C16-C19, C25, C62: Interest. *)
From Coq Require Import Lia ZifyBool ZifyNat ZifyN.
From Verif Require Import Base BaseLemmas M_Tlv P_Tlv S_Tlv P_Block M_Str M_Name S_Name M_Packet S_Packet P_Packet P_Data P_DataT P_DataHist.
From Verif Require Import M_Interest S_Interest P_Interest P_InterestD P_InterestT P_InterestH P_InterestS P_InterestF T_Packet.

Definition ex_n1 : name := nm_of [comp_ofString (str "A"); comp_ofString (str "B")].
Definition ex_nonce : bytes := [x01; x02; x03; x04].
Definition ex_iops : list in_op :=
  [ISetName ex_n1; ISetCbp true; ISetHint [ex_n1]; ISetNonce (Some ex_nonce); ISetLife 1500; ISetHop (Some x09);
   ISetParams (str "pq"); ISetSigInfo ex_si; ISetSigValue (str "sig")].
Lemma ex_iops_ok : Forall in_op_ok ex_iops.
Proof.
  assert (C : Forall ctype_ok (n_comps ex_n1)) by (constructor; [split; reflexivity|constructor; [split; reflexivity|constructor]]).
  apply Forall_cons; [exact C|]. apply Forall_cons; [exact I|]. apply Forall_cons; [cbn; auto|].
  apply Forall_cons; [intros x [= <-]; reflexivity|]. apply Forall_cons; [cbn; unfold MAX_MS; lia|].
  apply Forall_cons; [exact I|]. apply Forall_cons; [reflexivity|].
  apply Forall_cons; [split; [exact ex_si_ok|discriminate]|]. apply Forall_cons; [reflexivity|constructor].
Qed.

(* ---- C16 ---- *)
(* Whatever setters were called before, and whether or not some of them threw: if wireEncode returns, it
   returns an Interest TLV; the object's fields are as before, except that a missing nonce has been drawn;
   and decoding that TLV into any Interest gives exactly the encoded object. *)
Theorem C16_round_trip : forall sha256, (forall b, nlen (sha256 b) = 32) ->
  forall ops i r i' e, Forall in_op_ok ops -> forallb in_setter ops = true -> i = in_run sha256 ops in_default ->
  nlen r = 4 -> in_encode sha256 true r i = (i', Ok e) ->
  is_tlv 5 (e_val e) (e_wire e) /\
  (in_fields i' = in_fields i \/ i_nonce i = None /\ in_fields i' =
     mkIV (nkey (i_name i)) (i_cbp i) (i_mbf i) (map nkey (i_fh i)) (Some r) (i_life i) (i_hop i) (i_params i)) /\
  forall i0, in_decode sha256 true e i0 = (i', None).
Proof.
  intros sha256 L ops i r i' e F S0 -> Lr H. eapply encode_fresh; eauto. apply weak_run; auto. apply weak_default.
Qed.
Print Assumptions C16_round_trip.
(* It does return, if the name is not empty, the parameters digest is right and the buffer fits in memory. *)
Theorem C16_encodable : forall sha256, (forall b, nlen (sha256 b) = 32) ->
  forall ops i r, Forall in_op_ok ops -> forallb in_setter ops = true -> i = in_run sha256 ops in_default ->
  nlen r = 4 -> nkey (i_name i) <> [] -> digest_ok sha256 (nkey (i_name i)) (i_params i) ->
  nlen (tlv_enc 5 (in_value (match i_nonce i with Some x => x | None => r end) i)) <= MAX_BUFFER ->
  exists i' e, in_encode sha256 true r i = (i', Ok e).
Proof.
  intros sha256 L ops i r F S0 -> Lr Nc D Hm. apply encode_fresh_total; auto. apply weak_run; auto. apply weak_default.
Qed.
Print Assumptions C16_encodable.
(* The same over histories that also encode and decode, if every call that throws leaves the object as it
   was; and each call then changes the fields as documented. *)
Theorem C16_history_partial : forall sha256, (forall b, nlen (sha256 b) = 32) ->
  forall ops i, Forall in_op_ok ops -> in_clean sha256 ops in_default -> i = in_run sha256 ops in_default ->
  (forall r i' e, nlen r = 4 -> in_encode sha256 true r i = (i', Ok e) ->
     is_tlv 5 (e_val e) (e_wire e) /\
     (in_fields i' = in_fields i \/ i_nonce i = None /\ in_fields i' =
        mkIV (nkey (i_name i)) (i_cbp i) (i_mbf i) (map nkey (i_fh i)) (Some r) (i_life i) (i_hop i) (i_params i)) /\
     forall i0, exists i1, in_decode sha256 true e i0 = (i1, None) /\ in_fields i1 = in_fields i') /\
  (forall op i', in_op_ok op -> in_step sha256 op i = (i', None) -> in_effect sha256 op (in_fields i) (in_fields i')).
Proof. exact in_history. Qed.
Print Assumptions C16_history_partial.
(* Without that it is false: wireEncode of an Interest with an empty name throws, and when called again
   returns an element that does not decode. *)
Theorem C16_history_refuted : exists i1 x e, in_encode ex_sha true ex_nonce in_default = (i1, Err x) /\ catchable x = true /\
  in_encode ex_sha true ex_nonce i1 = (i1, Ok e) /\ forall i0, snd (in_decode ex_sha true e i0) <> None.
Proof. do 3 eexists. splits; [vm_compute; reflexivity|reflexivity|vm_compute; reflexivity|]. intro i0. vm_compute. discriminate. Qed.
Print Assumptions C16_history_refuted.

Example C16_ex : Forall in_op_ok ex_iops /\ forallb in_setter ex_iops = true /\
  exists i e, in_encode ex_sha true ex_nonce (in_run ex_sha ex_iops in_default) = (i, Ok e) /\ nlen (e_wire e) = 93 /\
    i_life i = 1500 /\ length (n_comps (i_name i)) = 3%nat.
Proof. split; [exact ex_iops_ok|]. split; [reflexivity|]. do 2 eexists. splits; (vm_compute; reflexivity). Qed.
Example C16_history_ex :
  in_clean ex_sha (ex_iops ++ [IEncode ex_nonce; ISetCbp false; IRanges ex_nonce; IUnset; IEncode ex_nonce]) in_default.
Proof. vm_compute. tauto. Qed.

(* ---- C17 ---- *)
(* Decoding succeeds exactly on the elements described by in_means (and, if it is checked, with a correct
   digest), and gives what they mean. *)
Theorem C17_decode_exact : forall sha256 check e i i', in_decode sha256 check e i = (i', None) <->
  in_means e i' /\ (check = true -> digest_ok sha256 (nkey (i_name i')) (i_params i')).
Proof. exact in_decode_iff. Qed.
Print Assumptions C17_decode_exact.
(* In particular these sequences of elements are rejected. *)
Theorem C17_rejects : forall sha256 check e i l, is_tlv_seq l (e_val e) -> in_malformed l ->
  snd (in_decode sha256 check e i) <> None.
Proof. exact in_rejects. Qed.
Print Assumptions C17_rejects.
(* An unrecognised non-critical element anywhere before ApplicationParameters changes nothing.  (After
   them, it is one of the parameters.) *)
Theorem C17_ignores : forall sha256 check l1 w1 l2 w2 t v x, l1 <> [] -> ~ In 36 (map fst l1) ->
  is_tlv_seq l1 w1 -> is_tlv_seq l2 w2 -> is_tlv t v x -> in_recognised t = false -> ~ critical t ->
  in_reads sha256 check (w1 ++ x ++ w2) = in_reads sha256 check (w1 ++ w2).
Proof. exact in_insert. Qed.
Print Assumptions C17_ignores.

Definition ex_iname : bytes := tlv_enc 7 (tlv_enc 8 (str "A")).
Definition ex_irest : bytes := tlv_enc 33 [] ++ tlv_enc 12 [x07].
Example C17_ex :
  exists v, in_reads ex_sha true (ex_iname ++ ex_irest) = Some v /\
    in_reads ex_sha true (ex_iname ++ tlv_enc 128 (str "zz") ++ ex_irest) = Some v /\
    in_reads ex_sha true (ex_iname ++ tlv_enc 129 (str "zz") ++ ex_irest) = None /\
    in_reads ex_sha true (ex_iname ++ ex_irest ++ tlv_enc 33 []) = None.
Proof. eexists. splits; (vm_compute; reflexivity). Qed.
Example C17_ex_malformed : in_malformed [(7, [x08; x00]); (12, [x07]); (33, [])].
Proof. apply (iml_order (7, [x08; x00]) [] (12, [x07]) [] (33, []) []); [reflexivity|reflexivity|right; reflexivity|vm_compute; discriminate]. Qed.

(* ---- C18 ---- *)
(* Over every history in which calls that throw leave the object as it was: with parameters the name has
   exactly one digest component, the SHA-256 of the parameters; without, at most one; and what wireEncode
   returns always has exactly one with parameters and none without. *)
Theorem C18_invariant_partial : forall sha256, (forall b, nlen (sha256 b) = 32) ->
  forall ops i, Forall in_op_ok ops -> in_clean sha256 ops in_default -> i = in_run sha256 ops in_default ->
  (i_params i <> [] -> digest_ok sha256 (nkey (i_name i)) (i_params i)) /\
  (length (digests (nkey (i_name i))) <= 1)%nat /\
  (forall r i' e, nlen r = 4 -> in_encode sha256 true r i = (i', Ok e) -> digest_ok sha256 (nkey (i_name i)) (i_params i)).
Proof. exact in_digest_history. Qed.
Print Assumptions C18_invariant_partial.
(* Decoding with the check on accepts an Interest only if that holds of it. *)
Theorem C18_decode : forall sha256 e i i', in_decode sha256 true e i = (i', None) ->
  digest_ok sha256 (nkey (i_name i')) (i_params i').
Proof. intros sha256 e i i' H. apply in_decode_iff in H as [_ H]. now apply H. Qed.
Print Assumptions C18_decode.
(* setSignatureInfo of a SignatureInfo that cannot be encoded throws, and leaves parameters without digest. *)
Theorem C18_refuted : exists s i x, si_ok s /\ in_setSigInfo ex_sha s (in_run ex_sha [ISetName ex_n1] in_default) = (i, Some x) /\
  catchable x = true /\ i_params i <> [] /\ ~ digest_ok ex_sha (nkey (i_name i)) (i_params i).
Proof.
  exists si_empty. do 2 eexists. splits.
  - unfold si_ok. cbn. splits; try discriminate. constructor.
  - vm_compute. reflexivity.
  - reflexivity.
  - discriminate.
  - intro H. vm_compute in H. discriminate.
Qed.
Print Assumptions C18_refuted.

Example C18_ex : in_clean ex_sha ex_iops in_default /\ i_params (in_run ex_sha ex_iops in_default) <> [] /\
  length (digests (nkey (i_name (in_run ex_sha ex_iops in_default)))) = 1%nat.
Proof. splits; [vm_compute; tauto| |reflexivity]. vm_compute. discriminate. Qed.

(* ---- C19 ---- *)
(* For every Data reached by a clean history (see C23): if matchesData returns b, then b is true exactly in
   these three cases; it returns whenever the Data has been encoded or decoded; it changes no field. *)
Theorem C19_matches_data : forall sha256, (forall b, nlen (sha256 b) = 32) ->
  forall ops n d i d' x, Forall ctype_ok (n_comps n) -> Forall da_op_ok ops -> clean sha256 ops (da_of n) ->
  d = da_run sha256 ops (da_of n) -> in_matchesData sha256 i d = (d', x) ->
  (forall b, x = Ok b ->
    (b = true <-> nkey (i_name i) = nkey (d_name d) \/
      (i_cbp i = true /\ exists s, nkey (d_name d) = nkey (i_name i) ++ s) \/
      exists d2 e, da_encode d = (d2, Ok e) /\ nkey (i_name i) = nkey (d_name d) ++ [(1, sha256 (e_wire e))])) /\
  (forall e, d_wire d = Some e -> exists b, x = Ok b) /\ da_fields d' = da_fields d /\ d_wire d' = d_wire d.
Proof.
  intros sha256 L ops n d i d' x Cn F C -> H. apply matches_data; auto. apply da_run_inv; auto. apply da_of_inv; auto.
Qed.
Print Assumptions C19_matches_data.

(* matchesInterest: exactly the same name, CanBePrefix and MustBeFresh, whatever the other fields *)
Theorem C19_matches_interest : forall i j,
  in_matchesInterest i j = true <-> nkey (i_name i) = nkey (i_name j) /\ i_cbp i = i_cbp j /\ i_mbf i = i_mbf j.
Proof.
  intros i j. unfold in_matchesInterest. rewrite !Bool.andb_true_iff, P_Name.nm_equals_iff, !Bool.eqb_true_iff. tauto.
Qed.
Print Assumptions C19_matches_interest.

Definition ex_enc : data := da_run ex_sha [DSetContentBuf (str "x"); DSign (fun u => str "sig1") ex_si] (da_of ex_n1).
Definition ex_with (n : name) (cbp : bool) : interest := in_setCanBePrefix cbp (fst (in_setName ex_sha n in_default)).
Example C19_ex : exists full,
  snd (da_getFullName ex_sha ex_enc) = Ok full /\
  snd (in_matchesData ex_sha (ex_with full false) ex_enc) = Ok true /\
  snd (in_matchesData ex_sha (ex_with ex_n1 false) ex_enc) = Ok true /\
  snd (in_matchesData ex_sha (ex_with (nm_of [comp_ofString (str "A")]) true) ex_enc) = Ok true /\
  snd (in_matchesData ex_sha (ex_with (nm_of [comp_ofString (str "A")]) false) ex_enc) = Ok false.
Proof. eexists. splits; (vm_compute; reflexivity). Qed.

(* ---- C25 ---- *)
(* extractSignedRanges of an encodable Interest throws exactly if the last component of the name is not
   of the parameters-digest type, or there is no SignatureInfo. *)
Theorem C25_present : forall sha256, (forall b, nlen (sha256 b) = 32) ->
  forall ops i r i' e, Forall in_op_ok ops -> in_clean sha256 ops in_default -> i = in_run sha256 ops in_default ->
  nlen r = 4 -> in_encode sha256 true r i = (i', Ok e) ->
  (exists a b, in_signedRanges sha256 true r i = (i', Ok (a, b))) <->
  (exists cs v, nkey (i_name i) = cs ++ [(2, v)]) /\ In 44 (map e_type (i_params i)).
Proof.
  intros sha256 L ops i r i' e F C -> Lr H. apply ranges_iff with e; auto. apply in_run_inv; auto. apply default_inv.
Qed.
Print Assumptions C25_present.
(* The two ranges: the components of the name but the last; ApplicationParameters and what follows up to the
   SignatureValue (elements that wireDecode ignored directly before it excepted).  The decoded packet has
   the same ranges. *)
Theorem C25_ranges : forall sha256, (forall b, nlen (sha256 b) = 32) ->
  forall ops i r i' a b, Forall in_op_ok ops -> in_clean sha256 ops in_default -> i = in_run sha256 ops in_default ->
  nlen r = 4 -> in_signedRanges sha256 true r i = (i', Ok (a, b)) ->
  exists e cs d signed, in_encode sha256 true r i = (i', Ok e) /\ in_covers e a b cs d signed /\
    nkey (i_name i) = map (fun e => (e_type e, e_val e)) (cs ++ [d]) /\
    filter (fun x => negb (ignored (e_type x))) (tl signed) = tl (before 46 (i_params i)) /\
    hd_error signed = hd_error (i_params i) /\
    (i_wire i = None -> signed = before 46 (i_params i) /\ a = concat (map comp_octets (removelast (n_comps (i_name i))))) /\
    (forall i0, in_decode sha256 true e i0 = (i', None)) /\
    (forall r', in_signedRanges sha256 true r' i' = (i', Ok (a, b))).
Proof.
  intros sha256 L ops i r i' a b F C -> Lr H. apply ranges_covers; auto. apply in_run_inv; auto. apply default_inv.
Qed.
Print Assumptions C25_ranges.
(* Signing: the octets given to the signer are the signed ranges of the result, if no element lies between
   the SignatureInfo and the SignatureValue and digest components have their right length. *)
Theorem C25_sign_partial : forall sha256, (forall b, nlen (sha256 b) = 32) ->
  forall ops i signer s r i', Forall in_op_ok ops -> in_clean sha256 ops in_default -> i = in_run sha256 ops in_default ->
  i_wire i = None -> si_for_interest s -> nlen r = 4 -> (forall u, nlen (signer u) < 2 ^ 64) ->
  Forall (fun k => fst k = 2 -> nlen (snd k) = 32) (nkey (i_name i)) ->
  sig_tail (i_params i) -> in_sign sha256 true signer s r i = (i', None) ->
  exists a b e rest, a = keys_octets (removelast (nkey (i_name i'))) /\ b = octets_of (before 46 (i_params i')) /\
    i_params i' = before 46 (i_params i') ++ e :: rest /\ e_type e = 46 /\ e_val e = signer (a ++ b) /\
    (exists cs d, nkey (i_name i') = cs ++ [(2, d)]) /\ In 44 (map e_type (i_params i')) /\
    forall r' i2 e', nlen r' = 4 -> in_encode sha256 true r' i' = (i2, Ok e') ->
      in_signedRanges sha256 true r' i' = (i2, Ok (a, b)).
Proof.
  intros sha256 L ops i signer s r i' F C -> W Os Lr Ls Fv St H.
  destruct (sign_consistent sha256 L signer s r (in_run sha256 ops in_default) i') as (a & b & e & rest & H1 & H2 & H3 & H4 & H5 & H6 & H7 & _ & H8); auto.
  { apply in_run_inv; auto. apply default_inv. }
  exists a, b, e, rest. splits; auto.
Qed.
Print Assumptions C25_sign_partial.
(* Otherwise not: an unsigned Interest whose SignatureInfo is followed by another element is signed over
   both, but then the SignatureValue goes between them, and the signed range of the result is shorter. *)
Definition ex_wire_elem (p : list elem) : elem :=
  mkBlock 5 (tlv_enc 7 (tlv_enc 8 (str "A") ++ tlv_enc 2 (ex_sha (octets_of p))) ++ tlv_enc 10 ex_nonce ++ octets_of p).
Definition ex_p1 : list elem := [mkBlock 36 []; mkBlock 44 (tlv_nni 27 0); mkBlock 128 (str "x")].
Theorem C25_sign_refuted : exists i0 i1 i2 ab1 ab2,
  in_decode ex_sha true (ex_wire_elem ex_p1) in_default = (i0, None) /\
  in_sign ex_sha true (fun u => u) (si_of 0 None) ex_nonce i0 = (i1, None) /\
  in_signedRanges ex_sha true ex_nonce i1 = (i2, Ok ab2) /\
  (exists e, first_param 46 i1 = Some e /\ e_val e = ab1) /\ ab1 <> fst ab2 ++ snd ab2.
Proof.
  do 5 eexists. splits; [vm_compute; reflexivity|vm_compute; reflexivity|vm_compute; reflexivity|eexists; split; vm_compute; reflexivity|].
  vm_compute. discriminate.
Qed.
Print Assumptions C25_sign_refuted.
(* And the last component need only have the type of the digest: here the digest is the first component,
   and the last, which no signature covers, is not one. *)
Definition ex_p2 : list elem := [mkBlock 36 []; mkBlock 44 (tlv_nni 27 0); mkBlock 46 (str "s")].
Theorem C25_last_refuted : exists e i a b,
  in_decode ex_sha true e in_default = (i, None) /\ in_signedRanges ex_sha true ex_nonce i = (i, Ok (a, b)) /\
  nkey (i_name i) = [(2, ex_sha (octets_of ex_p2)); (2, str "any")] /\ a = tlv_enc 2 (ex_sha (octets_of ex_p2)).
Proof.
  exists (mkBlock 5 (tlv_enc 7 (tlv_enc 2 (ex_sha (octets_of ex_p2)) ++ tlv_enc 2 (str "any")) ++ octets_of ex_p2)).
  do 3 eexists. split; [vm_compute; reflexivity|]. split; [vm_compute; reflexivity|]. split; vm_compute; reflexivity.
Qed.
Print Assumptions C25_last_refuted.

Definition ex_signer (u : bytes) : bytes := [nb (nlen u)].
Example C25_ex : exists i a b i2,
  in_sign ex_sha true ex_signer ex_si ex_nonce (in_run ex_sha [ISetName ex_n1; ISetParams (str "pq")] in_default) = (i, None) /\
  in_signedRanges ex_sha true ex_nonce i = (i2, Ok (a, b)) /\ a = tlv_enc 8 (str "A") ++ tlv_enc 8 (str "B") /\ nlen b = 19.
Proof. do 4 eexists. split; [vm_compute; reflexivity|]. split; [vm_compute; reflexivity|]. split; reflexivity. Qed.

(* ---- C62 ---- *)
(* The signed octets determine what is signed: two Interests with the same signed octets have the same
   name components before the digest, and the same parameters before the SignatureValue -- if no name
   component has the type number of ApplicationParameters (36). *)
Theorem C62_injective_partial : forall sha256, (forall b, nlen (sha256 b) = 32) ->
  forall ops1 ops2 i1 i2 r1 r2 j1 j2 a1 b1 a2 b2,
  Forall in_op_ok ops1 -> in_clean sha256 ops1 in_default -> i1 = in_run sha256 ops1 in_default ->
  Forall in_op_ok ops2 -> in_clean sha256 ops2 in_default -> i2 = in_run sha256 ops2 in_default ->
  nlen r1 = 4 -> nlen r2 = 4 ->
  in_signedRanges sha256 true r1 i1 = (j1, Ok (a1, b1)) -> in_signedRanges sha256 true r2 i2 = (j2, Ok (a2, b2)) ->
  ~ In 36 (map fst (nkey (i_name i1))) -> ~ In 36 (map fst (nkey (i_name i2))) -> a1 ++ b1 = a2 ++ b2 ->
  removelast (nkey (i_name i1)) = removelast (nkey (i_name i2)) /\ before 46 (i_params i1) = before 46 (i_params i2).
Proof.
  intros sha256 L ops1 ops2 i1 i2 r1 r2 j1 j2 a1 b1 a2 b2 F1 C1 -> F2 C2 -> Lr1 Lr2 R1 R2 N1 N2 E.
  apply (range_inj sha256 L r1 r2 (in_run sha256 ops1 in_default) (in_run sha256 ops2 in_default) j1 j2 a1 b1 a2 b2); auto;
    apply in_run_inv; auto; apply default_inv.
Qed.
Print Assumptions C62_injective_partial.
(* With such a component it is false: the same octets are signed for the name /36=a and for the name
   without components but the digest. *)
Definition ex_sg : list elem := [mkBlock 44 (tlv_nni 27 0); mkBlock 46 (str "s")].
Definition ex_w1 : elem :=
  let p := mkBlock 36 (str "p") :: ex_sg in
  mkBlock 5 (tlv_enc 7 (tlv_enc 36 (str "a") ++ tlv_enc 2 (ex_sha (octets_of p))) ++ octets_of p).
Definition ex_w2 : elem :=
  mkBlock 5 (tlv_enc 7 (tlv_enc 2 (ex_sha (octets_of (mkBlock 36 (str "a") :: ex_sg)))) ++
             octets_of (mkBlock 36 (str "a") :: mkBlock 36 (str "p") :: ex_sg)).
Theorem C62_refuted : exists i1 i2 a1 b1 a2 b2,
  in_decode ex_sha true ex_w1 in_default = (i1, None) /\ in_decode ex_sha true ex_w2 in_default = (i2, None) /\
  in_signedRanges ex_sha true ex_nonce i1 = (i1, Ok (a1, b1)) /\ in_signedRanges ex_sha true ex_nonce i2 = (i2, Ok (a2, b2)) /\
  a1 ++ b1 = a2 ++ b2 /\ length (nkey (i_name i1)) = 2%nat /\ length (nkey (i_name i2)) = 1%nat.
Proof. do 6 eexists. do 4 (split; [vm_compute; reflexivity|]). splits; reflexivity. Qed.
Print Assumptions C62_refuted.
Example C62_ex : exists i a b, in_signedRanges ex_sha true ex_nonce (in_run ex_sha ex_iops in_default) = (i, Ok (a, b)) /\
  ~ In 36 (map fst (nkey (i_name (in_run ex_sha ex_iops in_default)))) /\ nlen (a ++ b) = 25.
Proof. do 3 eexists. splits; [vm_compute; reflexivity| |vm_compute; reflexivity]. vm_compute. intuition discriminate. Qed.

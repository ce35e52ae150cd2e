(* C01-C08: TLV numbers, elements, Block and the encoder. *)
From Verif Require Import Base BaseLemmas M_Tlv M_Block M_Encoder S_Tlv S_Block P_Tlv P_Block P_Encoder P_EncoderT.

(* ---- C01 ---- *)
(* The octets written are the shortest VAR-NUMBER for n, in number as announced; reading them
   back yields n and leaves what follows. *)
Theorem C01_varnumber_round_trip : forall n, n < 2 ^ 64 ->
  shortest_varnum n (encVarNumber n) /\
  nlen (encVarNumber n) = sizeOfVarNumber n /\
  (sizeOfVarNumber n = 1 \/ sizeOfVarNumber n = 3 \/ sizeOfVarNumber n = 5 \/ sizeOfVarNumber n = 9) /\
  forall rest, readVarNumberX (encVarNumber n ++ rest) = Ok (n, rest).
Proof.
  exact (fun n H => conj (encVarNumber_shortest n H) (conj (encVarNumber_len n) (conj (sizeOfVarNumber_cases n)
    (fun rest => f_equal (of_opt ETlv) (readVarNumber_enc n rest H))))).
Qed.
Print Assumptions C01_varnumber_round_trip.

Example C01_ex : encVarNumber 300 = [xfd; x01; x2c] /\ readVarNumberX [xfd; x01; x2c; xff] = Ok (300, [xff]).
Proof. split; reflexivity. Qed.

(* ---- C02 ---- *)
Theorem C02_varnumber_total : forall inp,
  readVarNumberX inp = Err ETlv \/
  exists n d rest, readVarNumberX inp = Ok (n, rest) /\ inp = d ++ rest /\ d <> [] /\ n < 2 ^ 64 /\ is_varnum n d.
Proof. exact readVarNumber_total. Qed.
Print Assumptions C02_varnumber_total.

Theorem C02_type_total : forall inp,
  readTypeX inp = Err ETlv \/
  exists n d rest, readTypeX inp = Ok (n, rest) /\ inp = d ++ rest /\ d <> [] /\ 0 < n < 2 ^ 32 /\ is_varnum n d.
Proof. exact readType_total. Qed.
Print Assumptions C02_type_total.

(* exactly the well-formed inputs are accepted *)
Theorem C02_accepts : forall inp n rest,
  (readVarNumber inp = Some (n, rest) <-> exists d, is_varnum n d /\ inp = d ++ rest) /\
  (readType inp = Some (n, rest) <-> 0 < n /\ n < 2 ^ 32 /\ exists d, is_varnum n d /\ inp = d ++ rest).
Proof. exact (fun inp n rest => conj (readVarNumber_iff inp n rest) (readType_iff inp n rest)). Qed.
Print Assumptions C02_accepts.

(* the non-throwing and throwing variants agree *)
Theorem C02_variants_agree : forall inp,
  (readVarNumberX inp = match readVarNumber inp with Some r => Ok r | None => Err ETlv end) /\
  (readTypeX inp = match readType inp with Some r => Ok r | None => Err ETlv end).
Proof. exact readers_nonthrowing. Qed.
Print Assumptions C02_variants_agree.

Theorem C02_truncated_rejected : forall n p s, is_varnum n (p ++ s) -> s <> [] ->
  readVarNumberX p = Err ETlv /\ readTypeX p = Err ETlv.
Proof. exact varnum_truncated. Qed.
Print Assumptions C02_truncated_rejected.

Example C02_ex : is_varnum 300 ([xfd; x01] ++ [x2c]) /\ readTypeX [xfd; x01] = Err ETlv /\
  readTypeX [xff; x00; x00; x00; x01; x00; x00; x00; x00] = Err ETlv.
Proof. split; [exact (VN3 xfd [x01; x2c] eq_refl eq_refl)|split; reflexivity]. Qed.

(* ---- C03 ---- *)
Theorem C03_nni_round_trip : forall n, n < 2 ^ 64 ->
  shortest_nni n (encNNI n) /\ nlen (encNNI n) = sizeOfNonNegativeInteger n /\
  (forall rest, readNonNegativeInteger (nlen (encNNI n)) (encNNI n ++ rest) = Ok (n, rest)) /\
  forall t, readNNIBlock (mkNNIBlock t n) = Ok n.
Proof.
  exact (fun n H => conj (encNNI_shortest n H) (conj (encNNI_len n) (conj
    (fun rest => eq_trans (f_equal (fun k => readNonNegativeInteger k (encNNI n ++ rest)) (encNNI_len n)) (readNNI_enc n rest H))
    (fun t => readNNIBlock_mk t n H)))).
Qed.
Print Assumptions C03_nni_round_trip.

Theorem C03_nni_strict : forall len inp n rest,
  readNonNegativeInteger len inp = Ok (n, rest) <->
  exists d, is_nni n d /\ nlen d = len /\ inp = d ++ rest.
Proof. exact readNNI_iff. Qed.
Print Assumptions C03_nni_strict.

Theorem C03_nni_errors : forall len inp e, readNonNegativeInteger len inp = Err e -> e = ETlv.
Proof. exact readNNI_err. Qed.
Print Assumptions C03_nni_errors.

Example C03_ex : readNNIBlock (mkNNIBlock 25 70000) = Ok 70000 /\
  readNonNegativeInteger 3 [x01; x02; x03] = Err ETlv.
Proof. split; reflexivity. Qed.

(* ---- C04 ---- *)
Theorem C04_framing : forall inp rest t v,
  (exists w, is_tlv t v w /\ inp = w ++ rest) <->
  (exists e, fromBuffer inp = Some (e, rest) /\ e_type e = t /\ e_val e = v).
Proof. exact fromBuffer_tlv_iff. Qed.
Print Assumptions C04_framing.

(* the returned block spans exactly the element's octets *)
Theorem C04_extent : forall inp e rest, fromBuffer inp = Some (e, rest) <->
  is_tlv (e_type e) (e_val e) (e_wire e) /\ inp = e_wire e ++ rest.
Proof. exact fromBuffer_iff. Qed.
Print Assumptions C04_extent.

Theorem C04_truncated : forall t v p s, is_tlv t v (p ++ s) -> s <> [] ->
  fromBuffer p = None /\ blockFromSpan p = Err ETlv.
Proof. exact tlv_truncated. Qed.
Print Assumptions C04_truncated.

Theorem C04_unique_split : forall l l' w, is_tlv_seq l w -> is_tlv_seq l' w -> l = l'.
Proof. exact is_tlv_seq_unique. Qed.
Print Assumptions C04_unique_split.

(* every element an encoder writes is one *)
Theorem C04_encoded : forall t v, 0 < t -> t < 2 ^ 32 -> nlen v < 2 ^ 64 -> is_tlv t v (tlv_enc t v).
Proof. exact tlv_enc_is. Qed.
Print Assumptions C04_encoded.

Example C04_ex :
  is_tlv 7 [x08; x01; x41] [x07; x03; x08; x01; x41] /\
  fromBuffer [x07; x03; x08; x01; x41; xff] = Some (mkElem 7 [x07; x03] [x08; x01; x41], [xff]) /\
  fromBuffer [x07; x03; x08; x01] = None.
Proof. split; [exact (tlv_enc_is 7 [x08; x01; x41] eq_refl eq_refl eq_refl)|split; reflexivity]. Qed.

(* ---- C05 ---- *)
Theorem C05_parse_iff : forall v es, parseValue v = Ok es <->
  Forall (fun e => is_tlv (e_type e) (e_val e) (e_wire e)) es /\ v = concat (map e_wire es).
Proof. exact parseValue_iff. Qed.
Print Assumptions C05_parse_iff.

(* Block::encode of any block reachable through the interface has no undefined behaviour and
   yields the encoding of its value, or of its elements if it has none. *)
Theorem C05_encode_total : forall b, built b -> bk_hasWire b = false ->
  exists b', bk_encode b = Ok b' /\ bk_wire b' = Ok (bk_octets b) /\ bk_type b' = bk_type b.
Proof. exact (fun b B => bk_encode_sized b (built_sized b B)). Qed.
Print Assumptions C05_encode_total.

(* a tree built with Block(type, value), Block(type) and push_back *)
Theorem C05_encode_tree : forall x, tree_types_ok x ->
  exists b' w, bk_encode (block_of_tree x) = Ok b' /\ bk_wire b' = Ok w /\
    (nlen w < 2 ^ 64 -> tree_wire x w).
Proof.
  exact (fun x T =>
    match bk_encode_sized _ (built_sized _ (block_of_tree_built x)) (block_of_tree_no_wire x) with
    | ex_intro _ b' (conj E (conj W _)) =>
        ex_intro _ b' (ex_intro _ _ (conj E (conj W (tree_octets_wire x T))))
    end).
Qed.
Print Assumptions C05_encode_tree.

Theorem C05_parse_tree : forall x w, tree_wire x w ->
  exists e, blockFromSpan w = Ok e /\ e_wire e = w /\ reads (bk_ofElem e) x.
Proof. exact tree_wire_reads'. Qed.
Print Assumptions C05_parse_tree.

Definition C05_tree : tree := Node 6 [Node 7 [Leaf 8 [x41]; Leaf 8 [x42]]; Leaf 21 [xff]].
Example C05_ex : tree_types_ok C05_tree /\
  match bk_encode (block_of_tree C05_tree) with Ok b' => bk_wire b' | Err e => Err e end =
  Ok [x06; x0b; x07; x06; x08; x01; x41; x08; x01; x42; x15; x01; xff].
Proof. split; [cbn; repeat split|reflexivity]. Qed.

(* ---- C06 ---- *)
(* False as stated: when complete elements precede an unreadable header, the first parse()
   throws but keeps them, and the second one returns normally with a truncated list. *)
Theorem C06_failed_parse_refuted :
  exists b b', built b /\ parse_n 1 b = (b', Some ETlv) /\ parse_n 2 b = (b', None) /\
    length (bk_elems b') = 1%nat.
Proof.
  exact (ex_intro _ (bk_ofValue 7 [x08; x01; x41; xfd])
    (ex_intro _ (set_elems (bk_ofValue 7 [x08; x01; x41; xfd]) [bk_ofElem (mkElem 8 [x08; x01] [x41])])
      (conj (bu_ofValue 7 [x08; x01; x41; xfd]) (conj eq_refl (conj eq_refl eq_refl))))).
Qed.
Print Assumptions C06_failed_parse_refuted.

(* in general *)
Theorem C06_failed_parse_truncates : forall t l ws tail, is_tlv_seq l ws -> l <> [] -> bad_header tail ->
  exists b', parse_n 1 (bk_ofValue t (ws ++ tail)) = (b', Some ETlv) /\
    parse_n 2 (bk_ofValue t (ws ++ tail)) = (b', None) /\
    map (fun x => (bk_type x, bk_value x)) (bk_elems b') = l.
Proof. exact parse_bad_header_twice. Qed.
Print Assumptions C06_failed_parse_truncates.

(* What holds: if the failure is an element longer than the remaining value, every parse()
   throws and the block is unchanged.  Missing: the other kind of failure, refuted above. *)
Theorem C06_failed_parse_partial : forall t l ws tail, is_tlv_seq l ws -> overlong tail ->
  forall n, parse_n (S n) (bk_ofValue t (ws ++ tail)) = (bk_ofValue t (ws ++ tail), Some ETlv).
Proof. exact parse_overlong_forever. Qed.
Print Assumptions C06_failed_parse_partial.

Example C06_ex : is_tlv_seq [(8, [x41])] [x08; x01; x41] /\ bad_header [xfd] /\ overlong [x08; x05; x41].
Proof.
  split; [|split].
  - exact (seq_cons 8 [x41] [x08; x01; x41] [] [] (tlv_enc_is 8 [x41] eq_refl eq_refl eq_refl) seq_nil).
  - split; [discriminate|]. intros t a len b r E _ Ha Hb.
    assert (R : readVarNumber [xfd] = None) by reflexivity.
    rewrite E, (varnum_read_ext t a (b ++ r) Ha) in R. discriminate.
  - exists 8, [x08], [x05], 5, [x41].
    repeat split; [exact (VN1 x08 eq_refl)|exact (VN1 x05 eq_refl)].
Qed.

(* ---- C07 ---- *)
Theorem C07_encoder_contents : forall total reserve ops, Forall op_arg_ok ops ->
  exists n e pieces, en_run ops (newEncoder total reserve) = Ok (n, e) /\
    Forall2 op_adds ops pieces /\
    en_contents e = concat (rev (map fst pieces)) ++ concat (map snd pieces).
Proof. exact encoder_contents. Qed.
Print Assumptions C07_encoder_contents.

Example C07_ex :
  let ops := [PrependBytes [x01; x02]; AppendVarNumber 300; PrependNNI 7; ReserveBack 50; AppendBytes [xaa]] in
  Forall op_arg_ok ops /\
  match en_run ops (newEncoder 1 0) with Ok (_, e) => en_contents e | Err _ => [] end =
  [x07; x01; x02; xfd; x01; x2c; xaa].
Proof. split; [repeat constructor|reflexivity]. Qed.

(* ---- C08 ---- *)
Theorem C08_estimator_agrees : forall total reserve ops,
  exists n e, en_run ops (newEncoder total reserve) = Ok (n, e) /\
    N.of_nat n = est_run ops /\ nlen (en_contents e) = est_run ops.
Proof. exact estimator_agrees. Qed.
Print Assumptions C08_estimator_agrees.

Example C08_ex : est_run [PrependBytes [x01]; AppendVarNumber 70000; PrependNNI 300] = 8.
Proof. reflexivity. Qed.

(* ---- C66 ----
   Blocks with a value (or without elements) compare equal exactly when they stand for the same octets *)
Theorem C66_equality_partial : forall a b,
  (bk_hasValue a = true \/ bk_elems a = []) -> (bk_hasValue b = true \/ bk_elems b = []) ->
  0 < bk_type a < 2 ^ 32 -> 0 < bk_type b < 2 ^ 32 -> nlen (bk_value a) < 2 ^ 64 -> nlen (bk_value b) < 2 ^ 64 ->
  (bk_equals a b = true <-> bk_octets a = bk_octets b).
Proof.
  assert (O : forall a, (bk_hasValue a = true \/ bk_elems a = []) -> bk_octets a = tlv_enc (bk_type a) (bk_value a)).
  { intros [t [|v|h v] n es] H; cbn in *; auto. destruct H as [H| -> ]; [discriminate|reflexivity]. }
  intros a b Ha Hb [Ta1 Ta2] [Tb1 Tb2] La Lb. rewrite (O a Ha), (O b Hb). unfold bk_equals, bk_value_size. split.
  - intro H. apply andb_prop in H as [H H3]. apply andb_prop in H as [H1 H2]. apply N.eqb_eq in H1, H2.
    apply orb_prop in H3 as [H3|H3].
    + apply N.eqb_eq in H3. rewrite H3 in H2. symmetry in H2. apply nlen_0 in H2, H3. now rewrite H1, H2, H3.
    + apply bytes_eqb_eq in H3. now rewrite H1, H3.
  - intro H. pose proof (tlv_enc_is _ _ Ta1 Ta2 La) as A. pose proof (tlv_enc_is _ _ Tb1 Tb2 Lb) as B. rewrite <- H in B.
    assert (E : [(bk_type a, bk_value a)] = [(bk_type b, bk_value b)]).
    { apply (is_tlv_seq_unique _ _ (tlv_enc (bk_type a) (bk_value a) ++ [])); constructor; auto; constructor. }
    injection E as E1 E2. rewrite E1, E2, !N.eqb_refl, bytes_eqb_refl. cbn. apply orb_true_r.
Qed.
Print Assumptions C66_equality_partial.
(* missing: Blocks built with push_back and not yet encoded; their elements are not compared *)
Theorem C66_refuted_unencoded : exists a b a' b', built a /\ built b /\ bk_encode a = Ok a' /\ bk_encode b = Ok b' /\
  bk_equals a b = true /\ bk_equals a' b' = false /\ bk_octets a <> bk_octets b.
Proof.
  exists (bk_push_back (bk_ofValue 8 [x41]) (bk_ofType 7)), (bk_push_back (bk_ofValue 8 [x42]) (bk_ofType 7)).
  do 2 eexists. split; [apply bu_push; constructor|]. split; [apply bu_push; constructor|].
  split; [vm_compute; reflexivity|]. split; [vm_compute; reflexivity|]. split; [reflexivity|]. split; [reflexivity|vm_compute; discriminate].
Qed.
Print Assumptions C66_refuted_unencoded.
Example C66_ex : bk_equals (bk_ofValue 7 [x41]) (bk_ofElem (mkElem 7 [x07; xfd; x00; x01] [x41])) = true /\
  bk_equals (bk_ofValue 7 [x41]) (bk_ofValue 8 [x41]) = false /\ bk_equals (bk_ofValue 7 [x41]) (bk_ofValue 7 [x42]) = false.
Proof. repeat split. Qed.

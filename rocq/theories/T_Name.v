(* C09-C15: names. *)
From Verif Require Import Base BaseLemmas M_Tlv S_Tlv M_Str M_Name S_Name P_Name P_NameUri P_NameOrder.

(* ---- C09 ---- *)
(* Encoding a Name gives a Name TLV of its components; decoding that gives an equal Name. *)
Theorem C09_wire_round_trip : forall cs,
  Forall ctype_ok cs -> nlen (nm_octets (nm_of cs)) <= MAX_BUFFER ->
  exists e n' m, nm_encode (nm_of cs) = Ok (e, n') /\ e_wire e = nm_octets (nm_of cs) /\
    nm_equals n' (nm_of cs) = true /\
    blockFromWire (nm_octets (nm_of cs)) = Ok e /\ nm_decode e = Ok m /\ nm_equals m (nm_of cs) = true.
Proof. exact nm_round_trip. Qed.
Print Assumptions C09_wire_round_trip.

Theorem C09_wire_format : forall n, Forall ctype_ok (n_comps n) -> nlen (nm_octets n) < 2 ^ 64 ->
  exists v, is_tlv_seq (nkey n) v /\ is_tlv 7 v (nm_octets n).
Proof. exact nm_octets_is. Qed.
Print Assumptions C09_wire_format.

(* Decoding accepts exactly the Name TLVs, yields their components, and re-encoding returns the
   very same wire. *)
Theorem C09_decode_exact : forall e,
  (forall n, nm_decode e = Ok n ->
     e_type e = 7 /\ is_tlv_seq (nkey n) (e_val e) /\ nm_encode n = Ok (e, n)) /\
  (forall l, e_type e = 7 -> is_tlv_seq l (e_val e) -> exists n, nm_decode e = Ok n /\ nkey n = l).
Proof.
  exact (fun e => conj (fun n H => let K := nm_decode_keys e n H in
     conj (proj1 K) (conj (proj1 (proj2 K)) (nm_decode_encode e n H))) (nm_decode_accepts e)).
Qed.
Print Assumptions C09_decode_exact.

(* After any sequence of modifications, encodings, decodings and copies, a Name holds the
   components the operations say, and its wire (cached or not) decodes to an equal Name. *)
Theorem C09_history : forall ops n, Forall op_typed ops -> nm_run ops nm_empty = Ok n ->
  key_run ops [] (nkey n) /\
  forall e n', nm_encode n = Ok (e, n') ->
    nkey n' = nkey n /\ exists m, nm_decode e = Ok m /\ nkey m = nkey n.
Proof. exact nm_history. Qed.
Print Assumptions C09_history.

Definition ex_comps : list comp := [comp_ofString (str "A"); mkComp 50 None [x01; x00]].
Example C09_ex : Forall ctype_ok ex_comps /\ nm_octets (nm_of ex_comps) = [x07; x07; x08; x01; x41; x32; x02; x01; x00].
Proof. split; [repeat constructor|reflexivity]. Qed.
Example C09_ex_history :
  exists n, nm_run [NAppend (comp_ofString (str "A")); NEncode; NSet (-1) (mkComp 50 None [x05]); NEncode;
    NAppend (comp_ofString (str "B")); NErase 0; NEncode] nm_empty = Ok n /\ nkey n = [(8, str "B")].
Proof. eexists. split; reflexivity. Qed.

(* ---- C10 ---- *)
Definition schemes (sch : bytes) : Prop := sch = [] \/ sch = str "ndn:".
Lemma schemes_ok : forall sch, schemes sch -> sch = [] \/ exists s, forallb pathChar s = true /\ sch = s ++ [cColon].
Proof. intros sch [-> | ->]; [now left|right]. exists (str "ndn"). split; reflexivity. Qed.

Theorem C10_canonical_round_trip : forall n sch, Forall valid_key (nkey n) -> schemes sch ->
  exists m, nm_fromUri (sch ++ nm_toUri CANONICAL n) = Ok m /\ nm_equals m n = true.
Proof. exact (fun n sch V S => canonical_round_trip n sch V (schemes_ok sch S)). Qed.
Print Assumptions C10_canonical_round_trip.

Theorem C10_alternate_round_trip : forall n sch, Forall valid_key (nkey n) -> Forall alt_ok (nkey n) -> schemes sch ->
  exists m, nm_fromUri (sch ++ nm_toUri ALTERNATE n) = Ok m /\ nm_equals m n = true.
Proof. exact (fun n sch V A S => alternate_round_trip n sch V A (schemes_ok sch S)). Qed.
Print Assumptions C10_alternate_round_trip.

(* the hypothesis on numeric components is needed *)
Theorem C10_alternate_nonshortest_refuted : exists n m, Forall valid_key (nkey n) /\
  nm_fromUri (nm_toUri ALTERNATE n) = Ok m /\ nm_equals m n = false.
Proof.
  exists (nm_of [mkComp 50 None [x00; x01]]), (nm_of [comp_of_elem (mkNNIBlock 50 1)]).
  split; [|split; reflexivity]. repeat constructor; try discriminate. intros [H|H]; discriminate.
Qed.
Print Assumptions C10_alternate_nonshortest_refuted.

(* parsing any text ends with a Name of valid components or with Name::Error *)
Theorem C10_parse_total : forall s,
  match nm_fromUri s with Ok n => Forall valid_key (nkey n) | Err e => e = ETlv end.
Proof. exact nm_fromUri_total. Qed.
Print Assumptions C10_parse_total.

Definition ex_name : name := nm_of [comp_ofString (str "a/b"); comp_ofString []; comp_ofString (str "..");
  mkComp 54 None [x2a]; mkComp 65535 None [x00; x3d]; mkComp 1 None (repeat xab 32)].
Example C10_ex : nm_toUri ALTERNATE ex_name =
  str "/a%2Fb/.../...../v=42/65535=%00%3D/sha256digest=abababababababababababababababababababababababababababababababab"
  /\ nm_toUri CANONICAL (nm_of [comp_ofString (str "a"); mkComp 54 None [x2a]]) = str "/8=a/54=%2A".
Proof. split; vm_compute; reflexivity. Qed.
Example C10_ex_hyp : Forall valid_key (nkey ex_name) /\ Forall alt_ok (nkey ex_name).
Proof.
  split.
  - repeat constructor; try (cbn; discriminate); cbn; intros [H|H]; try discriminate; reflexivity.
  - repeat constructor; intros H1 H2; cbn in *; try (repeat destruct H1 as [H1|H1]; discriminate);
      try (repeat destruct H2 as [H2|H2]; discriminate).
    exists 42. split; [reflexivity|]. exact (P_Block.encNNI_shortest 42 eq_refl).
Qed.

(* ---- C11 ---- *)
Theorem C11_percent_lossless : forall s, unescape (escape s) = s.
Proof. exact P_Str.unescape_escape. Qed.
Print Assumptions C11_percent_lossless.

Theorem C11_percent_format : forall s, pct_code s (escape s).
Proof. exact escape_pct. Qed.
Print Assumptions C11_percent_format.

Example C11_ex : escape (str "a /~%") = str "a%20%2F~%25" /\ unescape (str "%2g%4") = str "%2g%4".
Proof. split; reflexivity. Qed.

(* ---- C12 ---- *)
(* compare() decides the canonical order, for names with shortest component headers and sizes
   below 2^31; such are all names built by this library and all names decoded from packets that
   follow the NDN packet specification. *)
Theorem C12_compare_canonical_partial : forall a b, comparable a -> comparable b ->
  exists z, nm_compare a b = Ok z /\
    ((z < 0)%Z <-> names_lt (nkey a) (nkey b)) /\
    (z = 0%Z <-> nkey a = nkey b) /\
    ((z > 0)%Z <-> names_lt (nkey b) (nkey a)).
Proof. exact nm_compare_spec. Qed.
Print Assumptions C12_compare_canonical_partial.

(* == is equality of the components, for all names *)
Theorem C12_equals : forall a b, nm_equals a b = true <-> nkey a = nkey b.
Proof. exact nm_equals_iff. Qed.
Print Assumptions C12_equals.

(* canonical order is a strict total order in which names under a prefix are contiguous *)
Theorem C12_total_order :
  (forall a, ~ names_lt a a) /\
  (forall a b c, names_lt a b -> names_lt b c -> names_lt a c) /\
  (forall a b, names_lt a b \/ a = b \/ names_lt b a) /\
  (forall p a b c, names_lt (p ++ a) b \/ b = p ++ a -> names_lt b (p ++ c) \/ b = p ++ c -> exists s, b = p ++ s).
Proof. exact (conj names_lt_irr (conj names_lt_trans (conj names_lt_tri names_prefix_between))). Qed.
Print Assumptions C12_total_order.

(* comparing sub-sequences is comparing the slices *)
Theorem C12_compare_slices : forall p1 c1 a p2 c2 b, p1 <= nm_size a -> p2 <= nm_size b ->
  nm_size a < 2 ^ 64 -> nm_size b < 2 ^ 64 -> c1 < 2 ^ 64 -> c2 < 2 ^ 64 ->
  nm_compareSub p1 c1 a p2 c2 b =
  nm_compare (nm_of (slice (Z.of_N p1) c1 (n_comps a))) (nm_of (slice (Z.of_N p2) c2 (n_comps b))).
Proof. exact nm_compareSub_compare. Qed.
Print Assumptions C12_compare_slices.

(* With a non-minimal length field inside a decoded Name, == and compare() disagree *)
Theorem C12_nonminimal_refuted : exists e1 e2 a b,
  blockFromWire [x07; x03; x08; x01; x41] = Ok e1 /\ nm_decode e1 = Ok a /\
  blockFromWire [x07; x05; x08; xfd; x00; x01; x41] = Ok e2 /\ nm_decode e2 = Ok b /\
  nm_equals a b = true /\ nm_compare a b <> Ok 0%Z.
Proof. do 4 eexists. repeat split; try reflexivity. vm_compute. discriminate. Qed.
Print Assumptions C12_nonminimal_refuted.

Example C12_ex : comparable (nm_of [comp_ofString (str "b")]) /\
  nm_compare (nm_of [comp_ofString (str "b")]) (nm_of [comp_ofString (str "aa")]) = Ok (-1)%Z /\
  names_lt [(8, str "b")] [(8, str "aa")].
Proof.
  split; [|split; [reflexivity|]].
  - split; [split; [reflexivity|repeat constructor]|split; repeat constructor].
    exact (mkBlock_shortest 8 (str "b") eq_refl eq_refl).
  - right. exists [], (8, str "b"), (8, str "aa"), [], []. split; [reflexivity|split; [reflexivity|]].
    right. split; [reflexivity|]. left. reflexivity.
Qed.

(* ---- C13 ---- *)
Theorem C13_component_successor : forall c, valid_key (ckey c) ->
  exists s, comp_getSuccessor c = Ok s /\ valid_key (ckey s) /\ key_lt (ckey c) (ckey s) /\
    forall k, valid_key k -> key_lt (ckey c) k -> k = ckey s \/ key_lt (ckey s) k.
Proof. exact comp_getSuccessor_spec. Qed.
Print Assumptions C13_component_successor.

Theorem C13_name_successor : forall n, nm_size n < 2 ^ 64 -> Forall valid_key (nkey n) ->
  exists s, nm_getSuccessor n = Ok s /\ Forall valid_key (nkey s) /\ names_lt (nkey n) (nkey s) /\
    (* greater than every name under n, unless n is empty *)
    (nkey n <> [] -> forall x, names_lt (nkey n ++ x) (nkey s)) /\
    (* no greater than any greater name that is not under n; for the empty name: no greater than
       any other name *)
    (forall z, Forall valid_key z -> names_lt (nkey n) z -> nkey n = [] \/ ~ (exists x, z = nkey n ++ x) ->
       z = nkey s \/ names_lt (nkey s) z).
Proof. exact nm_getSuccessor_spec. Qed.
Print Assumptions C13_name_successor.

Example C13_ex : nm_getSuccessor (nm_of [comp_ofString (str "A"); mkComp 2 None (repeat xff 32)]) =
    Ok (nm_of [comp_ofString (str "A"); comp_of_elem (mkBlock 3 [])]) /\
  comp_getSuccessor (comp_ofString [x01; xff]) = Ok (comp_ofString [x02; x00]) /\
  comp_getSuccessor (comp_ofString [xff]) = Ok (comp_ofString [x00; x00]).
Proof. repeat split. Qed.

(* ---- C14 ---- *)
Theorem C14_numeric_round_trip : forall e d k n, n < 2 ^ 64 -> can_decode d e = true ->
  exists c, fromKind e k n = Ok c /\ isKind d k c = true /\ toKind d k c = Ok n.
Proof. exact numeric_round_trip_ex. Qed.
Print Assumptions C14_numeric_round_trip.

(* a component is of at most one kind, under every decoding convention *)
Theorem C14_kinds_exclusive : forall d k k' c, isKind d k c = true -> isKind d k' c = true -> k = k'.
Proof. exact kinds_exclusive. Qed.
Print Assumptions C14_kinds_exclusive.

Theorem C14_is_iff_to : forall d k c, isKind d k c = is_ok (toKind d k c).
Proof. exact isKind_toKind. Qed.
Print Assumptions C14_is_iff_to.

Example C14_ex : fromKind MARKER KVersion 300 = Ok (comp_ofString [xfd; x01; x2c]) /\
  toKind EITHER KVersion (comp_ofString [xfd; x01; x2c]) = Ok 300 /\
  toKind TYPED KVersion (comp_ofString [xfd; x01; x2c]) = Err ETlv.
Proof. repeat split. Qed.

(* ---- C15 ---- *)
Theorem C15_isPrefixOf : forall a b, nm_isPrefixOf a b = true <-> exists s, nkey b = nkey a ++ s.
Proof. exact nm_isPrefixOf_iff. Qed.
Print Assumptions C15_isPrefixOf.

(* getSubName and getPrefix return the documented slices, unless start + count exceeds the range
   of size_t or the prefix length is below -size() *)
Theorem C15_subname_partial : forall i cnt n,
  nm_size n < 2 ^ 64 -> (i < 2 ^ 64)%Z ->
  cnt = npos \/ N.of_nat (slice_start i (length (n_comps n))) + cnt < 2 ^ 64 ->
  n_comps (nm_getSubName i cnt n) = slice i cnt (n_comps n).
Proof. exact (fun i cnt n L Li C => proj1 (nm_getSubName_slice i cnt n L Li C)). Qed.
Print Assumptions C15_subname_partial.

Theorem C15_prefix_partial : forall k n,
  nm_size n < 2 ^ 64 -> (- Z.of_N (nm_size n) <= k < 2 ^ 64)%Z ->
  n_comps (nm_getPrefix k n) = firstn (slice_start k (length (n_comps n))) (n_comps n).
Proof. exact nm_getPrefix_slice. Qed.
Print Assumptions C15_prefix_partial.

Theorem C15_append : forall m n, n_comps (nm_appendName m n) = n_comps n ++ n_comps m.
Proof. exact (fun m n => proj1 (nm_appendName_comps m n)). Qed.
Print Assumptions C15_append.

(* at() returns the indexed component or throws; it never reads out of range *)
Theorem C15_at : forall i n,
  (exists j, at_index i (length (n_comps n)) j /\ exists c, nth_error (n_comps n) j = Some c /\ nm_at i n = Ok c) \/
  ((forall j, ~ at_index i (length (n_comps n)) j) /\ nm_at i n = Err ETlv).
Proof. exact nm_at_spec. Qed.
Print Assumptions C15_at.

(* "return the components until the end" fails for counts close to 2^64, and a prefix length
   below -size() gives the whole name *)
Theorem C15_subname_refuted : exists n i cnt,
  cnt < 2 ^ 64 /\ n_comps (nm_getSubName i cnt n) <> slice i cnt (n_comps n).
Proof.
  exists (nm_of [comp_ofString (str "A"); comp_ofString (str "B"); comp_ofString (str "C")]), 2%Z, (npos - 1).
  split; [reflexivity|]. rewrite slice_until_end by discriminate. vm_compute. discriminate.
Qed.
Print Assumptions C15_subname_refuted.
Theorem C15_prefix_refuted : exists n k, (k < - Z.of_N (nm_size n))%Z /\ nm_getPrefix k n = n /\ nm_size n = 2.
Proof.
  exists (nm_of [comp_ofString (str "A"); comp_ofString (str "B")]), (-3)%Z. repeat split.
Qed.
Print Assumptions C15_prefix_refuted.

Example C15_ex : let n := nm_of (map comp_ofString [str "A"; str "B"; str "C"; str "D"]) in
  nm_toUri ALTERNATE (nm_getSubName (-3) 2 n) = str "/B/C" /\ nm_toUri ALTERNATE (nm_getPrefix (-1) n) = str "/A/B/C" /\
  nm_toUri ALTERNATE (nm_getSubName (-9) 2 n) = str "/A/B" /\ nm_toUri ALTERNATE (nm_getSubName 3 npos n) = str "/D".
Proof. repeat split. Qed.

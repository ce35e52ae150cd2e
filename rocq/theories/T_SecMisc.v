(* C91-C93: SafeBag, AdditionalDescription and the text form of SigningInfo. *)
From Coq Require Import Lia ZifyBool ZifyNat ZifyN.
From Verif Require Import Base BaseLemmas M_Tlv S_Tlv P_Tlv P_Block M_Str M_Name S_Name P_Name P_NameUri M_Packet S_Packet P_Packet P_Data T_Packet M_SecMisc S_SecMisc P_SecMisc.
Open Scope N_scope.
Open Scope list_scope.

(* ---- C91 ---- *)
(* A bag with a signed certificate that fits into a buffer encodes to a SafeBag TLV: the certificate's TLV, then the key.  That decodes, into any
   object, to a bag with the same certificate fields and the same key. *)
Theorem C91_round_trip : forall d k e, signed d -> sb_encode (mkSb d k) = Ok e ->
  is_tlv 128 (e_val e) (e_wire e) /\ (exists v, is_tlv_seq [(6, v); (129, k)] (e_val e) /\ da_reads v = Some (da_fields d)) /\ blockFromWire (e_wire e) = Ok e /\
  forall d0, exists b, sb_decode e d0 = Ok b /\ da_fields (sb_cert b) = da_fields d /\ sb_key b = k.
Proof.
  intros d k e0 (O & _ & _ & Sv) E0. destruct (sb_encode_ok _ _ E0) as (v & V & L). cbn [sb_cert sb_key] in *.
  destruct (bag_travels d k v O Sv V L) as (e & E & T & Sq & B & _ & R). assert (e = e0) by congruence. subst e0. splits; auto.
  - exists v. split; [exact Sq|]. destruct (R da_empty) as (b & _ & D & F & _). unfold da_reads. rewrite D. now rewrite F.
  - intro d0. destruct (R d0) as (b & H1 & _ & H2 & _ & H3). eauto.
Qed.
Print Assumptions C91_round_trip.
(* a signed certificate always encodes unless the octets exceed what a buffer can hold *)
Theorem C91_encode_total : forall d k, signed d -> exists v, da_value d = Ok v /\
  ((exists e, sb_encode (mkSb d k) = Ok e) <-> nlen (tlv_enc 128 (tlv_enc 6 v ++ tlv_enc 129 k)) <= MAX_BUFFER).
Proof.
  intros d k G. destruct (signed_value d G) as (v & V). exists v. split; [exact V|]. destruct G as (O & _ & _ & Sv). split.
  - intros (e & E). destruct (sb_encode_ok _ _ E) as (v' & V' & L). cbn [sb_cert sb_key] in *. assert (v' = v) by congruence. subst. exact L.
  - intro L. destruct (bag_travels d k v O Sv V L) as (e & E & _). eauto.
Qed.
Print Assumptions C91_encode_total.
(* Decoding succeeds exactly on a SafeBag TLV that holds a Data packet and the key and nothing else, and then gives those. *)
Theorem C91_decode : forall e d0 key v, (exists b, sb_decode e d0 = Ok b /\ sb_key b = key /\ da_fields (sb_cert b) = v) <->
  e_type e = 128 /\ exists d, is_tlv_seq [(6, d); (129, key)] (e_val e) /\ da_reads d = Some v.
Proof. exact sb_decode_iff. Qed.
Print Assumptions C91_decode.
(* A certificate signed with the library comes out of the bag as the same object: same octets, same signed range.
   Missing for the full claim: any certificate; C91_certificate_refuted. *)
Theorem C91_certificate_partial : forall signer s d d' c k e, da_ok d -> si_ok s -> da_sign signer s d = (d', Ok c) -> sb_encode (mkSb d' k) = Ok e ->
  forall d0, sb_decode e d0 = Ok (mkSb d' k) /\ da_encode d' = (d', Ok c).
Proof.
  intros signer s d d' c k e O Os H E d0. split; [eapply sign_bag; eauto|]. pose proof (P_DataT.da_sign_range signer s d d' c O Os H) as (u0 & so & _ & _ & _ & _ & _ & W & _ & _). unfold da_encode. now rewrite W.
Qed.
Print Assumptions C91_certificate_partial.
Example C91_ex : signed ex_data /\ (exists e, sb_encode (mkSb ex_data (str "pkcs8")) = Ok e /\ nlen (e_wire e) = 65 /\ exists b, sb_decode e da_empty = Ok b /\ sb_key b = str "pkcs8" /\ da_fields (sb_cert b) = da_fields ex_data).
Proof.
  split; [split; [exact ex_data_ok|splits; [discriminate|intros k t [= <-]; discriminate|reflexivity]]|]. eexists. split; [vm_compute; reflexivity|]. split; [vm_compute; reflexivity|]. eexists. split; [vm_compute; reflexivity|]. split; vm_compute; reflexivity.
Qed.
Example C91_ex_sign : da_ok ex_data /\ si_ok ex_si /\ exists d' c e, da_sign (fun u => [nb (nlen u)]) ex_si ex_data = (d', Ok c) /\ sb_encode (mkSb d' (str "k")) = Ok e /\ sb_decode e da_empty = Ok (mkSb d' (str "k")).
Proof. split; [exact ex_data_ok|]. split; [exact ex_si_ok|]. do 3 eexists. split; [vm_compute; reflexivity|]. split; vm_compute; reflexivity. Qed.
(* A certificate with an element its decoder ignores loses that element in the bag: what was signed is no longer what is in the packet. *)
Definition odd_wire : bytes := tlv_enc 6 (ntake 8 ex_value ++ tlv_enc 128 (str "zz") ++ ndrop 8 ex_value).
Definition odd_data : data := fst (da_decode (mkBlock 6 (ntake 8 ex_value ++ tlv_enc 128 (str "zz") ++ ndrop 8 ex_value)) da_empty).
Lemma odd_signed : signed odd_data.
Proof.
  assert (V : da_value ex_data = Ok ex_value) by (vm_compute; reflexivity). assert (L : nlen ex_value < two64) by (vm_compute; reflexivity).
  destruct (da_decode_encoded ex_data ex_value (mkBlock tData ex_value) da_empty ex_data_ok V L eq_refl eq_refl eq_refl) as (d' & D & _ & _ & _ & O). clear V L.
  assert (F : d' = fst (da_decode (mkBlock tData ex_value) da_empty)) by (rewrite D; reflexivity).
  assert (E1 : d_name odd_data = d_name d') by (rewrite F; vm_compute; reflexivity). assert (E2 : d_meta odd_data = d_meta d') by (rewrite F; vm_compute; reflexivity). assert (E3 : d_content odd_data = d_content d') by (rewrite F; vm_compute; reflexivity).
  assert (E4 : d_sinfo odd_data = d_sinfo d') by (rewrite F; vm_compute; reflexivity). assert (E5 : d_sval odd_data = d_sval d') by (rewrite F; vm_compute; reflexivity).
  split; [unfold da_ok in *; rewrite E1, E2, E3, E4, E5; exact O|]. split; [vm_compute; discriminate|]. split; [|vm_compute; reflexivity].
  assert (K : option_map kl_loc (si_key (d_sinfo odd_data)) = Some (KlName (match si_key (d_sinfo odd_data) with Some (mkKL (KlName n) _) => n | _ => nm_empty end))) by (vm_compute; reflexivity).
  intros k t H Q. rewrite H in K. cbn [option_map] in K. rewrite Q in K. discriminate K.
Qed.
Theorem C91_certificate_refuted : exists c d k e b, blockFromWire odd_wire = Ok c /\ da_decode c da_empty = (d, None) /\ signed d /\ sb_encode (mkSb d k) = Ok e /\ sb_decode e da_empty = Ok b /\
  snd (da_encode d) = Ok c /\ snd (da_encode (sb_cert b)) <> Ok c /\ snd (da_signedRange d) <> snd (da_signedRange (sb_cert b)).
Proof.
  eexists. exists odd_data, (str "k"). eexists. eexists. split; [vm_compute; reflexivity|]. split; [vm_compute; reflexivity|]. split; [exact odd_signed|].
  split; [vm_compute; reflexivity|]. split; [vm_compute; reflexivity|]. split; [vm_compute; reflexivity|]. split; vm_compute; discriminate.
Qed.
Print Assumptions C91_certificate_refuted.

(* ---- C92 ---- *)
(* After any history, each call does to the entries what it says: set gives the key its value and leaves the others, wireEncode leaves all,
   wireDecode gives every key the value of its last entry. has tells whether get returns; the failure of get is its Error. *)
Theorem C92_fields : forall l a o a', Forall ad_op_ok l -> ad_run l ad_empty = Some a -> ad_step o a = Some a' -> forall k,
  (ad_has k a' = true <-> exists v, ad_get k a' = Ok v) /\ (forall x, ad_get k a' = Err x -> x = ETlv) /\
  match o with
  | AdSet k' v' => got (ad_get k a') = if bytes_eqb k' k then Some v' else got (ad_get k a)
  | AdEncode => got (ad_get k a') = got (ad_get k a)
  | AdDecode e => exists l, is_tlv_seq l (e_val e) /\ described k l (got (ad_get k a'))
  end.
Proof.
  intros l a o a' F R H k. destruct (ad_run_inv l _ _ ad_empty_inv F R) as [A W]. splits; [apply ad_has_iff|unfold ad_get; destruct (find _ _); congruence|].
  destruct o as [k' v'| |e]; cbn [ad_step] in H; rewrite ?get_look.
  - injection H as <-. cbn [ad_set ad_info]. now apply put_look.
  - unfold ad_encode in H. destruct (ad_wire a); [now injection H as <-|]. destruct (alloc _); cbn [bind] in H; injection H as <-; reflexivity.
  - destruct (ad_decode e) as [a1|] eqn:D; [|discriminate]. injection H as <-. apply ad_decode_ok in D as (_ & _ & _ & ls & S1 & _ & S3). exists ls. split; [exact S1|]. apply S3.
Qed.
Print Assumptions C92_fields.
(* Decoding succeeds exactly if the element is an AdditionalDescription whose elements are entries of a key and a value or not critical; otherwise it throws tlv::Error. *)
Theorem C92_decode : forall e, ((exists a, ad_decode e = Ok a) <-> e_type e = 258 /\ exists l, is_tlv_seq l (e_val e) /\ Forall readable l) /\ forall x, ad_decode e = Err x -> x = ETlv.
Proof.
  intro e. split; [|apply ad_err]. split.
  - intros (a & H). apply ad_decode_ok in H as (T & _ & _ & l & S1 & S2 & _). eauto.
  - intros (T & l & S1 & S2). eapply ad_decode_total; eauto.
Qed.
Print Assumptions C92_decode.
(* Two descriptions are equal exactly if every key has the same value in both. *)
Theorem C92_equal : forall l1 l2 a b, Forall ad_op_ok l1 -> Forall ad_op_ok l2 -> ad_run l1 ad_empty = Some a -> ad_run l2 ad_empty = Some b ->
  (ad_eqb a b = true <-> forall k, ad_get k a = ad_get k b).
Proof.
  intros l1 l2 a b F1 F2 R1 R2. destruct (ad_run_inv _ _ _ ad_empty_inv F1 R1) as [A _]. destruct (ad_run_inv _ _ _ ad_empty_inv F2 R2) as [B _]. unfold ad_eqb. rewrite info_eqb_iff. split.
  - intros E k. unfold ad_get. now rewrite E.
  - intro H. apply ascending_ext; auto. intro k. rewrite <- !get_look. now rewrite H.
Qed.
Print Assumptions C92_equal.
(* If nothing was set after the description was encoded or decoded, what wireEncode returns, if it fits into a buffer, is an AdditionalDescription TLV that
   decodes to an equal description.  A description that was only set is written with one entry for each key, in ascending order.
   Missing for the full claim: set after wireEncode or wireDecode; C92_stale_refuted. *)
Theorem C92_round_trip_partial : forall l a e a', Forall ad_op_ok l -> set_first l -> ad_run l ad_empty = Some a -> ad_encode a = Ok (e, a') ->
  is_tlv 258 (e_val e) (e_wire e) /\ blockFromWire (e_wire e) = Ok e /\ exists b, ad_decode e = Ok b /\ ad_eqb a b = true /\ ad_encode b = Ok (e, b).
Proof.
  intros l a e a' F SF R E.
  assert (G : ad_inv a /\ (ad_wire a = None \/ exists e, ad_wire a = Some e /\ elem_wf e /\ e_type e = 258 /\ exists b, ad_decode e = Ok b /\ ad_info b = ad_info a)).
  { clear e a' E. revert SF R. assert (I0 : ad_inv ad_empty /\ (ad_wire ad_empty = None \/ exists e, ad_wire ad_empty = Some e /\ elem_wf e /\ e_type e = 258 /\ exists b, ad_decode e = Ok b /\ ad_info b = ad_info ad_empty)) by (split; [exact ad_empty_inv|left; reflexivity]).
    assert (I1 : ad_wire ad_empty <> None -> forall k v, ~ In (AdSet k v) l) by (intro Q; now elim Q).
    revert I0 I1. generalize ad_empty as a0. induction l as [|o l IH]; intros a0 I0 I1 SF R; cbn [ad_run] in R; [injection R as <-; exact I0|].
    apply Forall_cons_iff in F as [Oo F]. destruct (ad_step o a0) as [a1|] eqn:S1; [|discriminate]. destruct I0 as [Inv Wr]. pose proof (ad_step_inv _ _ _ Inv Oo S1) as Inv1.
    assert (SF' : set_first l). { intros l1 l2 k v -> o' Ho'. apply (SF (o :: l1) l2 k v eq_refl). now right. }
    apply (IH F a1); auto.
    - split; [exact Inv1|]. destruct o as [k v| |x]; cbn [ad_step] in S1.
      + injection S1 as <-. left. cbn [ad_set ad_wire]. destruct (ad_wire a0) eqn:W; [|reflexivity]. elim (I1 ltac:(discriminate) k v). now left.
      + unfold ad_encode in S1. destruct (ad_wire a0) as [w|] eqn:W; [injection S1 as <-; right; destruct Wr as [|(e & E & Z)]; [discriminate|]; exists e; split; [congruence|exact Z]|].
        destruct (alloc (tlv_enc tAdditionalDescription (ad_value a0))) eqn:AL; cbn [bind] in S1; injection S1 as <-; [|left; exact W]. right.
        assert (Lz : nlen (tlv_enc tAdditionalDescription (ad_value a0)) <= MAX_BUFFER) by (unfold alloc in AL; destruct (MAX_BUFFER <? nlen (tlv_enc tAdditionalDescription (ad_value a0))) eqn:LL; [discriminate|now apply N.ltb_ge in LL]).
        destruct (ad_encode_new a0 (proj1 Inv) W Lz) as (e9 & a9 & E2 & W2 & _ & T2 & B2 & D2 & _). unfold ad_encode in E2. rewrite W, AL in E2. cbn [bind] in E2. injection E2 as <- <-. eexists. split; [reflexivity|]. split; [now apply blockFromWire_inv in B2|]. split; [reflexivity|]. eexists. split; [exact D2|reflexivity].
      + destruct (ad_decode x) as [a2|] eqn:D; [|discriminate]. injection S1 as <-. right. exists x. pose proof (ad_decode_ok _ _ D) as (T & W & _). split; [exact W|]. split; [destruct Oo as (w & B); now apply blockFromWire_inv in B|]. split; [exact T|]. exists a2. auto.
    - intros Wn k v Q. apply in_split in Q as (q1 & q2 & ->). destruct (SF (o :: q1) q2 k v eq_refl o ltac:(now left)) as (k' & v' & ->). cbn [ad_step] in S1. injection S1 as <-. cbn [ad_set ad_wire] in Wn. apply (I1 Wn k' v'). now left. }
  destruct G as [Inv [W|(e0 & W & Wf & T & b & D & Ib)]].
  - assert (Lz : nlen (tlv_enc tAdditionalDescription (ad_value a)) <= MAX_BUFFER). { unfold ad_encode in E. rewrite W in E. unfold alloc in E. destruct (MAX_BUFFER <? _) eqn:L; cbn [bind] in E; [discriminate|]. apply N.ltb_ge in L. exact L. }
    destruct (ad_encode_new a (proj1 Inv) W Lz) as (e2 & a2 & E2 & W2 & _ & T2 & B2 & D2 & _). assert (e2 = e) by congruence. subst e2. splits; auto. eexists. split; [exact D2|]. split; [unfold ad_eqb; now apply info_eqb_iff|reflexivity].
  - unfold ad_encode in E. rewrite W in E. injection E as <- <-. splits; [rewrite <- T; now apply elem_wf_iff|now apply blockFromWire_wf|]. exists b. splits; auto; [unfold ad_eqb; now apply info_eqb_iff|]. unfold ad_encode. pose proof (ad_decode_ok _ _ D) as (_ & Wb & _). now rewrite Wb.
Qed.
Print Assumptions C92_round_trip_partial.
(* What a description that was only set is written as: one entry for each key that has a value, in ascending order of the keys. *)
Theorem C92_wire : forall l a e a', (forall o, In o l -> exists k v, o = AdSet k v) -> ad_run l ad_empty = Some a -> ad_encode a = Ok (e, a') ->
  exists kvs ws, ascending kvs /\ (forall k v, In (k, v) kvs <-> ad_get k a = Ok v) /\ is_tlv 258 (e_val e) (e_wire e) /\
    is_tlv_seq (map (fun w => (512, w)) ws) (e_val e) /\ Forall2 (fun x w => entry (fst x) (snd x) w) kvs ws.
Proof.
  intros l a e a' F R E. assert (FO : Forall ad_op_ok l) by (apply Forall_forall; intros o Ho; destruct (F o Ho) as (k & v & ->); exact Logic.I). destruct (ad_run_inv _ _ _ ad_empty_inv FO R) as [A _].
  assert (W : ad_wire a = None). { clear FO A E. revert R. assert (W0 : ad_wire ad_empty = None) by reflexivity. revert W0. generalize ad_empty as a0. induction l as [|o l IH]; intros a0 W0 R; cbn [ad_run] in R; [now injection R as <-|]. destruct (F o (or_introl eq_refl)) as (k & v & ->). cbn [ad_step] in R. apply (IH ltac:(intros; apply F; now right) (ad_set k v a0) W0 R). }
  assert (Lz : nlen (tlv_enc tAdditionalDescription (ad_value a)) <= MAX_BUFFER). { unfold ad_encode in E. rewrite W in E. unfold alloc in E. destruct (MAX_BUFFER <? _) eqn:L; cbn [bind] in E; [discriminate|]. apply N.ltb_ge in L. exact L. }
  destruct (ad_encode_new a A W Lz) as (e2 & a2 & E2 & W2 & _ & T2 & B2 & D2 & ws & S1 & S2). assert (e2 = e) by congruence. subst e2. exists (ad_info a), ws. splits; auto. intros k v. split.
  - intro Q. assert (look k (ad_info a) = Some v) as LK; [|rewrite <- get_look in LK; destruct (ad_get k a); cbn in LK; congruence]. clear - A Q. induction A as [|[k' v'] m A IH Fm]; [destruct Q|]. destruct Q as [Q|Q].
    + injection Q as -> ->. unfold look. cbn [find fst]. rewrite bytes_eqb_refl. reflexivity.
    + unfold look in *. cbn [find fst]. rewrite beq_neq; [auto|]. intros ->. rewrite Forall_forall in Fm. specialize (Fm _ Q). cbn [fst] in Fm. now apply lex_irrefl in Fm.
  - intro Q. unfold ad_get in Q. destruct (find _ (ad_info a)) as [[k' v']|] eqn:Fd; [|discriminate]. apply find_some in Fd as [Fi Fe]. cbn [fst] in Fe. apply bytes_eqb_eq in Fe as ->. apply Ok_inj in Q. cbn [snd] in Q. now subst.
Qed.
Print Assumptions C92_wire.
Definition ex_ad : list ad_op := [AdSet (str "b") (str "2"); AdSet (str "a") (str "1"); AdSet (str "b") (str "3"); AdEncode].
Example C92_ex : Forall ad_op_ok ex_ad /\ set_first ex_ad /\ exists a e, ad_run ex_ad ad_empty = Some a /\ ad_get (str "b") a = Ok (str "3") /\ ad_has (str "c") a = false /\ ad_encode a = Ok (e, a) /\
  e_wire e = tlv_enc 258 (tlv_enc 512 (tlv_enc 513 (str "a") ++ tlv_enc 514 (str "1")) ++ tlv_enc 512 (tlv_enc 513 (str "b") ++ tlv_enc 514 (str "3"))).
Proof.
  split; [repeat (apply (@Forall_cons ad_op) || apply (@Forall_nil ad_op)); exact Logic.I|]. split.
  - intros l1 l2 k v H o Ho. unfold ex_ad in H. destruct l1 as [|p [|q [|r [|s l1]]]]; try discriminate H.
    + destruct Ho.
    + injection H as <- _ _. destruct Ho as [<-|[]]. eauto.
    + injection H as <- <- _ _. destruct Ho as [<-|[<-|[]]]; eauto.
    + injection H as _ _ _ _ H. destruct l1; discriminate H.
  - do 2 eexists. split; [vm_compute; reflexivity|]. split; [vm_compute; reflexivity|]. split; [vm_compute; reflexivity|]. split; vm_compute; reflexivity.
Qed.
Example C92_ex_decode : exists e, blockFromWire (tlv_enc 258 (tlv_enc 512 (tlv_enc 513 (str "a") ++ tlv_enc 514 (str "1")) ++ tlv_enc 600 [] ++ tlv_enc 512 (tlv_enc 513 (str "a") ++ tlv_enc 514 (str "2")))) = Ok e /\
  exists a, ad_decode e = Ok a /\ ad_get (str "a") a = Ok (str "2").
Proof. eexists. split; [vm_compute; reflexivity|]. eexists. split; vm_compute; reflexivity. Qed.
(* After wireEncode, set changes what get returns but not what wireEncode returns. *)
Theorem C92_stale_refuted : exists l a e a', Forall ad_op_ok l /\ ad_run l ad_empty = Some a /\ ad_encode a = Ok (e, a') /\ exists b, ad_decode e = Ok b /\ ad_get (str "a") a = Ok (str "2") /\ ad_get (str "a") b = Ok (str "1").
Proof.
  exists [AdSet (str "a") (str "1"); AdEncode; AdSet (str "a") (str "2")]. do 3 eexists. split; [repeat (apply (@Forall_cons ad_op) || apply (@Forall_nil ad_op)); exact Logic.I|]. split; [vm_compute; reflexivity|]. split; [vm_compute; reflexivity|]. eexists. split; [vm_compute; reflexivity|]. split; vm_compute; reflexivity.
Qed.
Print Assumptions C92_stale_refuted.

(* ---- C93 ---- *)
(* A signing string is accepted exactly if it is one of the documented forms, and then means that. *)
Theorem C93_parse : forall f load s j, (exists i, sg_parse f load s = Ok i /\ sg_same j i) <-> (exists i, sg_says f load s i /\ sg_same j i).
Proof.
  intros f load s j. split.
  - intros (i & H & S1). destruct (parse_inv f load s i H) as (i' & Y & S2). exists i'. split; [exact Y|]. destruct S1, S2. split; congruence.
  - intros (i & H & S1). destruct (says_parse f load s i H) as (i' & Y & S2). exists i'. split; [exact Y|]. destruct S1, S2. split; congruence.
Qed.
Print Assumptions C93_parse.
(* Anything else throws std::invalid_argument, the error of the Name parser, or that of the key loader. *)
Theorem C93_error : forall f load s x, sg_parse f load s = Err x -> x = EInvalidArg \/ x = ETlv \/ exists u, s = str "hmac-sha256:" ++ u /\ load u = Err x.
Proof. exact parse_err. Qed.
Print Assumptions C93_error.
(* The text of a SigningInfo parses to the same signer.  Missing for the full claim: HMAC signers and the identity that
   is named like the digest signer (C93_hmac_refuted, C93_digest_refuted), and names the alternate URI format does not preserve (C10_alternate_nonshortest_refuted). *)
Theorem C93_round_trip_partial : forall f load i, Forall valid_key (nkey (sg_name i)) -> (f = ALTERNATE -> Forall alt_ok (nkey (sg_name i))) ->
  sg_kind i <> SgHmac -> (sg_kind i = SgId -> nkey (sg_name i) <> digest_key) -> (sg_kind i = SgNull \/ sg_kind i = SgSha256 -> nkey (sg_name i) = []) ->
  exists j, sg_parse f load (sg_print f i) = Ok j /\ sg_same i j.
Proof. intros f load i V A. apply sg_round. split; assumption. Qed.
Print Assumptions C93_round_trip_partial.
Definition ex_load (s : bytes) : res bytes := if bytes_eqb s (str "a2V5") then Ok (str "digest") else Err ERuntime.
Example C93_ex : sg_print CANONICAL (mkSg SgKey ex_name) = str "key:/8=A/50=%01" /\ (exists i, sg_parse CANONICAL ex_load (str "key:/8=A/50=%01") = Ok i /\ sg_same (mkSg SgKey ex_name) i) /\
  (exists i, sg_parse ALTERNATE ex_load (str "id:/localhost/identity/digest-sha256") = Ok i /\ sg_same (mkSg SgSha256 nm_empty) i) /\
  (exists i, sg_parse ALTERNATE ex_load (str "hmac-sha256:a2V5") = Ok i /\ sg_kind i = SgHmac) /\ sg_parse ALTERNATE ex_load (str "foo:/A") = Err EInvalidArg /\ sg_parse ALTERNATE ex_load (str "hmac-sha256:?") = Err ERuntime.
Proof.
  split; [vm_compute; reflexivity|]. split; [eexists; split; [vm_compute; reflexivity|split; reflexivity]|]. split; [eexists; split; [vm_compute; reflexivity|split; reflexivity]|]. split; [eexists; split; [vm_compute; reflexivity|reflexivity]|]. split; vm_compute; reflexivity.
Qed.
(* An HMAC signer prints as an identity. *)
Theorem C93_hmac_refuted : forall f, exists i j, sg_parse f ex_load (str "hmac-sha256:a2V5") = Ok i /\ sg_kind i = SgHmac /\ sg_parse f ex_load (sg_print f i) = Ok j /\ sg_kind j = SgId.
Proof. intros [|]; do 2 eexists; (split; [vm_compute; reflexivity|]; split; [reflexivity|]; split; [vm_compute; reflexivity|reflexivity]). Qed.
Print Assumptions C93_hmac_refuted.
(* The identity /localhost/identity/digest-sha256 prints as the digest signer. *)
Theorem C93_digest_refuted : forall f load, exists i j, i = mkSg SgId sg_digestName /\ sg_parse f load (sg_print f i) = Ok j /\ sg_kind j = SgSha256.
Proof. intros f load. exists (mkSg SgId sg_digestName), (mkSg SgSha256 nm_empty). split; [reflexivity|]. split; [|reflexivity]. unfold sg_print. cbn [sg_kind sg_name]. rewrite parse_id, bytes_eqb_refl. reflexivity. Qed.
Print Assumptions C93_digest_refuted.

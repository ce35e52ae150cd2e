(* C85-C87: Link, MetadataObject, PrefixAnnouncement. *)
From Coq Require Import Lia ZifyBool ZifyNat ZifyN ZArith.
From Verif Require P_ValidityD.
From Verif Require Import Base BaseLemmas M_Tlv S_Tlv P_Tlv P_Block M_Str M_Name S_Name P_Name M_Packet S_Packet P_DataHist P_DataT P_Packet T_Packet M_Validity S_Validity P_Validity M_Special S_Special P_Special P_Special2 P_Special3.
Open Scope N_scope.
Open Scope list_scope.

Definition nA : name := nm_of [comp_ofString (str "A")].
Definition nB : name := nm_of [comp_ofString (str "B"); comp_ofString (str "b")].
Definition nC : name := nm_of [comp_ofString (str "C")].
Definition sg : siginfo * (bytes -> bytes) := (ex_si, fun _ => str "sig").
Lemma ctypes : forall n, forallb (fun c => (c_type c <? two16) && (0 <? c_type c)) (n_comps n) = true -> Forall ctype_ok (n_comps n).
Proof. intros n H. rewrite forallb_forall in H. apply Forall_forall. intros c I. specialize (H c I). unfold ctype_ok, two16, two32 in *. lia. Qed.

Lemma ex_sha_len : forall b, nlen (ex_sha b) = 32.
Proof. intro b. unfold ex_sha, nlen. now rewrite repeat_length. Qed.

(* ---- C85: Link ---- *)

(* The ContentType is Link and the Content holds exactly the delegations, in order, after every history in which each call that threw left the object as it was. *)
Theorem C85_in_step : forall sha256, (forall b, nlen (sha256 b) = 32) -> forall l ops, lk_start l -> Forall lk_op_ok ops -> lk_clean sha256 ops l ->
  let l' := lk_run sha256 ops l in says (lk_data l') (map nkey (lk_dels l')).
Proof. intros sha256 SL l ops St F C. apply (lk_run_inv sha256 SL ops l); auto. now apply (lk_start_inv sha256 SL). Qed.
Print Assumptions C85_in_step.
(* the names in the Content are determined by the packet *)
Theorem C85_unambiguous : forall d a b, says d a -> says d b -> a = b.
Proof. exact says_unique. Qed.
Print Assumptions C85_unambiguous.

(* What each call that returns does to the list of delegations, and what it returns. *)
Theorem C85_list : forall sha256, (forall b, nlen (sha256 b) = 32) -> forall l ops op l' r, lk_start l -> Forall lk_op_ok ops -> lk_clean sha256 ops l -> lk_op_ok op ->
  lk_step sha256 op (lk_run sha256 ops l) = (l', Ok r) -> lk_effect op (map nkey (lk_dels (lk_run sha256 ops l))) r (map nkey (lk_dels l')).
Proof. intros sha256 SL l ops op l' r St F C A H. eapply lk_step_inv; eauto. apply lk_run_inv; auto. now apply (lk_start_inv sha256 SL). Qed.
Print Assumptions C85_list.

(* Decoding succeeds exactly if the octets are a Data packet that says some delegations, and then gives those. *)
Theorem C85_decode : forall e l ns, (exists l', lk_decode e l = (l', None) /\ map nkey (lk_dels l') = ns) <-> exists d, da_decode e da_empty = (d, None) /\ says d ns.
Proof.
  intros e l ns. split.
  - intros (l' & H & <-). apply lk_decode_sound in H as (D & Sy & _). exists (lk_data l'). auto.
  - intros (d & D & Sy). destruct (lk_decode_complete e l d ns D Sy) as (l' & H & _ & K). eauto.
Qed.
Print Assumptions C85_decode.

(* The encoding of a Link decodes to a Link with the same delegations and the same fields. *)
Theorem C85_travels : forall sha256, (forall b, nlen (sha256 b) = 32) -> forall l ops d e, lk_start l -> Forall lk_op_ok ops -> lk_clean sha256 ops l ->
  da_encode (lk_data (lk_run sha256 ops l)) = (d, Ok e) -> forall l0, exists l2, lk_decode e l0 = (l2, None) /\
  map nkey (lk_dels l2) = map nkey (lk_dels (lk_run sha256 ops l)) /\ da_fields (lk_data l2) = da_fields (lk_data (lk_run sha256 ops l)).
Proof. intros sha256 SL l ops d e St F C H l0. eapply (lk_travels sha256); eauto. apply lk_run_inv; auto. now apply (lk_start_inv sha256 SL). Qed.
Print Assumptions C85_travels.
Definition ex_l0 : link := fst (lk_new nC [nA]).
Definition ex_lops : list lk_op := [LAdd nB; LAdd nA; LRemove nA; LAdd nC; LData (DSign (snd sg) (fst sg))].
Example C85_ex : lk_start ex_l0 /\ Forall lk_op_ok ex_lops /\ lk_clean ex_sha ex_lops ex_l0 /\ map nkey (lk_dels (lk_run ex_sha ex_lops ex_l0)) = [nkey nB; nkey nC] /\
  exists d e, da_encode (lk_data (lk_run ex_sha ex_lops ex_l0)) = (d, Ok e) /\ map nkey (lk_dels (fst (lk_decode e lk_empty))) = [nkey nB; nkey nC].
Proof.
  split; [left; exists nC, [nA]; split; [now apply ctypes|]; split; [constructor; [now apply ctypes|constructor]|vm_compute; reflexivity]|].
  split; [repeat (apply (@Forall_cons lk_op) || apply (@Forall_nil lk_op)); cbn [lk_op_ok]; first [now apply ctypes|exact I|split; [exact ex_si_ok|exact I]]|].
  split; [vm_compute; repeat split; left; eexists; reflexivity|]. split; [vm_compute; reflexivity|]. eexists. eexists. split; vm_compute; reflexivity.
Qed.

(* removeDelegation with a reference to an element of the object's own list removes that name if the list has no duplicates ... *)
Theorem C85_alias_partial : forall sha256, (forall b, nlen (sha256 b) = 32) -> forall l ops i l' r, lk_start l -> Forall lk_op_ok ops -> lk_clean sha256 ops l ->
  NoDup (map nkey (lk_dels (lk_run sha256 ops l))) -> lk_removeAt i (lk_run sha256 ops l) = (l', Ok r) ->
  exists v, nth_error (lk_dels (lk_run sha256 ops l)) i = Some v /\ r = true /\ map nkey (lk_dels l') = remove key_dec (nkey v) (map nkey (lk_dels (lk_run sha256 ops l))) /\
    says (lk_data l') (map nkey (lk_dels l')).
Proof.
  intros sha256 SL l ops i l' r St F C ND H. destruct (removeAt_inv sha256 SL i _ _ _ (lk_run_inv sha256 SL ops l (lk_start_inv sha256 SL l St) F C) ND H) as (v & E & (_ & _ & Sy) & K & R).
  exists v. split; [exact E|]. split; [|split; [exact K|exact Sy]]. destruct R as [[_ R]|[NI _]]; [congruence|]. elim NI. apply in_map. eapply nth_error_In, E.
Qed.
Print Assumptions C85_alias_partial.
Example C85_alias_ex : let l := fst (lk_new nC [nA; nB; nC]) in lk_start l /\ NoDup (map nkey (lk_dels l)) /\ exists l', lk_removeAt 0 l = (l', Ok true) /\ map nkey (lk_dels l') = [nkey nB; nkey nC].
Proof.
  cbv zeta. split; [left; exists nC, [nA; nB; nC]; split; [now apply ctypes|]; split; [repeat (apply (@Forall_cons name) || apply (@Forall_nil name)); now apply ctypes|vm_compute; reflexivity]|].
  split; [vm_compute; repeat constructor; cbn; intuition discriminate|]. eexists. split; vm_compute; reflexivity.
Qed.
(* ... but not with duplicates: removeDelegation(getDelegationList()[0]) of [A, B, A] returns true and leaves [B, A]. *)
Theorem C85_alias_refuted : exists l l', lk_start l /\ map nkey (lk_dels l) = [nkey nA; nkey nB; nkey nA] /\ lk_removeAt 0 l = (l', Ok true) /\ map nkey (lk_dels l') = [nkey nB; nkey nA].
Proof.
  eexists (fst (lk_new nC [nA; nB; nA])), _. split; [left; exists nC, [nA; nB; nA]; split; [now apply ctypes|]; split; [repeat (apply (@Forall_cons name) || apply (@Forall_nil name)); now apply ctypes|vm_compute; reflexivity]|].
  split; [vm_compute; reflexivity|]. split; vm_compute; reflexivity.
Qed.
Print Assumptions C85_alias_refuted.
(* After a wireDecode that throws, the object can hold the old delegations with the new packet. *)
Theorem C85_failed_decode_refuted : exists l e l', lk_start l /\ lk_op_ok (LDecode e) /\ lk_decode e l = (l', Some ETlv) /\ map nkey (lk_dels l') = [nkey nA] /\
  nkey (d_name (lk_data l')) = nkey nB /\ ~ exists ns, says (lk_data l') ns.
Proof.
  set (d := fst (da_sign (snd sg) (fst sg) (da_of nB))).
  assert (W : exists e, d_wire d = Some e) by (vm_compute; eexists; reflexivity). destruct W as [e We].
  exists ex_l0, e. unfold d in We. vm_compute in We. injection We as <-. eexists.
  split; [left; exists nC, [nA]; split; [now apply ctypes|]; split; [constructor; [now apply ctypes|constructor]|vm_compute; reflexivity]|].
  split.
  { cbn [lk_op_ok da_op_ok]. split; [apply elem_wf_iff; match goal with |- elem_wf ?e => apply (proj1 (blockFromWire_inv (e_wire e) e ltac:(vm_compute; reflexivity))) end|]. intros d0 D. vm_compute in D. injection D as <-. unfold mi_ok. cbn. splits; try reflexivity; try discriminate. constructor. }
  split; [vm_compute; reflexivity|]. split; [vm_compute; reflexivity|]. split; [vm_compute; reflexivity|]. intros (ns & T & _). vm_compute in T. discriminate.
Qed.
Print Assumptions C85_failed_decode_refuted.
(* A default-constructed Link is not a Link: signed and sent as it is, it is rejected. *)
Theorem C85_default_refuted : exists d e, da_sign (snd sg) (fst sg) (lk_data lk_empty) = (d, Ok e) /\ snd (lk_decode e lk_empty) = Some ETlv.
Proof. eexists. eexists. split; vm_compute; reflexivity. Qed.
Print Assumptions C85_default_refuted.

(* ---- C86: MetadataObject ---- *)

(* Exactly the packets that are metadata are accepted; the versioned name is the one they carry; every other packet is rejected with tlv::Error. *)
Theorem C86_accepts : forall dconv d, (forall cs, (exists n, mo_ofData dconv d = Ok n /\ nkey n = cs) <-> metadata_of dconv d cs) /\ (forall x, mo_ofData dconv d = Err x -> x = ETlv).
Proof.
  intros dconv d. split; [|apply mo_err]. intro cs. split; [|apply mo_complete]. intros (n & H & <-). now apply mo_sound.
Qed.
Print Assumptions C86_accepts.

(* A packet made for a discovery name extends that name by the version and segment 0, has the freshness period asked for, encodes, decodes, and gives the versioned name back. *)
Theorem C86_round_trip : forall conv dconv vn disc signing ver f d,
  name_ok vn -> (forall w, nm_encode vn = Ok w -> nlen (e_wire (fst w)) < 2 ^ 63) -> Forall ctype_ok (n_comps disc) -> ver < 2 ^ 64 -> (f <= MAX_MS)%Z ->
  (forall si g, signing = Some (si, g) -> si_ok si) -> can_decode dconv conv = true -> mo_makeData conv vn disc signing ver f = Ok d ->
  exists pre v s e, nkey disc = pre ++ [(32, str "metadata")] /\ nkey (d_name d) = nkey disc ++ [ckey v; ckey s] /\
    toKind dconv KVersion v = Ok ver /\ toKind dconv KSegment s = Ok 0 /\ Z.of_N (mi_fresh (d_meta d)) = f /\
    da_encode d = (d, Ok e) /\ (forall d0, da_decode e d0 = (d, None)) /\ exists n, mo_ofData dconv d = Ok n /\ nkey n = nkey vn.
Proof. intros conv dconv vn disc signing ver f d A W B C D E F H. exact (mo_make ex_sha ex_sha_len conv dconv vn disc signing ver f d A B C D E W F H). Qed.
Print Assumptions C86_round_trip.
Example C86_ex : name_ok nB /\ exists d, mo_makeData TYPED nB (mo_discovery nA) (Some sg) 7 10 = Ok d /\
  nkey (d_name d) = [(8, str "A"); (32, str "metadata"); (54, [x07]); (50, [x00])] /\ exists n, mo_ofData EITHER d = Ok n /\ nkey n = nkey nB.
Proof. split; [split; [now apply ctypes|discriminate]|]. eexists. split; [vm_compute; reflexivity|]. split; [vm_compute; reflexivity|]. eexists. split; vm_compute; reflexivity. Qed.

(* A name that does not end with the keyword is refused with tlv::Error; the name of a discovery Interest ends with it. *)
Theorem C86_discovery : forall conv vn disc signing ver f, (~ exists pre, nkey disc = pre ++ [(32, str "metadata")]) -> mo_makeData conv vn disc signing ver f = Err ETlv.
Proof. exact mo_refuses. Qed.
Print Assumptions C86_discovery.
Theorem C86_interest : forall n, nkey (mo_discovery n) = nkey n ++ [(32, str "metadata")].
Proof. intro n. unfold mo_discovery, nkey, nm_append. cbn [n_comps]. now rewrite map_app. Qed.
Print Assumptions C86_interest.

(* ---- C87: PrefixAnnouncement ---- *)

(* Exactly the packets that announce a prefix are accepted, and what is read is what they announce. *)
Theorem C87_accepts : forall dconv other d view, nm_size (d_name d) < 2 ^ 64 ->
  ((exists p, pa_ofData dconv other d = Ok p /\ pa_view p = view) <-> announces dconv other d view).
Proof.
  intros dconv other d view L. split; [|now apply pa_complete]. intros (p & H & <-). now apply (pa_sound _ _ _ _ L H).
Qed.
Print Assumptions C87_accepts.
Theorem C87_keeps_packet : forall dconv other d p, nm_size (d_name d) < 2 ^ 64 -> pa_ofData dconv other d = Ok p -> pa_data p = Some d.
Proof. intros dconv other d p L H. now apply (pa_sound _ _ _ _ L H). Qed.
Print Assumptions C87_keeps_packet.

(* After every history in which no signing failed, the packet that toData returns encodes, decodes to itself, and announces what the object does;
   toData does not change that.  If there was no packet before, its name is the announced name, the keyword, the version asked for and segment 0. *)
Theorem C87_round_trip : forall conv dconv other p ops signing ver p' d, can_decode dconv conv = true -> honest other ->
  pa_start dconv other p -> Forall (pa_op_ok other) (ops ++ [PToData signing ver]) -> signs conv ops p ->
  pa_toData conv signing ver (pa_run conv ops p) = (p', Ok d) ->
  pa_view p' = pa_view (pa_run conv ops p) /\
  (exists e, da_encode d = (d, Ok e) /\ forall d0, da_decode e d0 = (d, None)) /\
  (exists q, pa_ofData dconv other d = Ok q /\ pa_view q = pa_view p' /\ pa_eqb q p' = true) /\
  (pa_data (pa_run conv ops p) = None -> exists v s, nkey (d_name d) = nkey (pa_name (pa_run conv ops p)) ++ [(32, str "PA"); ckey v; ckey s] /\
    toKind dconv KVersion v = Ok ver /\ toKind dconv KSegment s = Ok 0).
Proof.
  intros conv dconv other p ops signing ver p' d CD Ho St F Sg H. apply Forall_app in F as [F Fl]. apply Forall_cons_iff in Fl as [[Lv Hs] _].
  pose proof (pa_run_inv ex_sha ex_sha_len conv dconv CD other ops p (start_inv ex_sha ex_sha_len conv dconv other Ho p St) F Sg) as I.
  destruct (toData_inv ex_sha ex_sha_len conv dconv CD other _ _ _ _ _ I Lv Hs H) as (I' & V & Dp & Nm). split; [exact V|].
  destruct I' as (_ & _ & _ & _ & I5). destruct (I5 d Dp) as ((e & We & De) & Ls & A). split; [|split; [|exact Nm]].
  - exists e. split; [|exact De]. unfold da_encode. now rewrite We.
  - destruct (pa_complete _ _ _ _ Ls A) as (q & Q & Vq). exists q. split; [exact Q|]. split; [exact Vq|]. now apply pa_eqb_iff.
Qed.
Print Assumptions C87_round_trip.
Definition ex_pops : list pa_op := [PSetName nB; PSetExp 3600000; PToData (Some sg) 4; PSetValid (Some (vp_make 0 (10 * NS))); PSetExp (-1)].
Definition no_other (_ : bytes) : res Z := Err ETlv.
Example C87_ex : honest no_other /\ pa_start EITHER no_other pa_new /\ Forall (pa_op_ok no_other) (ex_pops ++ [PToData (Some sg) 5]) /\ signs TYPED ex_pops pa_new /\
  pa_data (pa_run TYPED ex_pops pa_new) = None /\ pa_view (pa_run TYPED ex_pops pa_new) = (nkey nB, 3600000%Z, Some (0%Z, 10%Z)) /\
  exists p' d q, pa_toData TYPED (Some sg) 5 (pa_run TYPED ex_pops pa_new) = (p', Ok d) /\ pa_ofData EITHER no_other d = Ok q /\ pa_view q = (nkey nB, 3600000%Z, Some (0%Z, 10%Z)).
Proof.
  split; [discriminate|]. split; [left; reflexivity|]. split.
  { repeat (apply (@Forall_cons pa_op) || apply (@Forall_nil pa_op)); cbn [pa_op_ok].
    - split; [now apply ctypes|reflexivity].
    - reflexivity.
    - split; [reflexivity|]. intros si f [= <- <-]. apply ex_si_ok.
    - unfold valid_ok. split; [apply P_ValidityD.second_iff; vm_compute; split; discriminate|]. split; [apply P_ValidityD.second_iff; vm_compute; split; discriminate|discriminate].
    - reflexivity.
    - split; [reflexivity|]. intros si f [= <- <-]. apply ex_si_ok. }
  split; [vm_compute; tauto|]. split; [vm_compute; reflexivity|]. split; [vm_compute; reflexivity|]. eexists. eexists. eexists. split; [vm_compute; reflexivity|]. split; vm_compute; reflexivity.
Qed.

(* A packet once made is kept: toData returns it again, whatever it is given; every setter that returns drops it. *)
Theorem C87_kept : forall conv signing ver p d, pa_data p = Some d -> pa_toData conv signing ver p = (p, Ok d).
Proof. intros conv signing ver p d H. unfold pa_toData. now rewrite H. Qed.
Print Assumptions C87_kept.
Theorem C87_dropped : forall conv op p, (forall s n, op <> PToData s n) -> snd (pa_step conv op p) = None -> pa_data (fst (pa_step conv op p)) = None.
Proof.
  intros conv op p H E. destruct op as [n|z|v|s n]; cbn [pa_step] in *; [reflexivity| |reflexivity|now elim (H s n)].
  unfold pa_setExpiration in *. destruct (z <? 0)%Z; [discriminate|reflexivity].
Qed.
Print Assumptions C87_dropped.
(* what the setters do; a negative expiration is refused and changes nothing *)
Theorem C87_setters : forall conv op p nm z v, pa_view p = (nm, z, v) ->
  match op with
  | PSetName n => pa_step conv op p = (fst (pa_step conv op p), None) /\ pa_view (fst (pa_step conv op p)) = (nkey n, z, v)
  | PSetExp z' => if (z' <? 0)%Z then pa_step conv op p = (p, Some EInvalidArg)
                  else pa_step conv op p = (fst (pa_step conv op p), None) /\ pa_view (fst (pa_step conv op p)) = (nm, z', v)
  | PSetValid v' => pa_step conv op p = (fst (pa_step conv op p), None) /\ pa_view (fst (pa_step conv op p)) = (nm, z, option_map (fun v => (vp_nb v, vp_na v)) v')
  | PToData _ _ => pa_view (fst (pa_step conv op p)) = (nm, z, v)
  end.
Proof.
  intros conv op p nm z v H. unfold pa_view in *. injection H as <- <- <-. destruct op as [n|z'|v'|s n]; cbn [pa_step fst pa_setName pa_setValidity pa_name pa_exp pa_valid]; auto.
  - unfold pa_setExpiration. destruct (z' <? 0)%Z; auto.
  - destruct (pa_toData conv s n p) as [p' r] eqn:E. cbn [fst]. now apply toData_view in E.
Qed.
Print Assumptions C87_setters.

(* Announcements are equal exactly if they have the same name, expiration and validity period, whatever packet they hold. *)
Theorem C87_equal : forall a b, pa_eqb a b = true <-> pa_view a = pa_view b.
Proof. exact pa_eqb_iff. Qed.
Print Assumptions C87_equal.

(* If signing throws, the packet that was to be signed is kept, and the next toData returns it, unsigned, without signing it. *)
Theorem C87_unsigned_refuted : exists p p', pa_toData TYPED None 5 (pa_setName nA pa_new) = (p, Err ERuntime) /\
  exists d, pa_toData TYPED (Some sg) 5 p = (p', Ok d) /\ si_type (d_sinfo d) = None /\ nlen (c_val (d_sval d)) = 0 /\ d_wire d = None.
Proof. eexists. eexists. split; [vm_compute; reflexivity|]. eexists. splits; vm_compute; reflexivity. Qed.
Print Assumptions C87_unsigned_refuted.
(* An announcement can have a negative expiration, though setExpiration refuses one: a received ExpirationPeriod of 2^63 or more is read as a signed integer. *)
Theorem C87_negative_refuted : exists d p, (exists e, forall d0, da_decode e d0 = (d, None)) /\ pa_ofData EITHER no_other d = Ok p /\ (pa_exp p < 0)%Z.
Proof.
  set (c := comp_of_elem (mkBlock tContent (e_wire (mkNNIBlock 109 (2 ^ 64 - 1))))).
  set (d := fst (da_sign (snd sg) (fst sg) (fst (da_setContentBlock c (da_setContentType 5 (da_of (nm_of [comp_ofString (str "A"); kw_pa; mkComp 54 None [x01]; mkComp 50 None [x00]]))))))).
  exists d. eexists. split; [|split; vm_compute; reflexivity].
  destruct (d_wire d) as [e|] eqn:We; [|vm_compute in We; discriminate]. exists e. intro d0. apply (decode_indep _ da_empty). vm_compute in We. injection We as <-. vm_compute. reflexivity.
Qed.
Print Assumptions C87_negative_refuted.

(* C59: ControlParameters.  C60: control commands. *)
From Coq Require Import ZArith Lia ZifyBool ZifyNat ZifyN.
From Verif Require Import Base BaseLemmas M_Tlv S_Tlv P_Tlv P_Block M_Name S_Name P_Name P_Packet P_Data M_Control S_Control P_Control.
Open Scope N_scope.

(* C59.  Whatever setters, unsetters, flag-bit functions, encodings and decodings made the object: it encodes to an element (or throws
   length_error, if larger than any buffer), which decodes, also after transmission, to the same fields with the same values. *)
Theorem C59_round_trip : forall l p, Forall op_ok l -> cp_run l cp_empty = Some p ->
  (cp_encode p = Err ELength /\ MAX_BUFFER < nlen (tlv_enc 104 (cp_value p))) \/
  exists e p' q, cp_encode p = Ok (e, p') /\ cp_val p' = cp_val p /\ blockFromWire (e_wire e) = Ok e /\ cp_decode e = Ok q /\ same_params q p.
Proof.
  intros l p F R. assert (IV : cp_inv p). { eapply run_cp_inv; [|exact F|exact R]. split; [intros f v X; discriminate|discriminate]. }
  destruct IV as [OK WI]. destruct (cp_wire p) as [e|] eqn:W.
  - right. destruct (WI e eq_refl) as (E1 & q & E2 & E3). exists e, p, q. splits; auto; [unfold cp_encode; now rewrite W|now apply blockFromWire_wf].
  - destruct (N.ltb_spec MAX_BUFFER (nlen (tlv_enc 104 (cp_value p)))) as [L|L].
    + left. split; auto. unfold cp_encode, alloc. rewrite W. change tControlParameters with 104. destruct (N.ltb_spec MAX_BUFFER (nlen (tlv_enc 104 (cp_value p)))); [reflexivity|lia].
    + right. destruct (encode_fresh p OK W L) as (q & E1 & E2 & E3 & E4). do 3 eexists. split; [exact E1|]. splits; auto; [now apply blockFromWire_wf|exact E3|exact E4].
Qed.
Print Assumptions C59_round_trip.

(* C59.  The encoding after a change: one element for each present field, in the order of the enumeration, with the TLV-TYPE number of
   the protocol and the field's value, inside an element of type 104 *)
Theorem C59_wire : forall l o p e p', Forall op_ok (l ++ [o]) -> cp_run (l ++ [o]) cp_empty = Some p ->
  (exists f v, o = CSet f v) \/ (exists f, o = CUnset f) -> cp_encode p = Ok (e, p') ->
  exists fs ws, Forall2 (field_wire p) fs ws /\ is_tlv 104 (concat ws) (e_wire e) /\ NoDup fs /\ (forall f, In f fs <-> has f p).
Proof.
  intros l o p e p' F R O E. assert (IV : cp_inv p). { eapply run_cp_inv; [|exact F|exact R]. split; [intros f v X; discriminate|discriminate]. }
  destruct IV as [OK _]. assert (W : cp_wire p = None).
  { clear - R O. revert R. generalize cp_empty. induction l as [|x l IH]; intros s R; cbn [app cp_run] in R; [|destruct (cp_step x s); [eauto|discriminate]].
    destruct O as [(f & v & ->)|[f ->]]; cbn in R; injection R as <-; reflexivity. }
  unfold cp_encode in E. rewrite W in E. unfold alloc in E. change tControlParameters with 104 in E. destruct (N.ltb_spec MAX_BUFFER (nlen (tlv_enc 104 (cp_value p)))) as [|L]; [discriminate|].
  cbn [bind] in E. pose proof L as L'. rewrite tlv_enc_len in L'. unfold MAX_BUFFER in L'. assert (LV : nlen (cp_value p) < two64) by (unfold two64; lia).
  assert (WF : elem_wf (mkBlock 104 (cp_value p))) by (apply mkBlock_wf; [reflexivity|reflexivity|exact LV]). rewrite <- mkBlock_wire, blockFromWire_wf in E by exact WF.
  apply Ok_inj in E. injection E as <- <-. destruct (fields_wire p all_fields OK LV) as (ws & F2 & C). exists (filter (fun f => cp_has f p) all_fields), ws. splits; auto.
  - rewrite <- C. apply is_tlv_elem. exists (mkBlock 104 (cp_value p)). splits; auto.
  - apply NoDup_filter, all_fields_nodup.
  - intro f. rewrite filter_In, has_iff. split; [tauto|]. intro H. split; auto. apply all_fields_in.
Qed.
Print Assumptions C59_wire.

(* C59.  Decoding: each field gets the value of the last element of its type, elements of other types are ignored, and there is no
   other field *)
Theorem C59_decode : forall e q, cp_decode e = Ok q -> e_type e = 104 /\ exists l, is_tlv_seq l (e_val e) /\
  forall f, match last_of (field_number f) l with None => ~ has f q | Some d => exists v, cp_val q f = Some v /\ val_ok f v /\ field_reads f v d end.
Proof.
  intros e q H. destruct (cp_decode_ok _ _ H) as [OK _]. unfold cp_decode in H. destruct (N.eqb_spec (e_type e) tControlParameters) as [T|]; [|discriminate]. cbn [negb] in H. split; auto. inv_bind H.
  apply parseValue_ok_iff in E as [W C]. exists (map (fun e => (e_type e, e_val e)) a). split; [apply is_tlv_seq_elems; eauto|].
  intro f. pose proof (cp_loop_reads _ _ _ H f) as R. destruct (last_of _ _); [destruct R as (v & R1 & R2); exists v; splits; auto|]. intros [v V]. cbn in R. congruence.
Qed.
Print Assumptions C59_decode.

(* C59.  A getter returns what was last set *)
Theorem C59_fields : forall l o p p' f, cp_run l cp_empty = Some p -> cp_step o p = Some p' ->
  match o with
  | CSet g v => cp_val p' f = if cf_eqb g f then Some v else cp_val p f
  | CUnset g => cp_val p' f = if cf_eqb g f then None else cp_val p f
  | CEncode => cp_val p' f = cp_val p f
  | _ => True
  end.
Proof.
  intros l o p p' f R S. destruct o; cbn [cp_step] in S; auto; try (injection S as <-; reflexivity).
  destruct (cp_encode p) as [[e r]|] eqn:E; injection S as <-; [|reflexivity]. unfold cp_encode in E. destruct (cp_wire p).
  - apply Ok_inj in E. injection E as <- <-. reflexivity.
  - inv_bind E. inv_bind E. apply Ok_inj in E. injection E as <- <-. reflexivity.
Qed.
Print Assumptions C59_fields.

(* C59, flag bits.  Missing: bits 31 to 63, for which the property fails, see C59_flag_bits_refuted. *)
Theorem C59_flag_bits_partial : forall l p b, Forall op_ok l -> cp_run l cp_empty = Some p -> b < 31 ->
  cp_getFlagBit b p = Ok (N.testbit (word FFlags p) b) /\ cp_hasFlagBit b p = Ok (N.testbit (word FMask p) b) /\
  (forall value wantMask, exists q, cp_setFlagBit b value wantMask p = Ok q /\ has FFlags q /\
     (forall j, N.testbit (word FFlags q) j = if j =? b then value else N.testbit (word FFlags p) j) /\
     (wantMask = true -> has FMask q) /\
     (forall j, N.testbit (word FMask q) j = if wantMask && (j =? b) then true else N.testbit (word FMask p) j) /\
     (forall f, f <> FFlags -> (wantMask = true -> f <> FMask) -> cp_val q f = cp_val p f)) /\
  (exists q, cp_unsetFlagBit b p = Ok q /\
     (forall j, N.testbit (word FMask q) j = if j =? b then false else N.testbit (word FMask p) j) /\
     (forall f, f <> FFlags -> f <> FMask -> cp_val q f = cp_val p f) /\
     ((word FMask q <> 0 /\ has FMask q /\ cp_val q FFlags = cp_val p FFlags) \/ (word FMask q = 0 /\ ~ has FMask q /\ ~ has FFlags q))).
Proof.
  intros l p b F R L. assert (IV : cp_inv p). { eapply run_cp_inv; [|exact F|exact R]. split; [intros f v X; discriminate|discriminate]. }
  destruct IV as [OK _]. splits.
  - apply bit_word; auto.
  - apply bit_word; auto.
  - intros v m. apply setFlagBit_spec; auto.
  - apply unsetFlagBit_spec; auto.
Qed.
Print Assumptions C59_flag_bits_partial.
Theorem C59_out_of_range : forall b v m p, 64 <= b ->
  cp_hasFlagBit b p = Err EOutOfRange /\ cp_getFlagBit b p = Err EOutOfRange /\ cp_setFlagBit b v m p = Err EOutOfRange /\ cp_unsetFlagBit b p = Err EOutOfRange.
Proof.
  intros b v m p L. unfold cp_hasFlagBit, cp_getFlagBit, cp_bit, cp_setFlagBit, cp_unsetFlagBit. destruct (N.leb_spec 64 b); [auto|lia].
Qed.
Print Assumptions C59_out_of_range.
(* bit 31 stands for bits 31 to 63, and for bits 32 to 63 the shift is undefined behaviour *)
Theorem C59_flag_bits_refuted :
  (exists q, cp_setFlagBit 31 true true cp_empty = Ok q /\ word FFlags q = 2 ^ 64 - 2 ^ 31 /\ cp_hasFlagBit 31 q = Ok true /\ N.testbit (word FMask q) 40 = true) /\
  (forall b v m, 32 <= b < 64 -> cp_setFlagBit b v m cp_empty = Err EUb) /\
  exists p, cp_step (CSet FFlags (VNum (2 ^ 40))) cp_empty = Some p /\ op_ok (CSet FFlags (VNum (2 ^ 40))) /\ cp_getFlagBit 31 p = Ok true.
Proof.
  split; [eexists; split; [vm_compute; reflexivity|]; splits; vm_compute; reflexivity|]. split.
  - intros b v m [A B]. unfold cp_setFlagBit. destruct (N.leb_spec 64 b); [lia|]. change (cp_has FFlags cp_empty) with false. cbn [bind].
    assert (one_shl b = Err EUb) as ->. { unfold one_shl. destruct (N.ltb_spec b 31); [lia|]. destruct (N.eqb_spec b 31); [lia|reflexivity]. } reflexivity.
  - eexists. split; [reflexivity|]. split; vm_compute; reflexivity.
Qed.
Print Assumptions C59_flag_bits_refuted.

Definition ct_ops : list cpop := [CSet FName (VName (nm_of [mkComp 8 None (str "A")])); CSet FExpirationPeriod (VTime (-1)); CSetBit 3 true true; CSet FCost (VNum 70000); CEncode; CUnset FCost;
  CSet FStrategy (VName (nm_of [mkComp 8 None (str "S")])); CSetBit 5 false true].
Example C59_ex : Forall op_ok ct_ops /\ exists p e p' q, cp_run ct_ops cp_empty = Some p /\ cp_encode p = Ok (e, p') /\
  e_wire e = [nb 104; nb 28; nb 7; nb 3; nb 8; nb 1; nb 65; nb 108; nb 1; nb 8; nb 112; nb 1; nb 40; nb 107; nb 5; nb 7; nb 3; nb 8; nb 1; nb 83; nb 109; nb 8] ++ repeat (nb 255) 8 /\
  cp_decode e = Ok q /\ cp_val q FExpirationPeriod = Some (VTime (-1)) /\ cp_hasFlagBit 5 q = Ok true /\ cp_getFlagBit 5 q = Ok false /\ cp_has FCost q = false.
Proof.
  split. { repeat constructor; cbn; lia. }
  do 4 eexists. split; [vm_compute; reflexivity|]. split; [vm_compute; reflexivity|]. split; [vm_compute; reflexivity|]. split; [vm_compute; reflexivity|]. splits; vm_compute; reflexivity.
Qed.

(* ------------------------------------------------------------------------------------------------ *)
(* C60.  A format accepts exactly the parameters that have all required fields, only required and optional ones, and both or none of
   Flags and Mask if both are optional; otherwise ArgumentError is thrown. *)
Theorem C60_format : forall fm p, (fmt_validate fm p = None <-> accepts (cm_required fm) (cm_optional fm) p) /\ (forall x, fmt_validate fm p = Some x -> x = EInvalidArg).
Proof. intros fm p. split; [apply fmt_validate_iff|apply fmt_validate_err]. Qed.
Print Assumptions C60_format.
(* C60.  The requests and responses of each command: the fields of the protocol, and the conditions on their values *)
Theorem C60_request : forall c p, params_ok p ->
  (cmd_validateRequest c p = None <-> accepts (fst (request_fields c)) (snd (request_fields c)) p /\ request_cond c p) /\ (forall x, cmd_validateRequest c p = Some x -> x = EInvalidArg).
Proof.
  intros c p OK. unfold cmd_validateRequest.
  assert (A : fmt_validate (cmd_request c) p = None <-> accepts (fst (request_fields c)) (snd (request_fields c)) p).
  { rewrite fmt_validate_iff. apply accepts_perm; intro f; destruct c; cbn; tauto. }
  destruct (fmt_validate (cmd_request c) p) as [x|] eqn:E.
  - split; [split; [discriminate|intros [X _]; apply A in X; discriminate]|]. intros y Y. injection Y as <-. eapply fmt_validate_err; eauto.
  - assert (AC : accepts (fst (request_fields c)) (snd (request_fields c)) p) by (now apply A). pose proof AC as (RQ & _ & _).
    destruct c; cbn [cmd_requestImpl request_cond]; try (split; [split; auto|discriminate]).
    + destruct (face_valid_iff p OK) as [X Y]; [apply RQ; now left|]. split; auto. rewrite X. tauto.
    + destruct (positive_iff FCount p OK eq_refl) as [X Y]. split; auto. rewrite X. tauto.
    + destruct (name_nonempty_iff p OK) as [X Y]; [apply RQ; now left|]. split; auto. rewrite X. tauto.
Qed.
Print Assumptions C60_request.
Theorem C60_response : forall c p, params_ok p ->
  (cmd_validateResponse c p = None <-> accepts (fst (response_fields c)) (snd (response_fields c)) p /\ response_cond c p) /\ (forall x, cmd_validateResponse c p = Some x -> x = EInvalidArg).
Proof.
  intros c p OK. unfold cmd_validateResponse.
  assert (A : fmt_validate (cmd_response c) p = None <-> accepts (fst (response_fields c)) (snd (response_fields c)) p).
  { rewrite fmt_validate_iff. apply accepts_perm; intro f; destruct c; cbn; tauto. }
  destruct (fmt_validate (cmd_response c) p) as [x|] eqn:E.
  - split; [split; [discriminate|intros [X _]; apply A in X; discriminate]|]. intros y Y. injection Y as <-. eapply fmt_validate_err; eauto.
  - assert (AC : accepts (fst (response_fields c)) (snd (response_fields c)) p) by (now apply A). pose proof AC as (RQ & _ & _).
    destruct c; cbn [cmd_responseImpl response_cond]; try (split; [split; auto|discriminate]);
      try (destruct (face_valid_iff p OK) as [X Y]; [apply RQ; cbn; tauto|]; split; auto; rewrite X; tauto).
    + destruct (positive_iff FCapacity p OK eq_refl) as [X Y]. split; auto. rewrite X. tauto.
    + destruct (name_nonempty_iff p OK) as [X Y]; [apply RQ; now left|]. split; auto. rewrite X. tauto.
Qed.
Print Assumptions C60_response.
(* C60.  Defaults fill in absent fields only *)
Theorem C60_defaults : forall c p f, cp_val (cmd_defaults c p) f = match cp_val p f with Some v => Some v | None => option_map VNum (request_default c f) end.
Proof.
  assert (SD : forall g n p f, cp_val (set_default g n p) f = match cp_val p f with Some v => Some v | None => if cf_eqb g f then Some (VNum n) else None end).
  { intros g n p f. unfold set_default, cp_has. destruct (cf_eqb g f) eqn:E.
    - apply cf_eqb_eq in E as <-. destruct (cp_val p g) eqn:V; cbn [negb]; [rewrite V; reflexivity|]. cbn. now rewrite cf_eqb_refl.
    - destruct (cp_val p g) eqn:V; cbn [negb cp_set cp_put cp_val]; try rewrite E; destruct (cp_val p f); reflexivity. }
  intros c p f. destruct c; cbn [cmd_defaults]; rewrite ?SD; destruct (cp_val p f); try reflexivity; destruct f; reflexivity.
Qed.
Print Assumptions C60_defaults.
(* C60.  A request that can be created carries the parameters: its name is prefix, module, verb, encoding, and parsing it gives the same
   fields; a request with invalid parameters is not created. *)
Theorem C60_request_round_trip : forall l p prefix c, Forall op_ok l -> cp_run l cp_empty = Some p ->
  match cmd_createRequest prefix c p with
  | Ok n => accepts (fst (request_fields c)) (snd (request_fields c)) p /\ request_cond c p /\
            exists w q, nkey n = nkey prefix ++ [(8, fst (cmd_verb c)); (8, snd (cmd_verb c)); (8, w)] /\
                        cmd_parseRequest n (nlen (nkey prefix)) = Ok q /\ same_params q p
  | Err EInvalidArg => ~ (accepts (fst (request_fields c)) (snd (request_fields c)) p /\ request_cond c p)
  | Err x => x = ELength
  end.
Proof.
  intros l p prefix c F R. assert (IV : cp_inv p). { eapply run_cp_inv; [|exact F|exact R]. split; [intros f v X; discriminate|discriminate]. }
  destruct IV as [OK WI]. destruct (C60_request c p OK) as [IFF ERR]. unfold cmd_createRequest. destruct (cmd_validateRequest c p) as [x|] eqn:V.
  - rewrite (ERR x eq_refl). intro X. apply IFF in X. discriminate.
  - destruct (C59_round_trip l p F R) as [[E _]|(e & p' & q & E1 & _ & E3 & E4 & E5)]; [rewrite E; reflexivity|]. rewrite E1. cbn [bind fst].
    unfold comp_ofSpan, ensureValid. change (comp_valid _ _) with true. cbn [bind]. destruct IFF as [IFF _]. destruct (IFF eq_refl) as [A1 A2]. split; auto. split; auto.
    exists (e_wire e), q. split; [unfold nm_append, nkey; cbn [n_comps]; rewrite !map_app, <- !app_assoc; reflexivity|]. split; auto.
    unfold cmd_parseRequest, nm_at, nm_index, nm_size, nm_append. cbn [n_comps]. unfold nkey. rewrite nlen_map. rewrite !nlen_app, !nlen_cons, nlen_nil.
    destruct (Z.ltb_spec (Z.of_N (nlen (n_comps prefix) + 2)) 0); [lia|]. destruct (Z.ltb_spec (Z.of_N (nlen (n_comps prefix) + 2)) 0); [lia|].
    destruct (Z.leb_spec (Z.of_N (nlen (n_comps prefix) + (1 + 0) + (1 + 0) + (1 + 0))) (Z.of_N (nlen (n_comps prefix) + 2))); [lia|]. cbn [orb].
    rewrite nth_error_app2 by (rewrite !app_length; cbn [length]; unfold nlen; lia).
    replace (_ - _)%nat with 0%nat by (rewrite !app_length; cbn [length]; unfold nlen; lia). cbn [nth_error of_opt bind].
    unfold blockFromValue. cbn [comp_of_elem c_val mkBlock e_val]. destruct (N.eqb_spec (nlen (e_wire e)) 0) as [Z|Z]; [|rewrite E3; exact E4].
    exfalso. destruct (e_wire e) as [|b w]; [discriminate E3|]. rewrite nlen_cons in Z. lia.
Qed.
Print Assumptions C60_request_round_trip.

Definition ct_reg : list cpop := [CSet FName (VName (nm_of [mkComp 8 None (str "A")])); CSet FOrigin (VNum 255)].
Example C60_ex : Forall op_ok ct_reg /\ exists p n q, cp_run ct_reg cp_empty = Some p /\ cmd_createRequest (nm_of [mkComp 8 None (str "localhost"); mkComp 8 None (str "nfd")]) RibRegister p = Ok n /\
  nkey n = [(8, str "localhost"); (8, str "nfd"); (8, str "rib"); (8, str "register"); (8, [nb 104; nb 8; nb 7; nb 3; nb 8; nb 1; nb 65; nb 111; nb 1; nb 255])] /\
  cmd_parseRequest n 2 = Ok q /\ cp_val (cmd_defaults RibRegister q) FFlags = Some (VNum 1) /\ cp_val (cmd_defaults RibRegister q) FOrigin = Some (VNum 255) /\
  cmd_createRequest nm_empty FibAddNextHop p = Err EInvalidArg /\ cmd_createRequest nm_empty StrategyChoiceSet p = Err EInvalidArg.
Proof.
  split. { repeat constructor; cbn; lia. }
  do 3 eexists. split; [vm_compute; reflexivity|]. split; [vm_compute; reflexivity|]. split; [vm_compute; reflexivity|]. split; [vm_compute; reflexivity|]. splits; vm_compute; reflexivity.
Qed.

(* C79: the elements of NFD's datasets and notifications.  C80: dataset payloads.  C81: control responses. *)
From Coq Require Import ZArith Lia ZifyBool ZifyNat ZifyN Permutation.
From Verif Require Import Base BaseLemmas M_Tlv S_Tlv P_Tlv P_Block M_Name S_Name P_Name P_Packet P_Data M_Control S_Control P_Control M_Signer S_Ims
  M_StatusDataset S_StatusDataset P_StatusDataset T_StatusDataset M_NfdData S_NfdData P_NfdData P_NfdData2 P_NfdData3 P_NfdData4.
Open Scope N_scope.

(* C79.  Whatever setters, unsetters, additions, encodings and decodings made the object (of any of the classes): it encodes to an element
   (or throws length_error, if larger than any buffer), which decodes, also after transmission, to an object with the same values *)
Theorem C79_round_trip : forall c l o, Forall (op_ok c) l -> do_run (class c) l (do_new (class c)) = Some o ->
  (ty_encode (class c) o = Err ELength /\ MAX_BUFFER < nlen (tlv_enc (number c) (ty_value (class c) o))) \/
  exists e o' q, ty_encode (class c) o = Ok (e, o') /\ do_vals o' = do_vals o /\ do_subs o' = do_subs o /\
    blockFromWire (e_wire e) = Ok e /\ ty_decode (class c) e = Ok q /\ same_entry c q o.
Proof.
  intros c l o F R. destruct (made_encodes c o) as [X|(e & o' & q & A & B & C & D & E & G)]; [exists l; auto|now left|]. right. exists e, o', q. splits; auto. now apply blockFromWire_wf.
Qed.
Print Assumptions C79_round_trip.

(* C79.  The encoding after a change: the fields that are present, in the order of the protocol and with its TLV-TYPE numbers, then one
   element for each record, inside an element of the type of the class *)
Theorem C79_wire : forall c l x o e o', Forall (op_ok c) (l ++ [x]) -> do_run (class c) (l ++ [x]) (do_new (class c)) = Some o -> changes x = true ->
  ty_encode (class c) o = Ok (e, o') -> exists d, entry_written c o d /\ is_tlv (number c) d (e_wire e).
Proof.
  intros c l x o e o' F R CH E. destruct (made_inv c o) as [OI _]; [eexists; eauto|]. assert (W : do_wire o = None).
  { clear - R CH. revert R. generalize (do_new (class c)). induction l as [|y l IH]; intros s R; cbn [app do_run] in R; [|destruct (do_step (class c) y s); [eauto|discriminate]].
    destruct (do_step (class c) x s) as [s1|] eqn:X; [|discriminate]. injection R as <-. destruct x; try discriminate; cbn [do_step] in X;
      repeat match type of X with match ?y with _ => _ end = _ => destruct y; try discriminate end; injection X as <-; reflexivity. }
  pose proof E as E'. unfold ty_encode in E. rewrite W, number_type' in E. unfold alloc in E. destruct (N.ltb_spec MAX_BUFFER (nlen (tlv_enc (number c) (ty_value (class c) o)))) as [|L]; [discriminate|].
  destruct (fresh_encode c o OI W L) as (q & E1 & WF & _). rewrite E1 in E'. apply Ok_inj in E'. injection E' as <- _.
  rewrite tlv_enc_len in L. unfold MAX_BUFFER in L. exists (ty_value (class c) o). split; [apply ty_written; auto; unfold two64; lia|]. apply is_tlv_elem. exists (mkBlock (number c) (ty_value (class c) o)). auto.
Qed.
Print Assumptions C79_wire.

(* C79.  Decoding accepts exactly the elements of the type of the class that start with the fields (FibEntry and RibEntry: and continue with
   nothing but records), and gives the values that they say *)
Theorem C79_decode : forall c e o, ty_decode (class c) e = Ok o -> e_type e = number c /\ entry_heard c (do_vals o) (do_subs o) (e_val e).
Proof. intros c e o H. destruct (ty_heard _ _ _ H) as (A & B & _). auto. Qed.
Print Assumptions C79_decode.
Theorem C79_decode_complete : forall c e vs subs, e_type e = number c -> entry_heard c vs subs (e_val e) ->
  exists o, ty_decode (class c) e = Ok o /\ Forall2 val_eq (do_vals o) vs /\ Forall2 (Forall2 val_eq) (do_subs o) subs.
Proof. exact ty_accepts. Qed.
Print Assumptions C79_decode_complete.
(* C79.  Otherwise it throws tlv::Error.  Missing: ForwarderStatus, for which there may be undefined behaviour, see C79_timestamp_refuted. *)
Theorem C79_errors_partial : forall c e x, ty_decode (class c) e = Err x -> x = ETlv \/ (x = EUb /\ c = ForwarderStatus).
Proof. exact ty_err. Qed.
Print Assumptions C79_errors_partial.

(* C79.  operator== holds exactly for objects that report the same values; the records of an entry may be in any order *)
Theorem C79_equality : forall c a b, made c a -> made c b -> (do_eqb (class c) a b = true <-> equal_entry c a b).
Proof. intros c a b A B. destruct (made_inv _ _ A), (made_inv _ _ B). now apply eqb_iff. Qed.
Print Assumptions C79_equality.

(* C79.  A getter returns what was last set *)
Theorem C79_fields : forall c l x o o', do_run (class c) l (do_new (class c)) = Some o -> op_ok c x -> Forall (op_ok c) l -> do_step (class c) x o = Some o' ->
  match x with
  | DSet i v => do_subs o' = do_subs o /\ forall j, nth_error (do_vals o') j = if Nat.eqb j i then Some (after_set c i v) else nth_error (do_vals o) j
  | DUnset i => do_subs o' = do_subs o /\ forall j, nth_error (do_vals o') j = if Nat.eqb j i then Some None else nth_error (do_vals o) j
  | DAddSub vs => do_vals o' = do_vals o /\ do_subs o' = do_subs o ++ [vs]
  | DClearSubs => do_vals o' = do_vals o /\ do_subs o' = []
  | DEncode => do_vals o' = do_vals o /\ do_subs o' = do_subs o
  | DDecode e => True
  end.
Proof.
  intros c l x o o' R O F H. destruct (made_inv c o) as [[I _] _]; [exists l; auto|]. pose proof (vals_len _ _ I) as LEN. destruct x as [i v|i|vs| | |e]; cbn [do_step] in H; auto.
  - destruct (nth_error (ty_rows (class c)) i) as [r|] eqn:N; [|discriminate]. injection H as <-. split; [reflexivity|]. cbn [do_vals].
    assert (AS : dv_set (w_kind r) v = after_set c i v).
    { destruct O as (f & NF & HO). rewrite <- layout_rows, nth_map, N in NF. injection NF as <-. rewrite row_field_shape in HO. clear - N HO.
      destruct c; cbn in N; repeat (destruct i as [|i]; [injection N as <-; cbn in HO |- *; destruct v as [| |[]|]; try contradiction; reflexivity|]); destruct i; discriminate. }
    rewrite AS. assert (LT : (i < List.length (do_vals o))%nat) by (rewrite LEN; apply nth_error_Some; congruence). clear - LT. generalize (after_set c i v) as u. intro u. revert i LT. generalize (do_vals o) as w. induction w as [|y w IH]; intros i LT j; [cbn in LT; lia|].
    destruct i, j; cbn in *; auto. apply IH. lia.
  - destruct (nth_error (ty_rows (class c)) i) as [r|] eqn:N; [|discriminate]. destruct (required r); [discriminate|]. injection H as <-. split; [reflexivity|]. cbn [do_vals].
    assert (LT : (i < List.length (do_vals o))%nat) by (rewrite LEN; apply nth_error_Some; congruence). clear - LT. revert i LT. generalize (do_vals o) as w. induction w as [|y w IH]; intros i LT j; [cbn in LT; lia|].
    destruct i, j; cbn in *; auto. apply IH. lia.
  - destruct (ty_sub (class c)); [|discriminate]. injection H as <-. auto.
  - destruct (ty_sub (class c)); [|discriminate]. injection H as <-. auto.
  - destruct (ty_encode (class c) o) as [[e o1]|] eqn:E; injection H as <-; auto. unfold ty_encode in E. destruct (do_wire o); [injection E as _ <-; auto|]. inv_bind E. inv_bind E. apply Ok_inj in E. injection E as _ <-. auto.
Qed.
Print Assumptions C79_fields.

(* C79, flag bits of FaceStatus and FaceEventNotification.  Missing: bits 31 to 63, for which the property fails, see C79_flag_bits_refuted. *)
Theorem C79_flag_bits_partial : forall b w, b < 31 -> w < 2 ^ 64 ->
  ft_getBit b w = Ok (N.testbit w b) /\ forall v, exists w', ft_setBit b v w = Ok w' /\ w' < 2 ^ 64 /\ forall j, N.testbit w' j = if j =? b then v else N.testbit w j.
Proof. intros b w L W. split; [now apply ft_get|]. intro v. now apply ft_set. Qed.
Print Assumptions C79_flag_bits_partial.
Theorem C79_out_of_range : forall b v w, 64 <= b -> ft_getBit b w = Err EOutOfRange /\ ft_setBit b v w = Err EOutOfRange.
Proof. intros b v w L. unfold ft_getBit, ft_setBit. destruct (N.leb_spec 64 b); [auto|lia]. Qed.
Print Assumptions C79_out_of_range.
Theorem C79_flag_bits_refuted :
  (exists w, ft_setBit 31 true 0 = Ok w /\ N.testbit w 40 = true) /\ ft_getBit 31 (2 ^ 40) = Ok true /\ (forall b v w, 32 <= b < 64 -> ft_setBit b v w = Err EUb /\ ft_getBit b w = Err EUb).
Proof.
  split; [eexists; split; vm_compute; reflexivity|]. split; [vm_compute; reflexivity|]. intros b v w [A B]. unfold ft_setBit, ft_getBit. destruct (N.leb_spec 64 b); [lia|].
  assert (one_shl b = Err EUb) as ->. { unfold one_shl. destruct (N.ltb_spec b 31); [lia|]. destruct (N.eqb_spec b 31); [lia|reflexivity]. } auto.
Qed.
Print Assumptions C79_flag_bits_refuted.

(* a StartTimestamp of 2^62 ms, in an otherwise correct element: the conversion to nanoseconds overflows *)
Definition nd_counter (t : N) : bytes := tlv_nni t 0.
Definition nd_status (stamp : N) : elem :=
  mkBlock 21 (tlv_enc 128 (str "v") ++ tlv_nni 129 stamp ++ tlv_nni 130 0 ++ concat (map nd_counter [131; 132; 133; 134; 135; 144; 145; 151; 146; 147; 152; 153; 154])).
Theorem C79_timestamp_refuted : (exists w, blockFromWire w = Ok (nd_status (2 ^ 62))) /\ ty_decode (class ForwarderStatus) (nd_status (2 ^ 62)) = Err EUb /\
  exists o, ty_decode (class ForwarderStatus) (nd_status 1600000000000) = Ok o.
Proof. split; [exists (e_wire (nd_status (2 ^ 62))); vm_compute; reflexivity|]. split; [vm_compute; reflexivity|]. eexists. vm_compute. reflexivity. Qed.
Print Assumptions C79_timestamp_refuted.

Definition nd_name (s : bytes) : name := nm_of [mkComp 8 None s].
Definition nd_route (id cost : N) (p : option cval) : vals := [Some (VNum id); Some (VNum 255); Some (VNum cost); Some (VNum 3); p].
Definition nd_ops : list dop := [DSet 0 (VName (nd_name (str "A"))); DAddSub (nd_route 7 70000 None); DEncode; DAddSub (nd_route 8 1 (Some (VTime 10)))].
Definition nd_ops2 : list dop := [DAddSub (nd_route 8 1 (Some (VTime 10))); DAddSub (nd_route 7 70000 (Some (VTime (2 ^ 63 - 1)))); DSet 0 (VName (nd_name (str "A")))].
Example C79_ex : Forall (op_ok RibEntry) nd_ops /\ Forall (op_ok RibEntry) nd_ops2 /\ exists o o2 e o' q, do_run (class RibEntry) nd_ops (do_new (class RibEntry)) = Some o /\
  do_run (class RibEntry) nd_ops2 (do_new (class RibEntry)) = Some o2 /\ ty_encode (class RibEntry) o = Ok (e, o') /\
  e_wire e = [nb 128; nb 39; nb 7; nb 3; nb 8; nb 1; nb 65; nb 129; nb 15; nb 105; nb 1; nb 7; nb 111; nb 1; nb 255; nb 106; nb 4; nb 0; nb 1; nb 17; nb 112; nb 108; nb 1; nb 3;
              nb 129; nb 15; nb 105; nb 1; nb 8; nb 111; nb 1; nb 255; nb 106; nb 1; nb 1; nb 108; nb 1; nb 3; nb 109; nb 1; nb 10] /\
  ty_decode (class RibEntry) e = Ok q /\ do_subs q = [nd_route 7 70000 None; nd_route 8 1 (Some (VTime 10))] /\ do_eqb (class RibEntry) o o2 = true /\ do_eqb (class RibEntry) q o = true.
Proof.
  assert (RO : forall id cost p, id < 2 ^ 64 -> cost < 2 ^ 64 -> match p with None => True | Some v => holds Duration v end -> record_ok route_layout (nd_route id cost p)).
  { intros id cost p A B C. unfold nd_route, route_layout. constructor; [exact A|]. constructor; [reflexivity|]. constructor; [exact B|]. constructor; [reflexivity|]. destruct p; constructor; auto; constructor. }
  assert (SN : op_ok RibEntry (DSet 0 (VName (nd_name (str "A"))))). { eexists. split; [reflexivity|]. cbn. repeat constructor; cbn; lia. }
  split. { repeat constructor; try exact SN; (eexists; split; [reflexivity|]; apply RO; [reflexivity|reflexivity|]); cbn; unfold int64; auto; lia. }
  split. { repeat constructor; try exact SN; (eexists; split; [reflexivity|]; apply RO; [reflexivity|reflexivity|]); cbn; unfold int64; auto; lia. }
  do 5 eexists. split; [vm_compute; reflexivity|]. split; [vm_compute; reflexivity|]. split; [vm_compute; reflexivity|]. split; [vm_compute; reflexivity|]. split; [vm_compute; reflexivity|]. splits; vm_compute; reflexivity.
Qed.
(* a FaceStatus: optional fields; and time points of ForwarderStatus are cut to milliseconds *)
Example C79_face_ex : let l := [DSet 0 (VNum 5); DSet 1 (VStr (str "u")); DSet 3 (VTime (-1)); DSet 8 (VNum 9); DUnset 8; DSet 18 (VNum 6)] in
  Forall (op_ok FaceStatus) l /\ exists o e o' q, do_run (class FaceStatus) l (do_new (class FaceStatus)) = Some o /\ ty_encode (class FaceStatus) o = Ok (e, o') /\ ty_decode (class FaceStatus) e = Ok q /\
  do_vals q = [Some (VNum 5); Some (VStr (str "u")); Some (VStr []); Some (VTime (-1)); Some (VNum 0); Some (VNum 0); Some (VNum 0); None; None; None;
               Some (VNum 0); Some (VNum 0); Some (VNum 0); Some (VNum 0); Some (VNum 0); Some (VNum 0); Some (VNum 0); Some (VNum 0); Some (VNum 6)].
Proof.
  cbn zeta. split; [repeat constructor; try (eexists; split; [reflexivity|]; cbn; unfold int64; auto; try reflexivity; lia)|].
  do 4 eexists. split; [vm_compute; reflexivity|]. split; [vm_compute; reflexivity|]. split; [vm_compute; reflexivity|]. vm_compute; reflexivity.
Qed.
Example C79_stamp_ex : let l := [DSet 1 (VTime 1600000000123456789); DSet 2 (VTime (-1999999))] in
  Forall (op_ok ForwarderStatus) l /\ exists o e o' q, do_run (class ForwarderStatus) l (do_new (class ForwarderStatus)) = Some o /\ ty_encode (class ForwarderStatus) o = Ok (e, o') /\ ty_decode (class ForwarderStatus) e = Ok q /\
  nth_error (do_vals q) 1 = Some (Some (VTime 1600000000123000000)) /\ nth_error (do_vals q) 2 = Some (Some (VTime (-1000000))).
Proof.
  cbn zeta. split; [repeat constructor; (eexists; split; [reflexivity|]; cbn; unfold int64; lia)|].
  do 4 eexists. split; [vm_compute; reflexivity|]. split; [vm_compute; reflexivity|]. split; [vm_compute; reflexivity|]. split; vm_compute; reflexivity.
Qed.

(* ------------------------------------------------------------------------------------------------ *)
(* C80.  A payload is accepted exactly if it is a sequence of elements of the class, and gives the entries that they say, in order *)
Theorem C80_parse : forall c w l, parseDatasetVector (class c) w = Ok l -> dataset_heard c l w.
Proof. exact vector_heard. Qed.
Print Assumptions C80_parse.
Theorem C80_parse_complete : forall c w l, dataset_heard c l w -> exists l', parseDatasetVector (class c) w = Ok l' /\
  Forall2 (fun o' o => Forall2 val_eq (do_vals o') (do_vals o) /\ Forall2 (Forall2 val_eq) (do_subs o') (do_subs o)) l' l.
Proof. exact vector_accepts. Qed.
Print Assumptions C80_parse_complete.
Theorem C80_errors : forall c w x, c <> ForwarderStatus -> parseDatasetVector (class c) w = Err x -> x = ETlv.
Proof. intros c w x NF H. destruct (vector_err c _ _ _ (Nat.lt_succ_diag_r _) H) as [->|[_ E]]; auto. contradiction. Qed.
Print Assumptions C80_errors.

(* C80.  The encodings of objects, one after the other, are read back as the same entries *)
Theorem C80_round_trip : forall c os es, Forall2 (fun o e => made c o /\ exists o', ty_encode (class c) o = Ok (e, o')) os es ->
  exists l, parseDatasetVector (class c) (concat (map e_wire es)) = Ok l /\ Forall2 (same_entry c) l os.
Proof.
  intros c os es F. assert (G : Forall elem_wf es /\ exists l, Forall2 (fun o e => ty_decode (class c) e = Ok o) l es /\ Forall2 (same_entry c) l os).
  { induction F as [|o e os es [M (o' & E)] F (W & l & A & B)]; [split; auto; exists []; auto|]. destruct (made_encodes c o M) as [[X _]|(e1 & o1 & q & E1 & _ & _ & WF & D & S)]; [congruence|].
    rewrite E in E1. apply Ok_inj in E1. injection E1 as <- <-. split; auto. exists (q :: l). auto. }
  destruct G as (W & l & A & B). exists l. split; auto. apply vector_ok. eauto.
Qed.
Print Assumptions C80_round_trip.

(* the contents of the segments that were sent *)
Definition nd_contents (evs : list sdev) : bytes := concat (map (fun ev => match ev with SdData _ ch _ => ch | SdNack r => r end) evs).
Lemma contents_segments : forall conv p fin chunks i evs, segments conv p i fin chunks evs -> nd_contents evs = concat chunks.
Proof.
  intros conv p fin. induction chunks as [|ch chunks IH]; intros i [|ev evs] S; cbn in S; try contradiction; [reflexivity|]. destruct S as [(k & _ & ->) S]. unfold nd_contents in *. cbn. f_equal. eapply IH; eauto.
Qed.
Lemma appends_run : forall dconv iname es h pre, map fst h = map SdAppend es ++ [SdEnd] -> did is_end pre = false -> did is_reject pre = false ->
  (forall a o r b, h = a ++ (o, r) :: b -> answers dconv iname (pre ++ a) o r) -> appended h = concat es /\ did is_end h = true /\ did is_reject h = false.
Proof.
  intros dconv iname. induction es as [|e es IH]; intros [|[o r] h] pre M E R A; cbn in M; try discriminate.
  - injection M as -> M. destruct h; [|discriminate]. pose proof (A [] SdEnd r [] eq_refl) as X. rewrite app_nil_r in X. cbn in X. rewrite E, R in X. cbn in X. subst r. auto.
  - injection M as -> M. pose proof (A [] (SdAppend e) r h eq_refl) as X. rewrite app_nil_r in X. cbn in X. rewrite E, R in X. cbn in X. subst r.
    destruct (IH h (pre ++ [(SdAppend e, None)])) as (X1 & X2 & X3); auto.
    + unfold did in *. rewrite existsb_app, E. reflexivity.
    + unfold did in *. rewrite existsb_app, R. reflexivity.
    + intros a o r b ->. rewrite <- app_assoc. cbn. apply A with (b := b). reflexivity.
    + cbn. splits; auto. now f_equal.
Qed.
(* C80.  From the producer to the consumer: a handler appends the encodings of the entries and ends the response; the segments that are
   published (C61), put together, are read as the same entries *)
Theorem C80_end_to_end : forall conv dconv iname clock s0 c os es s h, can_decode dconv conv = true -> clock < 2 ^ 64 -> sd_new conv dconv iname clock = Ok s0 ->
  Forall2 (fun o e => made c o /\ exists o', ty_encode (class c) o = Ok (e, o')) os es -> nlen (concat (map e_wire es)) < 2 ^ 64 ->
  sd_run conv dconv (fun _ => false) (map SdAppend (map e_wire es) ++ [SdEnd]) s0 = (s, h) ->
  exists l, parseDatasetVector (class c) (nd_contents (sd_log s)) = Ok l /\ Forall2 (same_entry c) l os.
Proof.
  intros conv dconv iname clock s0 c os es s h CD LC N0 F L R.
  assert (CO : calls_ok (map SdAppend (map e_wire es) ++ [SdEnd])).
  { split; [|intros p k I; apply in_app_or in I as [I|[I|[]]]; [apply in_map_iff in I as (x & X & _); discriminate|discriminate]]. unfold all_octets. rewrite map_app, concat_app, !map_map. cbn. now rewrite app_nil_r. }
  destruct (C61_answers conv dconv iname clock s0 _ s h N0 LC CO CD R) as [MF AN].
  destruct (appends_run dconv iname (map e_wire es) h [] MF eq_refl eq_refl) as (X1 & X2 & X3); [exact AN|].
  destruct (C61_segments conv dconv iname clock s0 _ s h N0 LC CO CD R) as [(Y & _)|(_ & _ & _ & chunks & rest & _ & _ & _ & CC & SG)]; [congruence|]. rewrite X2 in SG.
  apply contents_segments in SG. rewrite concat_app in SG. cbn in SG. rewrite app_nil_r, CC, X1 in SG. rewrite SG. now apply C80_round_trip.
Qed.
Print Assumptions C80_end_to_end.

(* C80.  The status of the forwarder is published as the value of its encoding; the information on the content store as its encoding *)
Theorem C80_forwarder_status : forall o e o', made ForwarderStatus o -> ty_encode (class ForwarderStatus) o = Ok (e, o') ->
  exists q, parseForwarderStatus (e_val e) = Ok q /\ same_entry ForwarderStatus q o.
Proof.
  intros o e o' M E. destruct (made_encodes _ o M) as [[X _]|(e1 & o1 & q & E1 & _ & _ & WF & D & S)]; [congruence|]. rewrite E in E1. apply Ok_inj in E1. injection E1 as <- <-.
  destruct (ty_heard _ _ _ D) as (T & H & OI & _). destruct (ty_accepts ForwarderStatus (mkBlock 21 (e_val e)) _ _ eq_refl H) as (q' & D' & _). exists q'. split; [exact D'|].
  unfold ty_decode in D, D'. rewrite T in D. cbn [e_type e_val mkBlock] in D'. change (number ForwarderStatus =? ty_type (class ForwarderStatus)) with true in D. change (21 =? ty_type (class ForwarderStatus)) with true in D'. cbn [negb] in D, D'.
  destruct (parseValue (e_val e)); [|discriminate]. cbn [bind] in D, D'. destruct (rows_decode _ a); [|discriminate]. cbn [bind class tyForwarderStatus ty_sub] in D, D'. apply Ok_inj in D as <-. apply Ok_inj in D' as <-. exact S.
Qed.
Print Assumptions C80_forwarder_status.
Theorem C80_cs_info : forall o e o', made CsInfo o -> ty_encode (class CsInfo) o = Ok (e, o') -> exists q, parseCsInfo (e_wire e) = Ok q /\ same_entry CsInfo q o.
Proof.
  intros o e o' M E. destruct (made_encodes _ o M) as [[X _]|(e1 & o1 & q & E1 & _ & _ & WF & D & S)]; [congruence|]. rewrite E in E1. apply Ok_inj in E1. injection E1 as <- <-.
  exists q. split; auto. unfold parseCsInfo. rewrite blockFromWire_wf by exact WF. exact D.
Qed.
Print Assumptions C80_cs_info.

Definition nd_chan (s : bytes) : dobj := mkObj [Some (VStr s)] [] None.
Lemma nd_chan_made : forall s, made ChannelStatus (nd_chan s).
Proof. intro s. exists [DSet 0 (VStr s)]. split; [|reflexivity]. repeat constructor. eexists. split; reflexivity. Qed.
(* two entries of 5000 octets each, in two segments *)
Example C80_ex : exists e1 e2 o1 o2 s0 s h l, ty_encode (class ChannelStatus) (nd_chan (repeat x41 5000)) = Ok (e1, o1) /\ ty_encode (class ChannelStatus) (nd_chan (repeat x42 5000)) = Ok (e2, o2) /\
  sd_new TYPED TYPED sd_iname 5 = Ok s0 /\ sd_run TYPED TYPED (fun _ => false) (map SdAppend (map e_wire [e1; e2]) ++ [SdEnd]) s0 = (s, h) /\ List.length (sd_log s) = 2%nat /\
  parseDatasetVector (class ChannelStatus) (nd_contents (sd_log s)) = Ok l /\ map do_vals l = [[Some (VStr (repeat x41 5000))]; [Some (VStr (repeat x42 5000))]].
Proof.
  do 8 eexists. split; [vm_compute; reflexivity|]. split; [vm_compute; reflexivity|]. split; [vm_compute; reflexivity|]. split; [vm_compute; reflexivity|]. split; [vm_compute; reflexivity|]. split; vm_compute; reflexivity.
Qed.

(* ------------------------------------------------------------------------------------------------ *)
(* C81.  Whatever setters, encodings and decodings made the response: it encodes to an element (or throws length_error), which decodes to
   the same code, text and body *)
Theorem C81_round_trip : forall l c, Forall crop_ok l -> cr_run l cr_empty = Some c ->
  (cr_encode c = Err ELength /\ MAX_BUFFER < nlen (cr_text c) + match cr_body c with Some b => nlen (e_wire b) | None => 0 end + 40) \/
  exists e c' q, cr_encode c = Ok (e, c') /\ cr_code c' = cr_code c /\ cr_text c' = cr_text c /\ cr_body c' = cr_body c /\
    blockFromWire (e_wire e) = Ok e /\ cr_decode e = Ok q /\ cr_code q = cr_code c /\ cr_text q = cr_text c /\ cr_body q = cr_body c.
Proof.
  intros l c F R. destruct (cr_run_inv _ _ _ cr_empty_inv F R) as [OK WI]. destruct (cr_wire c) as [e|] eqn:W.
  - right. destruct (WI e eq_refl) as (WF & q & D & S1 & S2 & S3). exists e, c, q. splits; auto; [unfold cr_encode; now rewrite W|now apply blockFromWire_wf].
  - destruct (N.ltb_spec MAX_BUFFER (nlen (tlv_enc 101 (cr_value c)))) as [L|L].
    + left. split; [|pose proof (cr_size c); lia]. unfold cr_encode, alloc. rewrite W. fold (cr_value c). destruct (N.ltb_spec MAX_BUFFER (nlen (tlv_enc 101 (cr_value c)))); [reflexivity|lia].
    + right. destruct (cr_fresh c OK W L) as (E & WF & _ & q & D & S1 & S2 & S3). eexists _, _, q. split; [exact E|]. splits; auto. now apply blockFromWire_wf.
Qed.
Print Assumptions C81_round_trip.
(* C81.  The encoding after a change: StatusCode, StatusText and the body *)
Theorem C81_wire : forall l x c e c', Forall crop_ok (l ++ [x]) -> cr_run (l ++ [x]) cr_empty = Some c -> cr_changes x = true -> cr_encode c = Ok (e, c') ->
  exists d, response_written (cr_code c) (cr_text c) (cr_body c) d /\ is_tlv 101 d (e_wire e).
Proof.
  intros l x c e c' F R CH E. destruct (cr_run_inv _ _ _ cr_empty_inv F R) as [OK _]. assert (W : cr_wire c = None).
  { clear - R CH. revert R. generalize cr_empty. induction l as [|y l IH]; intros s R; cbn [app cr_run] in R; [|destruct (cr_step y s); [eauto|discriminate]]. destruct x; try discriminate; cbn in R; injection R as <-; reflexivity. }
  destruct (N.ltb_spec MAX_BUFFER (nlen (tlv_enc 101 (cr_value c)))) as [L|L].
  - unfold cr_encode, alloc in E. rewrite W in E. fold (cr_value c) in E. destruct (N.ltb_spec MAX_BUFFER (nlen (tlv_enc 101 (cr_value c)))); [discriminate|lia].
  - destruct (cr_fresh c OK W L) as (E1 & WF & LV & _). rewrite E1 in E. apply Ok_inj in E. injection E as <- _. exists (cr_value c). split; [now apply cr_written|]. apply is_tlv_elem. exists (mkBlock 101 (cr_value c)). auto.
Qed.
Print Assumptions C81_wire.
(* C81.  Decoding accepts exactly the elements of type 101 that start with a StatusCode below 2^32 and a StatusText; the next element, if
   any, is the body, and the others are ignored; otherwise tlv::Error is thrown *)
Theorem C81_decode : forall e c, cr_decode e = Ok c -> e_type e = 101 /\ response_heard c (e_val e).
Proof. intros e c H. destruct (cr_heard _ _ H) as (A & B & _). auto. Qed.
Print Assumptions C81_decode.
Theorem C81_decode_complete : forall e c, e_type e = 101 -> response_heard c (e_val e) -> exists q, cr_decode e = Ok q /\ cr_code q = cr_code c /\ cr_text q = cr_text c /\
  match cr_body q, cr_body c with None, None => True | Some a, Some b => e_type a = e_type b /\ e_val a = e_val b | _, _ => False end.
Proof. exact cr_accepts. Qed.
Print Assumptions C81_decode_complete.
Theorem C81_errors : forall e x, cr_decode e = Err x -> x = ETlv.
Proof. exact cr_err. Qed.
Print Assumptions C81_errors.
(* C81.  A getter returns what was last set *)
Theorem C81_fields : forall x c c', cr_step x c = Some c' ->
  match x with
  | CrCode n => cr_code c' = n /\ cr_text c' = cr_text c /\ cr_body c' = cr_body c
  | CrText s => cr_code c' = cr_code c /\ cr_text c' = s /\ cr_body c' = cr_body c
  | CrBody b => cr_code c' = cr_code c /\ cr_text c' = cr_text c /\ cr_body c' = Some b
  | CrEncode => cr_code c' = cr_code c /\ cr_text c' = cr_text c /\ cr_body c' = cr_body c
  | CrDecode _ => True
  end.
Proof.
  intros x c c' H. destruct x; cbn [cr_step] in H; auto; try (injection H as <-; auto). destruct (cr_encode c) as [[e c1]|] eqn:E; injection H as <-; auto.
  unfold cr_encode in E. destruct (cr_wire c); [injection E as _ <-; auto|]. inv_bind E. apply Ok_inj in E. injection E as _ <-. auto.
Qed.
Print Assumptions C81_fields.

Definition nd_cr : list crop := [CrCode 404; CrEncode; CrText (str "No"); CrBody (mkBlock 104 [])].
Example C81_ex : Forall crop_ok nd_cr /\ exists c e c' q, cr_run nd_cr cr_empty = Some c /\ cr_encode c = Ok (e, c') /\
  e_wire e = [nb 101; nb 10; nb 102; nb 2; nb 1; nb 148; nb 103; nb 2; nb 78; nb 111; nb 104; nb 0] /\ cr_decode e = Ok q /\ cr_code q = 404 /\ cr_text q = str "No" /\ cr_body q = Some (mkBlock 104 []).
Proof.
  split. { repeat constructor; cbn; try lia. exists [nb 104; nb 0]. vm_compute. reflexivity. }
  do 4 eexists. split; [vm_compute; reflexivity|]. split; [vm_compute; reflexivity|]. split; [vm_compute; reflexivity|]. split; [vm_compute; reflexivity|]. splits; vm_compute; reflexivity.
Qed.

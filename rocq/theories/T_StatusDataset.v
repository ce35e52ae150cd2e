(* C61: status datasets. *)
From Coq Require Import ZArith Lia ZifyBool ZifyNat ZifyN.
From Verif Require Import Base BaseLemmas M_Tlv M_Name S_Name P_Name P_NameUri M_Packet S_Packet S_Ims M_StatusDataset S_StatusDataset P_StatusDataset
  P_Packet P_Data P_DataT T_Segmenter M_Segmenter S_Segmenter P_Segmenter.
Open Scope N_scope.

(* the octets of all appends that a handler makes *)
Definition all_octets (l : list sdop) : bytes := concat (map (fun o => match o with SdAppend bs => bs | _ => [] end) l).
(* the times read from the clock fit 64 bits; fewer than 2^64 octets are appended *)
Definition calls_ok (l : list sdop) : Prop := nlen (all_octets l) < 2 ^ 64 /\ forall p c, In (SdSetPrefix p c) l -> c < 2 ^ 64.

(* C61.  Whatever sequence of setPrefix, append, end and reject calls a handler makes (catching exceptions as it likes), as long as the
   segments can be sent: what has been sent is one of
   - a rejection and nothing else, if reject returned normally;
   - the segments 0, 1, ... under one prefix, which extends the name of the Interest and ends with a version.  All are full (8000
     octets) except possibly the last one after end, which is final, and is empty only if nothing was appended; no other is final.
     Their contents concatenate to the appended octets, except that before end at most 8000 of these are still to come. *)
Theorem C61_segments : forall conv dconv iname clock s0 l s h, sd_new conv dconv iname clock = Ok s0 -> clock < 2 ^ 64 -> calls_ok l -> can_decode dconv conv = true ->
  sd_run conv dconv (fun _ => false) l s0 = (s, h) ->
  (did is_reject h = true /\ did is_append h = false /\ did is_end h = false /\ exists r, sd_log s = [SdNack r] /\ In (SdReject r, None) h) \/
  (did is_reject h = false /\
   is_prefix (nkey iname) (nkey (sd_prefix s)) /\ (exists f v, n_comps (sd_prefix s) = f ++ [v] /\ isKind dconv KVersion v = true) /\
   exists chunks rest, Forall (fun ch : bytes => nlen ch = 8000) chunks /\ nlen rest <= 8000 /\ (rest = [] -> chunks = []) /\ concat chunks ++ rest = appended h /\
     if did is_end h then segments conv (sd_prefix s) 0 true (chunks ++ [rest]) (sd_log s)
     else segments conv (sd_prefix s) 0 false chunks (sd_log s)).
Proof.
  intros conv dconv iname clock s0 l s h N0 LC [LN LP] CD R. destruct (new_inv _ _ _ _ _ N0 LC CD) as (I0 & IN & PO).
  destruct (run_inv conv dconv iname l s0 [] s h I0 IN R) as [IV _]; [exact LN|exact LP|]. cbn [app] in IV.
  destruct (run_prefix _ _ _ _ _ _ _ _ CD LP PO IN R) as [PX PV].
  unfold Inv in IV. destruct (sd_state s).
  - destruct IV as (A & B & C & D & E). right.
    assert (DW : forall f, (forall o, f o = true -> is_any o = true) -> did f h = false).
    { intros f W. clear - A W. unfold did in *. induction h as [|[o r] h IH]; cbn in *; auto. apply orb_false_iff in A as [A1 A2]. rewrite (IH A2), orb_false_r.
      destruct (f o) eqn:F; auto. rewrite (W _ F) in A1. exact A1. }
    rewrite (DW is_end), (DW is_reject) by (intros []; cbn; congruence). splits; auto. exists [], []. splits; auto. { rewrite nlen_nil; lia. } rewrite B. exact Logic.I.
  - destruct IV as (A & B & C & chunks & SG & FU & NO & LB & CC & EM). right. rewrite B. splits; auto. exists chunks, (sd_buf s). splits; auto.
  - destruct IV as [(A & B & C & D & E)|(A & B & chunks & last & SG & FU & LL & CC & EM)]; [left; splits; auto|right]. rewrite A. splits; auto. exists chunks, last. splits; auto.
Qed.
Print Assumptions C61_segments.

(* C61.  Calls are answered as documented: append and end return normally until end or reject did, then throw logic_error; reject returns
   normally only if no append, end or reject did before. *)
Theorem C61_answers : forall conv dconv iname clock s0 l s h, sd_new conv dconv iname clock = Ok s0 -> clock < 2 ^ 64 -> calls_ok l -> can_decode dconv conv = true ->
  sd_run conv dconv (fun _ => false) l s0 = (s, h) ->
  map fst h = l /\ forall a o r b, h = a ++ (o, r) :: b -> answers dconv iname a o r.
Proof.
  intros conv dconv iname clock s0 l s h N0 LC [LN LP] CD R. destruct (new_inv _ _ _ _ _ N0 LC CD) as (I0 & IN & PO).
  split; [|destruct (run_inv conv dconv iname l s0 [] s h I0 IN R) as [_ A]; [exact LN|exact LP|exact A]].
  clear - R. revert s0 s h R. induction l as [|o l IH]; intros s0 s h R; cbn in R; [injection R as <- <-; reflexivity|].
  destruct (sd_step _ _ _ o s0) as [s1 r]. destruct (sd_run _ _ _ l s1) as [s2 rs] eqn:E. injection R as <- <-. cbn. f_equal. eapply IH; eauto.
Qed.
Print Assumptions C61_answers.

(* C61.  After end (however it returned) or a reject that returned normally, nothing more is sent and every call throws logic_error; here
   the segments may also fail to be sent *)
Theorem C61_nothing_after : forall conv dconv thr o s s1 r l s2 h, sd_step conv dconv thr o s = (s1, r) ->
  (o = SdEnd \/ exists resp, o = SdReject resp /\ r = None) ->
  sd_run conv dconv thr l s1 = (s2, h) -> sd_log s2 = sd_log s1 /\ sd_calls s2 = sd_calls s1 /\ Forall (fun x => snd x = Some ELogic) h.
Proof.
  intros conv dconv thr o s s1 r l s2 h ST O R.
  assert (F : sd_state s1 = SdFinalized).
  { destruct O as [->|(resp & -> & ->)]; cbn [sd_step] in ST.
    - unfold sd_end, sd_segment, sd_emit in ST. destruct (sd_state s) eqn:SS; try (injection ST as <- <-; exact SS); destruct (MAX_PAYLOAD_LENGTH <? _);
        try (injection ST as <- <-; reflexivity); destruct (fromKind conv KSegment _); try (injection ST as <- <-; reflexivity); destruct (thr _); injection ST as <- <-; reflexivity.
    - unfold sd_reject, sd_emit in ST. destruct (sd_state s) eqn:SS; try discriminate. destruct (thr _); injection ST as <-; try discriminate. reflexivity. }
  clear ST O s r o. revert s1 s2 h F R. induction l as [|o l IH]; intros s s' h F R; cbn in R; [injection R as <- <-; auto|].
  assert (X : sd_step conv dconv thr o s = (s, Some ELogic)) by (destruct o; cbn; unfold sd_setPrefix, sd_append, sd_end, sd_reject; rewrite F; reflexivity).
  rewrite X in R. destruct (sd_run _ _ _ l s) as [s2 rs] eqn:E. injection R as <- <-. destruct (IH _ _ _ F E) as (-> & -> & K). splits; auto.
Qed.
Print Assumptions C61_nothing_after.

(* C61.  The Data that Dispatcher makes of a segment: its name, content, a FreshnessPeriod of 1 s, the segment number as FinalBlockId if
   it is final, signed; segment 0 goes to the Face and the in-memory storage, the others to the storage only. *)
Theorem C61_packet : forall conv dconv signer si p i ci ch final, can_decode dconv conv = true -> fromKind conv KSegment i = Ok ci -> i < 2 ^ 64 ->
  seg_args_ok p 1000 0 si -> nlen ch <= 8000 ->
  dp_segment dconv signer si (nm_append ci p) ch final = Err ELength \/
  exists d u, dp_segment dconv signer si (nm_append ci p) ch final = Ok (d, if i =? 0 then ToFaceAndIms else ToIms) /\
    nkey (d_name d) = nkey p ++ [ckey ci] /\ ckey (d_content d) = (21, ch) /\
    mi_fields (d_meta d) = (0, 1000, if final then Some (ckey ci) else None, []) /\ si_fields (d_sinfo d) = si_fields si /\
    da_signedRange d = (d, Ok u) /\ ckey (d_sval d) = (23, signer u).
Proof.
  intros conv dconv signer si p i ci ch final CD FK LI (A1 & A2 & A3 & A4 & A5 & A6) LC.
  destruct (numeric_round_trip conv dconv KSegment i ci LI CD FK) as [_ TK].
  unfold dp_segment. assert (G : nm_get (-1) (nm_append ci p) = Ok ci).
  { destruct (at_last (nm_append ci p)) as [[E _]|(f & c & E & AT)]; cbn in E.
    - destruct (n_comps p); discriminate.
    - apply app_inj_tail in E as [_ <-]. unfold nm_at in AT. unfold nm_get. destruct (nm_index (-1) (nm_append ci p)); [exact AT|discriminate]. }
  rewrite G. cbn [bind]. rewrite TK. cbn [bind]. unfold dp_sendData.
  assert (C0 : da_setContentBlock (comp_of_elem (mkBlock tContent ch)) (da_of (nm_append ci p)) =
    (da_set (nm_append ci p) mi_empty (comp_of_elem (mkBlock tContent ch)) si_empty blk_invalid, None)) by reflexivity.
  rewrite C0.
  set (raw0 := raw p 1000 0 (if final then Some ci else None) (comp_of_elem (mkBlock tContent ch)) ci).
  assert (S0 : da_setFreshnessPeriod 1000 (da_setMetaInfo (if final then mi_setFinalBlock (Some ci) mi_empty else mi_empty)
     (da_set (nm_append ci p) mi_empty (comp_of_elem (mkBlock tContent ch)) si_empty blk_invalid)) = (raw0, None)) by (destruct final; reflexivity).
  rewrite S0.
  assert (O : da_ok raw0).
  { apply (raw_ok conv p 1000 0 _ _ ci i); [exact A1|unfold MAX_MS; lia|reflexivity|exact FK| |apply mkc_ok; unfold two64; lia]. intros fc E. destruct final; [|discriminate]. injection E as <-. now apply fromKind_valid in FK. }
  destruct (seg_sign_total signer si raw0 O A4 A5 A6) as [(d & e & S1 & S2)|E].
  - right. rewrite S1. destruct (da_sign_range signer si raw0 d e O A4 S1) as (u & so & _ & _ & R & _ & Sv & W & V & De).
    unfold signed_view in V. pose proof (f_equal (fun x => fst (fst (fst x))) V) as V1. pose proof (f_equal (fun x => snd (fst (fst x))) V) as V2.
    pose proof (f_equal (fun x => snd (fst x)) V) as V3. pose proof (f_equal snd V) as V4. cbn [fst snd] in V1, V2, V3, V4.
    exists d, u. splits; auto.
    + rewrite V1. unfold raw0, raw, nkey. cbn. now rewrite map_app.
    + rewrite V2. unfold raw0, raw. destruct final; reflexivity.
  - left. unfold seg_sign in E. destruct (da_sign signer si raw0) as [d [e|x]]; [discriminate|]. congruence.
Qed.
Print Assumptions C61_packet.

(* A handler that appends 9000 octets in two calls *)
Definition sd_iname : name := nm_of [mkComp 8 None (str "ds")].
Definition sd_ops : list sdop := [SdSetPrefix (nm_append (mkComp 8 None (str "x")) sd_iname) 7; SdAppend (repeat x41 7999); SdAppend [x42; x43; x44]; SdReject []; SdEnd; SdAppend [x45]].
Example C61_ex : exists s0 s h v c0 c1, sd_new TYPED TYPED sd_iname 5 = Ok s0 /\ calls_ok sd_ops /\ sd_run TYPED TYPED (fun _ => false) sd_ops s0 = (s, h) /\
  fromKind TYPED KVersion 7 = Ok v /\ fromKind TYPED KSegment 0 = Ok c0 /\ fromKind TYPED KSegment 1 = Ok c1 /\
  sd_log s = [SdData (nm_of [mkComp 8 None (str "ds"); mkComp 8 None (str "x"); v; c0]) (repeat x41 7999 ++ [x42]) false;
              SdData (nm_of [mkComp 8 None (str "ds"); mkComp 8 None (str "x"); v; c1]) [x43; x44] true] /\
  map snd h = [None; None; None; Some ELogic; None; Some ELogic].
Proof.
  eexists _, _, _, _, _, _. split; [vm_compute; reflexivity|]. split.
  { split; [vm_compute; reflexivity|]. intros p c [E|[E|[E|[E|[E|[E|[]]]]]]]; try discriminate. injection E as <- <-. reflexivity. }
  split; [vm_compute; reflexivity|]. split; [vm_compute; reflexivity|]. split; [vm_compute; reflexivity|]. split; [vm_compute; reflexivity|]. split; vm_compute; reflexivity.
Qed.
Example C61_packet_ex : exists c d, fromKind TYPED KSegment 1 = Ok c /\ seg_args_ok seg_name 1000 0 seg_si /\
  dp_segment TYPED seg_signer seg_si (nm_append c seg_name) (str "AB") true = Ok (d, ToIms) /\ ckey (d_content d) = (21, str "AB") /\ mi_fields (d_meta d) = (0, 1000, Some (ckey c), []).
Proof. eexists _, _. split; [vm_compute; reflexivity|]. split; [apply C44_ex|]. split; [vm_compute; reflexivity|]. split; vm_compute; reflexivity. Qed.

(* If sending a segment throws, the segment number has already been used: a handler that catches the exception and goes on publishes
   segments whose numbers are not consecutive. *)
Theorem C61_sending_fails_refuted : exists thr s0 l s h n ch b, sd_new TYPED TYPED sd_iname 5 = Ok s0 /\ calls_ok l /\
  sd_run TYPED TYPED thr l s0 = (s, h) /\ map snd h = [None; Some ERuntime; None; None] /\ sd_log s = [SdData n ch b] /\
  exists f c, n_comps n = f ++ [c] /\ toKind TYPED KSegment c = Ok 1.
Proof.
  exists (fun n => match n with O => true | _ => false end). eexists _, [SdAppend (repeat x41 8000); SdAppend [x42]; SdAppend []; SdEnd], _, _, _, _, _.
  split; [vm_compute; reflexivity|]. split.
  { split; [vm_compute; reflexivity|]. intros p c [E|[E|[E|[E|[]]]]]; discriminate. }
  split; [vm_compute; reflexivity|]. split; [vm_compute; reflexivity|]. split; [vm_compute; reflexivity|].
  eexists [_; _], _. split; vm_compute; reflexivity.
Qed.
Print Assumptions C61_sending_fails_refuted.

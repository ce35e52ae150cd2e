(* C102: tags of packets and link fields. *)
From Coq Require Import Lia ZArith.
From Verif Require Import Base BaseLemmas M_Tlv P_Tlv S_Tlv M_Lp S_Lp P_Lp P_LpT T_Lp M_LpTags S_LpTags P_LpTags.
Open Scope N_scope.

Lemma carries_ext : forall b w exp exp', (forall f, exp f = exp' f) -> carries b w exp -> carries b w exp'.
Proof. intros b w exp exp' E (W & p & D & H). split; auto. exists p. split; auto. refine (exact_ext _ _ _ _ H). intro f. destruct f; auto. Qed.

(* C102: an Interest is sent with exactly the fields NextHopFaceId and CongestionMark that its tags ask for, and at most 8800 octets. *)
Theorem C102_interest : forall nextHop mark w b, net_packet tInterest w -> tag_ok FNextHopFaceId nextHop -> tag_ok FCongestionMark mark -> sendInterest nextHop mark w = Sent b ->
  carries b w (fun f => match f with FNextHopFaceId => nextHop | FCongestionMark => mark | _ => None end) /\ nlen (e_wire b) <= 8800.
Proof.
  intros nextHop mark w b P T T' E. destruct (two_tags tInterest FNextHopFaceId FCongestionMark nextHop mark w) as (A & _); auto; try discriminate. destruct (A b E) as (C & L). split; auto. refine (carries_ext _ _ _ _ _ C). intro f. destruct f; repeat (destruct (lpf_dec _ _); try discriminate; try congruence).
Qed.
Print Assumptions C102_interest.
(* C102: a Data with exactly CachePolicy and CongestionMark. *)
Theorem C102_data : forall policy mark w b, net_packet tData w -> tag_ok FCachePolicy policy -> tag_ok FCongestionMark mark -> sendData policy mark w = Sent b ->
  carries b w (fun f => match f with FCachePolicy => policy | FCongestionMark => mark | _ => None end) /\ nlen (e_wire b) <= 8800.
Proof.
  intros policy mark w b P T T' E. destruct (two_tags tData FCachePolicy FCongestionMark policy mark w) as (A & _); auto; try discriminate. destruct (A b E) as (C & L). split; auto. refine (carries_ext _ _ _ _ _ C). intro f. destruct f; repeat (destruct (lpf_dec _ _); try discriminate; try congruence).
Qed.
Print Assumptions C102_data.
(* C102: a Nack with its header and CongestionMark. *)
Theorem C102_nack : forall header mark w b, net_packet tInterest w -> tag_ok FNack (Some header) -> tag_ok FCongestionMark mark -> sendNack header mark w = Sent b ->
  carries b w (fun f => match f with FNack => Some header | FCongestionMark => mark | _ => None end) /\ nlen (e_wire b) <= 8800.
Proof.
  intros header mark w b P T T' E. destruct (two_tags tInterest FNack FCongestionMark (Some header) mark w) as (A & _); auto; try discriminate. destruct (A b E) as (C & L). split; auto. refine (carries_ext _ _ _ _ _ C). intro f. destruct f; repeat (destruct (lpf_dec _ _); try discriminate; try congruence).
Qed.
Print Assumptions C102_nack.
(* C102: nothing else is thrown than for size. *)
Theorem C102_throws : forall w o o' h e, tag_ok FCongestionMark o' ->
  (net_packet tInterest w -> tag_ok FNextHopFaceId o -> sendInterest o o' w = Threw e -> e = ELength) /\
  (net_packet tData w -> tag_ok FCachePolicy o -> sendData o o' w = Threw e -> e = ELength) /\
  (net_packet tInterest w -> tag_ok FNack (Some h) -> sendNack h o' w = Threw e -> e = ELength).
Proof.
  intros w o o' h e T'. split; [|split]; intros P T E.
  - destruct (two_tags tInterest FNextHopFaceId FCongestionMark o o' w) as (_ & A); auto; discriminate.
  - destruct (two_tags tData FCachePolicy FCongestionMark o o' w) as (_ & A); auto; discriminate.
  - destruct (two_tags tInterest FNack FCongestionMark (Some h) o' w) as (_ & A); auto; discriminate.
Qed.
Print Assumptions C102_throws.
(* C102: without tags an Interest or Data is sent as it is, or is too large. *)
Theorem C102_bare : forall w, (nlen (e_wire w) <= 8800 -> sendInterest None None w = Sent w /\ sendData None None w = Sent w) /\ (8800 < nlen (e_wire w) -> sendInterest None None w = Oversized /\ sendData None None w = Oversized).
Proof.
  intro w. unfold sendInterest, sendData, finishEncoding. cbn [addFieldFromTag bind lp_empty lp_default lp_es]. unfold MAX_NDN_PACKET_SIZE. destruct (N.ltb_spec 8800 (nlen (e_wire w))); split; auto; lia.
Qed.
Print Assumptions C102_bare.
(* C102: the receiver of any block that carries a network packet and fields gets that packet, as a Nack iff there is a Nack field, with the tags IncomingFaceId and CongestionMark iff there are such fields. *)
Theorem C102_receive : forall b w fields,
  (net_packet tData w -> carries b w fields -> onReceiveElement b = Ok (RData w (fields FIncomingFaceId) (fields FCongestionMark))) /\
  (net_packet tInterest w -> carries b w fields -> fields FNack = None -> onReceiveElement b = Ok (RInterest w (fields FIncomingFaceId) (fields FCongestionMark))) /\
  (forall h, net_packet tInterest w -> carries b w fields -> fields FNack = Some h -> onReceiveElement b = Ok (RNack w h (fields FIncomingFaceId) (fields FCongestionMark))).
Proof.
  intros b w fields. split; [|split].
  - intros P C. exact (receive tData b w fields (or_intror eq_refl) P C).
  - intros P C N. rewrite (receive tInterest b w fields (or_introl eq_refl) P C), N. reflexivity.
  - intros h P C N. rewrite (receive tInterest b w fields (or_introl eq_refl) P C), N. reflexivity.
Qed.
Print Assumptions C102_receive.
(* C102: from face to face the congestion mark and the Nack header arrive; the other tags are for the forwarder. *)
Theorem C102_end_to_end : forall mark w b, tag_ok FCongestionMark mark ->
  (forall nextHop, net_packet tInterest w -> tag_ok FNextHopFaceId nextHop -> sendInterest nextHop mark w = Sent b -> onReceiveElement b = Ok (RInterest w None mark)) /\
  (forall policy, net_packet tData w -> tag_ok FCachePolicy policy -> sendData policy mark w = Sent b -> onReceiveElement b = Ok (RData w None mark)) /\
  (forall header, net_packet tInterest w -> tag_ok FNack (Some header) -> sendNack header mark w = Sent b -> onReceiveElement b = Ok (RNack w header None mark)).
Proof.
  intros mark w b T. split; [|split]; intros x P X E.
  - destruct (C102_interest x mark w b P X T E) as (C & _). exact (proj1 (proj2 (C102_receive b w _)) P C eq_refl).
  - destruct (C102_data x mark w b P X T E) as (C & _). exact (proj1 (C102_receive b w _) P C).
  - destruct (C102_nack x mark w b P X T E) as (C & _). exact (proj2 (proj2 (C102_receive b w _)) x P C eq_refl).
Qed.
Print Assumptions C102_end_to_end.
(* A cache policy tag whose policy is not NO_CACHE makes a packet whose CachePolicy field its receiver cannot read: tag_ok is needed. *)
Theorem C102_policy_refuted : exists w b p, net_packet tData w /\ sendData (Some (VEnum 2)) None w = Sent b /\ lp_decode b lp_default = (p, None) /\ lp_has FCachePolicy p = true /\ lp_get FCachePolicy 0 p = Err ETlv.
Proof. exists (mkBlock tData (str "xyz")). do 2 eexists. split; [repeat split; vm_compute; reflexivity|]. split; [vm_compute; reflexivity|]. split; [vm_compute; reflexivity|]. split; vm_compute; reflexivity. Qed.
Print Assumptions C102_policy_refuted.

Example C102_ex : let w := mkBlock tInterest (str "xyz") in
  net_packet tInterest w /\ tag_ok FNextHopFaceId (Some (VNum 300)) /\ tag_ok FCongestionMark (Some (VNum 1)) /\ tag_ok FNack (Some (VEnum 150)) /\
  (exists b, sendInterest (Some (VNum 300)) (Some (VNum 1)) w = Sent b /\ e_type b = tLpPacket /\ onReceiveElement b = Ok (RInterest w None (Some (VNum 1)))) /\
  (exists b, sendNack (VEnum 150) None w = Sent b /\ onReceiveElement b = Ok (RNack w (VEnum 150) None None)).
Proof.
  cbv zeta. split; [repeat split; vm_compute; reflexivity|]. split; [intros v [= <-]; split; cbn; auto; reflexivity|]. split; [intros v [= <-]; split; cbn; auto; reflexivity|]. split; [intros v [= <-]; split; cbn; lia|].
  split; eexists; (split; [vm_compute; reflexivity|]); [split|]; vm_compute; reflexivity.
Qed.
Example C102_data_ex : let w := mkBlock tData (str "xyz") in
  net_packet tData w /\ tag_ok FCachePolicy (Some (VEnum 1)) /\ exists b, sendData (Some (VEnum 1)) (Some (VNum 7)) w = Sent b /\ onReceiveElement b = Ok (RData w None (Some (VNum 7))).
Proof.
  cbv zeta. split; [repeat split; vm_compute; reflexivity|]. split; [intros v [= <-]; split; cbn; auto; lia|]. eexists. split; [vm_compute; reflexivity|]. vm_compute; reflexivity.
Qed.

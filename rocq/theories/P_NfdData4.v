(* Proofs about control responses and flag bits of FaceStatus and FaceEventNotification. *)
From Coq Require Import ZArith Lia ZifyBool ZifyNat ZifyN.
From Verif Require Import Base BaseLemmas M_Tlv S_Tlv P_Tlv P_Block M_Name S_Name P_Name P_Packet P_Data P_InterestD P_IntPolicy M_Control S_Control P_Control M_Signer M_NfdData S_NfdData P_NfdData P_NfdData2 P_NfdData3.
Open Scope N_scope.

Definition cr_value (c : cresp) : bytes := tlv_nni 102 (cr_code c) ++ tlv_enc 103 (cr_text c) ++ match cr_body c with Some b => e_wire b | None => [] end.
Definition cr_same (a b : cresp) : Prop := cr_code a = cr_code b /\ cr_text a = cr_text b /\ cr_body a = cr_body b.
Definition cr_okv (c : cresp) : Prop := cr_code c < 2 ^ 32 /\ forall b, cr_body c = Some b -> elem_wf b.
Definition cr_inv (c : cresp) : Prop := cr_okv c /\ forall e, cr_wire c = Some e -> elem_wf e /\ exists q, cr_decode e = Ok q /\ cr_same q c.

Lemma code_u64 : forall n, n < 2 ^ 32 -> n < two64.
Proof. intros n H. unfold two64. lia. Qed.
Lemma cr_size : forall c, nlen (tlv_enc 101 (cr_value c)) <= nlen (cr_text c) + match cr_body c with Some b => nlen (e_wire b) | None => 0 end + 40.
Proof.
  intro c.
  assert (V : forall n, sizeOfVarNumber n <= 9) by (intro n; unfold sizeOfVarNumber; destruct (n <? 253); repeat destruct (_ <=? _); lia).
  assert (X : forall t v, nlen (tlv_enc t v) <= 18 + nlen v) by (intros t v; rewrite tlv_enc_len; pose proof (V t); pose proof (V (nlen v)); lia).
  assert (Y : nlen (tlv_nni 102 (cr_code c)) <= 10). { unfold tlv_nni. rewrite tlv_enc_len, encNNI_len. destruct (sizeOfNNI_cases (cr_code c)) as [->|[->|[->| ->]]]; vm_compute; discriminate. }
  assert (Z1 : forall t v, t < 253 -> nlen (tlv_enc t v) <= 10 + nlen v). { intros t v L. rewrite tlv_enc_len. pose proof (V (nlen v)). assert (sizeOfVarNumber t = 1) by (unfold sizeOfVarNumber; destruct (N.ltb_spec t 253); lia). lia. }
  pose proof (Z1 101 (cr_value c) ltac:(reflexivity)) as A. pose proof (Z1 103 (cr_text c) ltac:(reflexivity)) as B. unfold cr_value in A at 2. rewrite !nlen_app in A. destruct (cr_body c); change (nlen []) with 0 in *; lia.
Qed.
Lemma cr_parts : forall c, cr_okv c -> nlen (cr_value c) < two64 -> exists e1 e2 es, elem_wf e1 /\ elem_wf e2 /\ Forall elem_wf es /\ hd_error es = cr_body c /\
  e_type e1 = 102 /\ is_nni (cr_code c) (e_val e1) /\ e_type e2 = 103 /\ e_val e2 = cr_text c /\ e_wire e1 = tlv_nni 102 (cr_code c) /\ e_wire e2 = tlv_enc 103 (cr_text c) /\
  cr_value c = concat (map e_wire (e1 :: e2 :: es)).
Proof.
  intros c [CO BO] L. unfold cr_value in *. rewrite !nlen_app in L. pose proof (code_u64 _ CO) as CU. pose proof (mkNNI_wf 102 (cr_code c) ltac:(reflexivity) ltac:(reflexivity)) as W1. assert (N1 : is_nni (cr_code c) (e_val (mkNNIBlock 102 (cr_code c)))) by (apply readNNIBlock_iff, readNNIBlock_mk; exact CU).
  assert (LT : nlen (cr_text c) < two64). { rewrite tlv_enc_len in L. lia. }
  assert (W2 : elem_wf (mkBlock 103 (cr_text c))) by (apply mkBlock_wf; [reflexivity|reflexivity|exact LT]).
  exists (mkNNIBlock 102 (cr_code c)), (mkBlock 103 (cr_text c)), (match cr_body c with Some b => [b] | None => [] end).
  split; [exact W1|]. split; [exact W2|]. split; [destruct (cr_body c); auto|]. split; [now destruct (cr_body c)|]. split; [reflexivity|]. split; [exact N1|]. split; [reflexivity|]. split; [reflexivity|].
  assert (X1 : e_wire (mkNNIBlock 102 (cr_code c)) = tlv_nni 102 (cr_code c)) by apply mkNNI_wire. assert (X2 : e_wire (mkBlock 103 (cr_text c)) = tlv_enc 103 (cr_text c)) by apply mkBlock_wire.
  split; [exact X1|]. split; [exact X2|]. cbn [map concat]. rewrite X1, X2. destruct (cr_body c); cbn [map concat]; rewrite ?app_nil_r; reflexivity.
Qed.
Lemma readAs_nni : forall e n l, is_nni n (e_val e) -> n < l -> readNNIBlockAs l e = Ok n.
Proof. intros e n l H L. unfold readNNIBlockAs. apply readNNIBlock_iff in H. rewrite H. cbn [bind]. destruct (N.leb_spec l n); [lia|reflexivity]. Qed.
Lemma cr_round : forall c e, cr_okv c -> nlen (cr_value c) < two64 -> e_type e = 101 -> e_val e = cr_value c -> exists q, cr_decode e = Ok q /\ cr_same q c.
Proof.
  intros c e OK L T V. destruct (cr_parts c OK L) as (e1 & e2 & es & W1 & W2 & W3 & HB & T1 & N1 & T2 & V2 & _ & _ & C). unfold cr_decode. rewrite T, V. change (negb (101 =? 101)) with false. cbn iota.
  assert (P : parseValue (cr_value c) = Ok (e1 :: e2 :: es)) by (apply parseValue_ok_iff; split; auto). rewrite P. cbn [bind]. rewrite T1, T2. change (negb (102 =? 102)) with false. change (negb (103 =? 103)) with false. cbn iota.
  rewrite (readAs_nni e1 (cr_code c)) by (auto; apply OK). cbn [bind]. eexists. split; [reflexivity|]. split; [reflexivity|]. split; [exact V2|exact HB].
Qed.
Lemma cr_fresh : forall c, cr_okv c -> cr_wire c = None -> nlen (tlv_enc 101 (cr_value c)) <= MAX_BUFFER ->
  cr_encode c = Ok (mkBlock 101 (cr_value c), mkCr (cr_code c) (cr_text c) (cr_body c) (Some (mkBlock 101 (cr_value c)))) /\ elem_wf (mkBlock 101 (cr_value c)) /\ nlen (cr_value c) < two64 /\
  exists q, cr_decode (mkBlock 101 (cr_value c)) = Ok q /\ cr_same q c.
Proof.
  intros c OK W L. pose proof L as L'. rewrite tlv_enc_len in L'. unfold MAX_BUFFER in L'. assert (LV : nlen (cr_value c) < two64) by (unfold two64; lia).
  split; [|split; [apply mkBlock_wf; auto; reflexivity|split; [exact LV|apply cr_round; auto]]]. unfold cr_encode. rewrite W. fold (cr_value c). unfold alloc. destruct (N.ltb_spec MAX_BUFFER (nlen (tlv_enc 101 (cr_value c)))); [lia|reflexivity].
Qed.
Lemma cr_heard : forall e c, cr_decode e = Ok c -> e_type e = 101 /\ response_heard c (e_val e) /\ cr_okv c /\ cr_wire c = Some e.
Proof.
  intros e c H. unfold cr_decode in H. destruct (N.eqb_spec (e_type e) 101) as [T|]; [|discriminate]. cbn [negb] in H. inv_bind H. apply parseValue_ok_iff in E as [W C].
  destruct a as [|a es1]; [discriminate|]. destruct (N.eqb_spec (e_type a) 102) as [T1|]; [|discriminate]. cbn [negb] in H. inv_bind H. destruct es1 as [|b es2]; [discriminate|]. destruct (N.eqb_spec (e_type b) 103) as [T2|]; [|discriminate]. cbn [negb] in H.
  apply Ok_inj in H as <-. split; auto. pose proof (readNNIAs_lt _ _ _ E) as LT. unfold readNNIBlockAs in E. inv_bind E. destruct (two32 <=? a1); [discriminate|]. apply Ok_inj in E as ->. apply readNNIBlock_iff in E0.
  inversion W as [|? ? Wa W']; subst. inversion W' as [|? ? Wb W3]; subst. split; [|split; [|reflexivity]].
  - exists (e_val a), (pairs es2). split; [|split; [exact E0|split; [exact LT|]]].
    + apply is_tlv_seq_elems. exists (a :: b :: es2). split; [auto|]. split; [cbn; now rewrite T1, T2|exact C].
    + destruct es2 as [|x es3]; cbn; [reflexivity|]. exists x. auto.
  - split; [exact LT|]. cbn. intros y Y. destruct es2; [discriminate|]. injection Y as <-. now inversion W3.
Qed.
Lemma cr_accepts : forall e c, e_type e = 101 -> response_heard c (e_val e) -> exists q, cr_decode e = Ok q /\ cr_code q = cr_code c /\ cr_text q = cr_text c /\
  match cr_body q, cr_body c with None, None => True | Some a, Some b => e_type a = e_type b /\ e_val a = e_val b | _, _ => False end.
Proof.
  intros e c T (n & rest & SQ & NN & LT & B). apply is_tlv_seq_elems in SQ as (es & W & E & C). destruct es as [|a [|b es]]; try discriminate. cbn in E. injection E as T1 V1 T2 V2 R. unfold cr_decode.
  rewrite T. change (negb (101 =? 101)) with false. cbn iota. assert (P : parseValue (e_val e) = Ok (a :: b :: es)) by (apply parseValue_ok_iff; auto). rewrite P. cbn [bind]. rewrite <- T1, <- T2. change (negb (102 =? 102)) with false. change (negb (103 =? 103)) with false. cbn iota.
  rewrite (readAs_nni a (cr_code c)) by (rewrite <- ?V1; auto). cbn [bind]. eexists. split; [reflexivity|]. cbn [cr_code cr_text cr_body]. split; [reflexivity|]. split; [auto|].
  destruct es as [|x es]; cbn in R; subst rest; cbn; [now rewrite B|]. destruct B as (y & -> & Y). injection Y as Y1 Y2. auto.
Qed.
Lemma cr_err : forall e x, cr_decode e = Err x -> x = ETlv.
Proof.
  intros e x H. unfold cr_decode in H. destruct (negb _); [congruence|]. destruct (parseValue (e_val e)) as [[|a es]|] eqn:P; cbn [bind] in H; [congruence| |apply parseValue_err in P; congruence].
  destruct (negb _); [congruence|]. destruct (readNNIBlockAs two32 a) eqn:R; cbn [bind] in H; [|apply readNNIAs_err in R; congruence]. destruct es; [congruence|]. destruct (negb _); [congruence|discriminate].
Qed.
Lemma cr_step_inv : forall o c c', cr_inv c -> crop_ok o -> cr_step o c = Some c' -> cr_inv c'.
Proof.
  intros o c c' [[A B] WI] O H. destruct o as [n|s|b| |e]; cbn [cr_step] in H.
  - injection H as <-. split; [split; auto|discriminate].
  - injection H as <-. split; [split; auto|discriminate].
  - injection H as <-. split; [split; auto|discriminate]. cbn. intros y [= <-]. destruct O as [w O]. eapply blockFromWire_inv; eauto.
  - destruct (cr_wire c) as [w|] eqn:W.
    + unfold cr_encode in H. rewrite W in H. injection H as <-. split; [split; auto|]. rewrite W. exact WI.
    + destruct (N.ltb_spec MAX_BUFFER (nlen (tlv_enc 101 (cr_value c)))) as [L|L].
      * unfold cr_encode in H. rewrite W in H. fold (cr_value c) in H. unfold alloc in H. destruct (N.ltb_spec MAX_BUFFER (nlen (tlv_enc 101 (cr_value c)))); [|lia]. injection H as <-. split; [split; auto|]. rewrite W. discriminate.
      * destruct (cr_fresh c (conj A B) W L) as (E & WF & _ & q & D & S). rewrite E in H. injection H as <-. split; [split; auto|]. cbn. intros e [= <-]. split; auto. exists q. auto.
  - destruct (cr_decode e) eqn:D; [|discriminate]. injection H as <-. destruct (cr_heard _ _ D) as (_ & _ & OK & W). split; auto. rewrite W. intros y [= <-]. destruct O as [w O]. split; [eapply blockFromWire_inv; eauto|]. exists a. split; auto. repeat split.
Qed.
Lemma cr_run_inv : forall l c c', cr_inv c -> Forall crop_ok l -> cr_run l c = Some c' -> cr_inv c'.
Proof.
  induction l as [|o l IH]; intros c c' I F H; cbn in H; [injection H as <-; auto|]. inversion F; subst. destruct (cr_step o c) as [c1|] eqn:E; [|discriminate]. apply (IH c1); auto. eapply cr_step_inv; eauto.
Qed.
Lemma cr_empty_inv : cr_inv cr_empty.
Proof. split; [split; [reflexivity|discriminate]|discriminate]. Qed.
Lemma cr_written : forall c, cr_okv c -> nlen (cr_value c) < two64 -> response_written (cr_code c) (cr_text c) (cr_body c) (cr_value c).
Proof.
  intros c OK L. destruct (cr_parts c OK L) as (e1 & e2 & es & W1 & W2 & _ & _ & T1 & N1 & T2 & V2 & X1 & X2 & _). exists (e_val e1), (e_wire e1), (e_wire e2). split; [exact N1|].
  split; [apply is_tlv_elem; exists e1; auto|]. split; [apply is_tlv_elem; exists e2; auto|]. now rewrite X1, X2.
Qed.

(* ---- flag bits ---- *)
Lemma ft_get : forall b w, b < 31 -> ft_getBit b w = Ok (N.testbit w b).
Proof. intros b w L. unfold ft_getBit. destruct (N.leb_spec 64 b); [lia|]. rewrite one_shl_31 by exact L. cbn [bind]. now rewrite land_pow. Qed.
Lemma ft_set : forall b v w, b < 31 -> w < 2 ^ 64 -> exists w', ft_setBit b v w = Ok w' /\ w' < 2 ^ 64 /\ forall j, N.testbit w' j = if j =? b then v else N.testbit w j.
Proof.
  intros b v w L W. unfold ft_setBit. destruct (N.leb_spec 64 b); [lia|]. rewrite one_shl_31 by exact L. cbn [bind]. eexists. split; [reflexivity|].
  assert (X : forall j, N.testbit (if v then N.lor w (2 ^ b) else N.land w (not64 (2 ^ b))) j = if j =? b then v else N.testbit w j) by (intro j; destruct v; [apply set_bit|apply clear_bit; auto]).
  split; [|exact X]. assert (HB : forall j, 64 <= j -> N.testbit (if v then N.lor w (2 ^ b) else N.land w (not64 (2 ^ b))) j = false).
  { intros j J. rewrite X. destruct (N.eqb_spec j b); [lia|]. destruct (N.eq_dec w 0) as [->|NZ]; [apply N.bits_0|]. apply N.bits_above_log2. apply N.log2_lt_pow2 in W; lia. }
  set (x := if v then _ else _) in *. clearbody x. destruct (N.eq_dec x 0) as [->|NZ]; [reflexivity|]. apply N.log2_lt_pow2; [lia|]. destruct (N.lt_ge_cases (N.log2 x) 64) as [|G]; auto. specialize (HB _ G). rewrite N.bit_log2 in HB by exact NZ. discriminate.
Qed.

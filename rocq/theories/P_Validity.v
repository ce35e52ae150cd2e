From Coq Require Import ZArith List Lia ZifyBool ZifyNat ZifyN.
From Verif Require Import Base BaseLemmas S_Tlv M_Tlv M_Name M_Control M_Signer M_Validity S_Validity P_Tlv P_Block P_ValidityC P_ValidityD.
Import ListNotations.
Open Scope Z_scope.

Lemma floor_is : forall t, vp_floor t = t / NS.
Proof.
  intro t. unfold vp_floor, NS. cbv zeta. pose proof (Z.quot_rem t 1000000000 ltac:(lia)) as Q. pose proof (Z.rem_bound_abs t 1000000000 ltac:(lia)).
  destruct (Z.gtb_spec (Z.quot t 1000000000 * 1000000000) t); [|destruct (Z.eq_dec (Z.rem t 1000000000) 0)].
  - apply Z.div_unique with (r := t - (Z.quot t 1000000000 - 1) * 1000000000); lia.
  - apply Z.div_unique with (r := 0); lia.
  - apply Z.div_unique with (r := Z.rem t 1000000000); lia.
Qed.
Lemma ceil_is : forall t, vp_ceil t = - ((- t) / NS).
Proof.
  intro t. unfold vp_ceil, NS. cbv zeta. pose proof (Z.quot_rem t 1000000000 ltac:(lia)) as Q. pose proof (Z.rem_bound_abs t 1000000000 ltac:(lia)).
  destruct (Z.ltb_spec (Z.quot t 1000000000 * 1000000000) t).
  - rewrite <- (Z.div_unique (- t) 1000000000 (- (Z.quot t 1000000000 + 1)) ((Z.quot t 1000000000 + 1) * 1000000000 - t)); lia.
  - rewrite <- (Z.div_unique (- t) 1000000000 (- Z.quot t 1000000000) (Z.quot t 1000000000 * 1000000000 - t)); lia.
Qed.
Lemma i64_ok : forall z, instant z -> i64 z = Ok z.
Proof. intros z H. unfold i64, instant in *. replace ((- 2 ^ 63 <=? z) && (z <? 2 ^ 63)) with true by lia. reflexivity. Qed.
Lemma round_second : forall nb na, roundable nb na -> second (vp_ceil nb) /\ second (vp_floor na).
Proof. intros nb na (H1 & H2 & H3 & H4). rewrite !second_iff, minTime_is, maxTime_is, ceil_is, floor_is. unfold instant, NS in *. lia. Qed.
Lemma valid_is : forall p now, second (vp_nb p) -> second (vp_na p) -> vp_isValid p now = Ok ((vp_nb p * 1000000000 <=? now) && (now <=? vp_na p * 1000000000)).
Proof.
  intros p now A B. unfold vp_isValid, NS. rewrite i64_ok by exact A. cbn [bind]. destruct (Z.leb_spec (vp_nb p * 1000000000) now); [|reflexivity]. rewrite i64_ok by exact B. reflexivity.
Qed.

(* times on the wire *)
Lemma toIso_second : forall s, second s -> is_iso s (toIsoString s).
Proof. intros s H. apply toIso_is. pose proof (second_year s H). lia. Qed.
Lemma iso_inj : forall s t v, is_iso s v -> is_iso t v -> s = t.
Proof. intros s t v A B. pose proof (iso_order _ _ _ _ A B) as X. pose proof (iso_order _ _ _ _ B A) as Y. rewrite str_lt_irrefl in X, Y. lia. Qed.
Lemma clamped_iff : forall s r, clamped s r <-> r = Z.max minTime (Z.min s maxTime).
Proof.
  intros s r. unfold clamped. setoid_rewrite second_iff. rewrite minTime_is, maxTime_is. split.
  - intros (H1 & H2 & H3). destruct (Z.lt_ge_cases s (-9223372036)); [|destruct (Z.lt_ge_cases 9223372036 s)].
    + specialize (H3 ltac:(lia) (-9223372036) ltac:(lia)). lia.
    + specialize (H3 ltac:(lia) 9223372036 ltac:(lia)). lia.
    + rewrite H2 by lia. lia.
  - intros ->. splits; intros; lia.
Qed.
Lemma decode_iso : forall other s v, is_iso s v -> decodeTimePoint other v = Ok (Z.max minTime (Z.min s maxTime)).
Proof.
  intros other s v I. unfold decodeTimePoint.
  assert (Lo : is_iso minTime (toIsoString minTime)) by (apply toIso_second, second_iff; rewrite minTime_is, maxTime_is; lia).
  assert (Hi : is_iso maxTime (toIsoString maxTime)) by (apply toIso_second, second_iff; rewrite minTime_is, maxTime_is; lia).
  rewrite (iso_order _ _ _ _ I Lo), (iso_order _ _ _ _ Hi I). destruct (Z.ltb_spec s minTime); [rewrite Z.max_l; [reflexivity|lia]|].
  destruct (Z.ltb_spec maxTime s); [rewrite Z.min_r, Z.max_r; [reflexivity|rewrite minTime_is, maxTime_is; lia|lia]|].
  unfold fromIsoString. rewrite (proj2 (fromIso_iff v s)).
  - f_equal. lia.
  - split; [exact I|]. pose proof (second_year s). rewrite second_iff in H1. lia.
Qed.
Lemma decode_reads : forall other v r, decodeTimePoint other v = Ok r <-> reads other v r.
Proof.
  intros other v r.
  assert (Lo : is_iso minTime (toIsoString minTime)) by (apply toIso_second, second_iff; rewrite minTime_is, maxTime_is; lia).
  assert (Hi : is_iso maxTime (toIsoString maxTime)) by (apply toIso_second, second_iff; rewrite minTime_is, maxTime_is; lia).
  destruct (fromIsoFields v) as [s|] eqn:F.
  - apply fromIso_iff in F. destruct F as [I _]. rewrite (decode_iso other s v I). split.
    + intro H. injection H as <-. left. exists s. split; [exact I|]. apply clamped_iff. reflexivity.
    + intros [(s' & I' & C)|(N & _)]; [|elim (N s I)]. rewrite (iso_inj _ _ _ I I'). apply clamped_iff in C. congruence.
  - destruct (iso_dec v) as [[s I]|N].
    + rewrite (decode_iso other s v I). split.
      * intro H. injection H as <-. left. exists s. split; [exact I|]. apply clamped_iff. reflexivity.
      * intros [(s' & I' & C)|(N & _)]; [|elim (N s I)]. rewrite (iso_inj _ _ _ I I'). apply clamped_iff in C. congruence.
    + split.
      * intro H. right. split; [exact N|]. exists minTime, maxTime, (toIsoString minTime), (toIsoString maxTime). split; [reflexivity|]. split; [reflexivity|]. split; [exact Lo|]. split; [exact Hi|].
        unfold decodeTimePoint in H. destruct (str_lt v (toIsoString minTime)); [left; split; [reflexivity|congruence]|]. right. destruct (str_lt (toIsoString maxTime) v); [left; split; [reflexivity|congruence]|].
        right. unfold fromIsoString in H. rewrite F in H. auto.
      * intros [(s' & I' & C)|(_ & lo & hi & vlo & vhi & -> & -> & L1 & L2 & H)]; [elim (N _ I')|]. unfold decodeTimePoint, fromIsoString. rewrite F.
        assert (U : forall s a b, is_iso s a -> is_iso s b -> a = b).
        { intros s a b (n & d & h & m & c & vy & vm & vd & vh & vmi & vs & D & E & Hh & Hm & Hc & D1 & D2 & D3 & D4 & D5 & D6 & ->)
                 (n' & d' & h' & m' & c' & vy' & vm' & vd' & vh' & vmi' & vs' & D' & E' & Hh' & Hm' & Hc' & D1' & D2' & D3' & D4' & D5' & D6' & ->).
          assert (n = n' /\ h = h' /\ m = m' /\ c = c') by lia. destruct H0 as (<- & <- & <- & <-). apply is_day_unique in D, D'. subst d d'.
          rewrite (digits_inj _ _ _ _ D1 D1'), (digits_inj _ _ _ _ D2 D2'), (digits_inj _ _ _ _ D3 D3'), (digits_inj _ _ _ _ D4 D4'), (digits_inj _ _ _ _ D5 D5'), (digits_inj _ _ _ _ D6 D6'). reflexivity. }
        rewrite (U _ _ _ L1 Lo) in H. rewrite (U _ _ _ L2 Hi) in H.
        destruct H as [[H1 ->]|[[H1 ->]|(H1 & H2 & H3)]].
        -- rewrite H1. reflexivity.
        -- rewrite H1. destruct (str_lt v (toIsoString minTime)) eqn:K; [|reflexivity].
           assert (TR : forall a b c : bytes, str_lt a b = true -> str_lt b c = true -> str_lt a c = true).
           { induction a as [|x a IH]; intros [|y b] [|z c]; cbn [str_lt]; try discriminate; try reflexivity. destruct (N.ltb_spec (bn x) (bn y)).
             - intros _. destruct (N.ltb_spec (bn y) (bn z)); [intros _; replace (bn x <? bn z)%N with true by lia; reflexivity|].
               destruct (N.ltb_spec (bn z) (bn y)); [discriminate|]. intros _. replace (bn x <? bn z)%N with true by lia. reflexivity.
             - destruct (N.ltb_spec (bn y) (bn x)); [discriminate|]. intro A. destruct (N.ltb_spec (bn y) (bn z)); [intros _; replace (bn x <? bn z)%N with true by lia; reflexivity|].
               destruct (N.ltb_spec (bn z) (bn y)); [discriminate|]. intro B. replace (bn x <? bn z)%N with false by lia. replace (bn z <? bn x)%N with false by lia. eapply IH; eassumption. }
           pose proof (TR _ _ _ H1 K) as X. rewrite (iso_order _ _ _ _ Hi Lo) in X. rewrite minTime_is, maxTime_is in X. discriminate.
        -- rewrite H1, H2. exact H3.
Qed.


(* the codec *)
Lemma read_iff : forall other w p, vp_read other w = Ok p <->
  exists va vb e, period_octets va vb w /\ nlen va = 15%N /\ nlen vb = 15%N /\ reads other va (vp_nb p) /\ reads other vb (vp_na p) /\ vp_wire p = Some e /\ blockFromWire w = Ok e.
Proof.
  intros other w p. unfold vp_read. split.
  - intro H. inv_bind H. apply blockFromWire_inv in E. destruct E as [W ->]. unfold vp_ofBlock, vp_wireDecode in H.
    destruct (N.eqb_spec (e_type a) tValidityPeriod) as [T|]; [|discriminate]. cbn [negb] in H.
    destruct (parseValue (e_val a)) as [[|x [|y [|]]]|] eqn:P; try discriminate. apply parseValue_ok_iff in P. destruct P as [F V].
    destruct (N.eqb_spec (e_type x) tNotBefore) as [T1|]; [|discriminate]. destruct (N.eqb_spec (nlen (e_val x)) 15) as [L1|]; [|discriminate]. cbn [negb orb] in H.
    destruct (N.eqb_spec (e_type y) tNotAfter) as [T2|]; [|discriminate]. destruct (N.eqb_spec (nlen (e_val y)) 15) as [L2|]; [|discriminate]. cbn [negb orb] in H.
    destruct (decodeTimePoint other (e_val x)) as [r1|] eqn:D1; [|discriminate]. destruct (decodeTimePoint other (e_val y)) as [r2|] eqn:D2; [|discriminate]. injection H as <-.
    inversion F as [|? ? W1 F']. inversion F' as [|? ? W2 _]. subst. exists (e_val x), (e_val y), a. cbn [vp_nb vp_na vp_wire]. splits; auto.
    + exists (e_wire x), (e_wire y). splits; apply is_tlv_elem; [exists x; auto|exists y; auto|exists a]. splits; auto. rewrite V. cbn [map concat]. rewrite app_nil_r. reflexivity.
    + apply decode_reads. exact D1.
    + apply decode_reads. exact D2.
    + apply blockFromWire_wf. exact W.
  - intros (va & vb & e & (a & b & A & B & P) & L1 & L2 & R1 & R2 & Wi & We).
    apply is_tlv_elem in A. destruct A as (x & W1 & T1 & V1 & <-). apply is_tlv_elem in B. destruct B as (y & W2 & T2 & V2 & <-). apply is_tlv_elem in P. destruct P as (z & W & T & V & <-).
    rewrite blockFromWire_wf by exact W. cbn [bind].
    unfold vp_ofBlock, vp_wireDecode. rewrite T. change (negb (253 =? tValidityPeriod)%N) with false. cbv iota.
    assert (PV : parseValue (e_val z) = Ok [x; y]). { apply parseValue_ok_iff. split; [auto|]. cbn [map concat]. rewrite app_nil_r. exact V. }
    rewrite PV, T1, T2, V1, V2, L1, L2. cbn [negb orb N.eqb]. change (254 =? tNotBefore)%N with true. change (255 =? tNotAfter)%N with true. change (15 =? 15)%N with true. cbn [negb orb].
    rewrite (proj2 (decode_reads other va _) R1), (proj2 (decode_reads other vb _) R2). destruct p as [nb na wi]. cbn [vp_nb vp_na vp_wire] in *. subst wi.
    rewrite blockFromWire_wf in We by exact W. injection We as ->. reflexivity.
Qed.
Lemma clamped_second : forall s r, clamped s r -> second r.
Proof. intros s r H. apply H. Qed.
Lemma second_clamped : forall s, second s -> clamped s s.
Proof. intros s H. unfold clamped. split; [exact H|]. split; [reflexivity|]. intro N. contradiction. Qed.
Lemma reads_second : forall other v r, honest other -> reads other v r -> second r.
Proof.
  intros other v r Ho [(s & _ & C)|(_ & lo & hi & vlo & vhi & -> & -> & _ & _ & [[_ ->]|[[_ ->]|(_ & _ & H)]])].
  - apply C.
  - apply second_iff. rewrite minTime_is, maxTime_is. lia.
  - apply second_iff. rewrite minTime_is, maxTime_is. lia.
  - apply (Ho v r H).
Qed.
Lemma encode_octets : forall p, second (vp_nb p) -> second (vp_na p) -> elem_wf (vp_encode p) /\ period_octets (toIsoString (vp_nb p)) (toIsoString (vp_na p)) (e_wire (vp_encode p)).
Proof.
  intros p A B. pose proof (iso_len _ _ (toIso_second _ A)) as L1. pose proof (iso_len _ _ (toIso_second _ B)) as L2.
  assert (W1 : elem_wf (mkBlock tNotBefore (toIsoString (vp_nb p)))) by (apply mkBlock_wf; [reflexivity|reflexivity|rewrite L1; reflexivity]).
  assert (W2 : elem_wf (mkBlock tNotAfter (toIsoString (vp_na p)))) by (apply mkBlock_wf; [reflexivity|reflexivity|rewrite L2; reflexivity]).
  assert (W : elem_wf (vp_encode p)).
  { unfold vp_encode. apply mkBlock_wf; [reflexivity|reflexivity|]. rewrite !mkBlock_wire, nlen_app. unfold tlv_enc. rewrite !nlen_app, L1, L2. reflexivity. }
  split; [exact W|]. exists (e_wire (mkBlock tNotBefore (toIsoString (vp_nb p)))), (e_wire (mkBlock tNotAfter (toIsoString (vp_na p)))).
  splits; apply is_tlv_elem; [exists (mkBlock tNotBefore (toIsoString (vp_nb p)))|exists (mkBlock tNotAfter (toIsoString (vp_na p)))|exists (vp_encode p)]; auto.
Qed.
Lemma encode_read : forall other p, second (vp_nb p) -> second (vp_na p) -> vp_read other (e_wire (vp_encode p)) = Ok (mkVp (vp_nb p) (vp_na p) (Some (vp_encode p))).
Proof.
  intros other p A B. destruct (encode_octets p A B) as [W O]. apply read_iff. exists (toIsoString (vp_nb p)), (toIsoString (vp_na p)), (vp_encode p). cbn [vp_nb vp_na vp_wire].
  splits; [exact O|apply (iso_len (vp_nb p)), toIso_second, A|apply (iso_len (vp_na p)), toIso_second, B| | |reflexivity|].
  - left. exists (vp_nb p). split; [apply toIso_second, A|apply second_clamped, A].
  - left. exists (vp_na p). split; [apply toIso_second, B|apply second_clamped, B].
  - apply blockFromWire_wf, W.
Qed.
(* the invariant of an object *)
Definition vinv (other : bytes -> res Z) (p : validity) : Prop :=
  second (vp_nb p) /\ second (vp_na p) /\ forall e, vp_wire p = Some e -> vp_read other (e_wire e) = Ok p.
Lemma v_step_inv : forall other o p p', honest other -> vop_ok o -> vinv other p -> v_step other o p = (p', None) -> vinv other p'.
Proof.
  intros other [nb na| |w] p p' Ho OK (A & B & C) H; cbn [v_step] in H.
  - injection H as <-. unfold vp_setPeriod, vp_make. destruct (round_second _ _ OK). unfold vinv. cbn [vp_nb vp_na vp_wire]. splits; auto. discriminate.
  - injection H as <-. unfold vp_wireEncode. destruct (vp_wire p) as [e|] eqn:E; [unfold vinv; cbn [fst]; splits; auto; rewrite E; exact C|]. cbv zeta. cbn [fst]. unfold vinv. cbn [vp_nb vp_na vp_wire]. splits; auto.
    intros e1 X. injection X as <-. apply encode_read; assumption.
  - destruct (blockFromWire w) as [e|] eqn:E; [|discriminate].
    assert (R : vp_read other w = Ok p').
    { unfold vp_read. rewrite E. cbn [bind]. unfold vp_ofBlock. unfold vp_wireDecode in *. destruct (negb (e_type e =? tValidityPeriod)%N); [discriminate|].
      destruct (parseValue (e_val e)) as [[|x [|y [|]]]|]; try discriminate. destruct (negb (e_type x =? tNotBefore)%N || negb (nlen (e_val x) =? 15)%N); [discriminate|].
      destruct (negb (e_type y =? tNotAfter)%N || negb (nlen (e_val y) =? 15)%N); [discriminate|].
      destruct (decodeTimePoint other (e_val x)); [|discriminate]. destruct (decodeTimePoint other (e_val y)); [|discriminate]. injection H as <-. reflexivity. }
    pose proof R as R'. apply read_iff in R'. destruct R' as (va & vb & e' & _ & _ & _ & R1 & R2 & Wi & We). unfold vinv. splits.
    + eapply reads_second; eauto.
    + eapply reads_second; eauto.
    + intros e0 X. rewrite Wi in X. injection X as ->. rewrite E in We. injection We as ->. apply blockFromWire_inv in E. destruct E as [_ <-]. exact R.
Qed.
Lemma v_run_inv : forall other l p p', honest other -> Forall vop_ok l -> vinv other p -> v_run other l p = Some p' -> vinv other p'.
Proof.
  intros other. induction l as [|o l IH]; intros p p' Ho F I H; cbn [v_run] in H; [congruence|]. inversion F; subst.
  destruct (v_step other o p) as [p1 [e|]] eqn:E; [discriminate|]. apply (IH p1); auto. eapply v_step_inv; eauto.
Qed.

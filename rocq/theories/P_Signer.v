From Coq Require Import ZArith List Lia ZifyBool ZifyNat ZifyN.
From Verif Require Import Base BaseLemmas M_Tlv M_Name M_Packet M_Control M_Signer S_Tlv S_Name S_Signer P_Tlv P_Name P_NameUri P_NameOrder P_Control.
Import ListNotations.
Open Scope N_scope.

Lemma wants_bit : forall f k, wants (2 ^ k) f = N.testbit f k.
Proof.
  intros f k. unfold wants. destruct (N.testbit f k) eqn:E.
  - destruct (N.eqb_spec (N.land f (2 ^ k)) 0) as [Z|]; [|reflexivity].
    assert (B : N.testbit (N.land f (2 ^ k)) k = true) by (rewrite N.land_spec, E, N.pow2_bits_true; reflexivity). rewrite Z, N.bits_0 in B. discriminate.
  - replace (N.land f (2 ^ k)) with 0; [reflexivity|]. symmetry. apply N.bits_inj. intro j. rewrite N.land_spec, N.bits_0, N.pow2_bits_eqb.
    destruct (N.eqb_spec k j) as [<-|]; [rewrite E; reflexivity|apply Bool.andb_false_r].
Qed.
Lemma wantsN : forall f, wants WantNonce f = N.testbit f 0. Proof. intro. apply (wants_bit f 0). Qed.
Lemma wantsT : forall f, wants WantTime f = N.testbit f 1. Proof. intro. apply (wants_bit f 1). Qed.
Lemma wantsS : forall f, wants WantSeqNum f = N.testbit f 2. Proof. intro. apply (wants_bit f 2). Qed.
Lemma wants_none : forall f, (N.land f (N.lor WantNonce (N.lor WantTime WantSeqNum)) =? 0) = negb (N.testbit f 0 || N.testbit f 1 || N.testbit f 2).
Proof.
  intro f. rewrite !N.land_lor_distr_r. rewrite <- wantsN, <- wantsT, <- wantsS. unfold wants.
  destruct (N.eqb_spec (N.lor (N.land f WantNonce) (N.lor (N.land f WantTime) (N.land f WantSeqNum))) 0) as [E|E].
  - apply N.lor_eq_0_iff in E. destruct E as [E1 E]. apply N.lor_eq_0_iff in E. destruct E as [E2 E3]. rewrite E1, E2, E3. reflexivity.
  - destruct (N.eqb_spec (N.land f WantNonce) 0) as [E1|]; [|reflexivity]. destruct (N.eqb_spec (N.land f WantTime) 0) as [E2|]; [|reflexivity].
    destruct (N.eqb_spec (N.land f WantSeqNum) 0) as [E3|]; [|reflexivity]. rewrite E1, E2, E3 in E. elim E. reflexivity.
Qed.

(* custom elements *)
Lemma find_replace : forall b l, match replace_first b l with
  | None => find (fun x => c_type x =? c_type b) l = None
  | Some (r, ch) => (exists y, find (fun x => c_type x =? c_type b) (if ch then r else l) = Some y /\ c_val y = c_val b) /\
                    (forall t, t <> c_type b -> find (fun x => c_type x =? t) r = find (fun x => c_type x =? t) l) end.
Proof.
  intros b. induction l as [|x l IH]; [reflexivity|]. cbn [replace_first].
  destruct (c_type x =? c_type b) eqn:E.
  - destruct (comp_eqb x b) eqn:Q.
    + split; [|reflexivity]. exists x. cbn [find]. rewrite E. split; [reflexivity|]. apply comp_eqb_eq in Q. unfold ckey in Q. congruence.
    + split. { exists b. cbn [find]. rewrite N.eqb_refl. auto. }
      intros t N. cbn [find]. apply N.eqb_eq in E. rewrite E. destruct (N.eqb_spec (c_type b) t); [congruence|reflexivity].
  - destruct (replace_first b l) as [[r ch]|].
    + destruct IH as [[y [I1 I2]] I3]. split.
      * exists y. destruct ch; cbn [find]; rewrite E; auto.
      * intros t N. cbn [find]. destruct (c_type x =? t); auto.
    + cbn [find]. rewrite E. exact IH.
Qed.
Lemma find_snoc : forall (p : blk -> bool) l b, find p (l ++ [b]) = match find p l with Some y => Some y | None => if p b then Some b else None end.
Proof. intros p l b. induction l as [|x l IH]; cbn [app find]; [reflexivity|]. destruct (p x); auto. Qed.
Lemma si_add_get : forall b s, exists y, si_getCustomTlv (c_type b) (si_addCustomTlv b s) = Some y /\ c_val y = c_val b.
Proof.
  intros b s. unfold si_getCustomTlv, si_addCustomTlv. pose proof (find_replace b (si_other s)) as F.
  destruct (replace_first b (si_other s)) as [[r []]|].
  - destruct F as [F _]. exact F.
  - destruct F as [F _]. exact F.
  - cbn [si_other]. rewrite find_snoc. unfold blk in *. rewrite F, N.eqb_refl. eauto.
Qed.
Lemma si_add_other : forall b s t, t <> c_type b -> si_getCustomTlv t (si_addCustomTlv b s) = si_getCustomTlv t s.
Proof.
  intros b s t N. unfold si_getCustomTlv, si_addCustomTlv. pose proof (find_replace b (si_other s)) as F.
  destruct (replace_first b (si_other s)) as [[r []]|].
  - destruct F as [_ F]. apply F, N.
  - reflexivity.
  - cbn [si_other]. rewrite find_snoc. unfold blk in *. destruct (find (fun b0 : comp => c_type b0 =? t) (si_other s)); [reflexivity|]. destruct (N.eqb_spec (c_type b) t); [congruence|reflexivity].
Qed.
Lemma si_number_get : forall t v s, v < 2 ^ 64 -> si_getNumber t (si_setNumber t (Some v) s) = Ok (Some v).
Proof.
  intros t v s L. unfold si_getNumber, si_setNumber. destruct (si_add_get (comp_of_elem (mkNNIBlock t v)) s) as (y & Y & V).
  change (c_type (comp_of_elem (mkNNIBlock t v))) with t in Y. rewrite Y, V. change (c_val (comp_of_elem (mkNNIBlock t v))) with (encNNI v).
  rewrite encNNI_len. pose proof (readNNI_enc v [] L) as R. rewrite app_nil_r in R. rewrite R. reflexivity.
Qed.
Lemma si_number_other : forall t u v s, t <> u -> si_getCustomTlv t (si_setNumber u (Some v) s) = si_getCustomTlv t s.
Proof. intros t u v s N. unfold si_setNumber. apply si_add_other. exact N. Qed.
Lemma si_nonce_get : forall v s, si_getNonce (si_setNonce (Some v) s) = Some v.
Proof.
  intros v s. unfold si_getNonce, si_setNonce. destruct (si_add_get (comp_of_elem (mkBlock tSignatureNonce v)) s) as (y & Y & V).
  change (c_type (comp_of_elem (mkBlock tSignatureNonce v))) with tSignatureNonce in Y. rewrite Y, V. reflexivity.
Qed.
Lemma si_nonce_other : forall t v s, t <> tSignatureNonce -> si_getCustomTlv t (si_setNonce (Some v) s) = si_getCustomTlv t s.
Proof. intros t v s N. unfold si_setNonce. apply si_add_other. exact N. Qed.
Lemma si_add_head : forall b s, si_type (si_addCustomTlv b s) = si_type s /\ si_key (si_addCustomTlv b s) = si_key s.
Proof. intros b s. unfold si_addCustomTlv. destruct (replace_first b (si_other s)) as [[r []]|]; auto. Qed.

(* the clock *)
Definition MS : Z := 1000000.
Lemma fresh_ms : forall now s t s1, is_fresh now s = Ok (t, s1) -> (0 <= is_ts s)%Z ->
  is_ts s1 = t /\ is_seq s1 = is_seq s /\ (t / 1000000 = Z.max (now / 1000000) (is_ts s / 1000000 + 1))%Z /\ (t = now \/ t = is_ts s + 1000000)%Z /\ (0 <= t)%Z.
Proof.
  intros now s t s1 H P. unfold is_fresh in H. inv_bind H.
  assert (A : a = (now - is_ts s)%Z). { unfold i64 in E. destruct (_ && _)%bool; inversion E. reflexivity. }
  subst a. assert (A1 : ((is_ts s + 1000000) / 1000000 = is_ts s / 1000000 + 1)%Z). { replace (is_ts s + 1000000)%Z with (is_ts s + 1 * 1000000)%Z by lia. apply Z.div_add. discriminate. }
  destruct (Z.ltb_spec 0 (Z.quot (now - is_ts s) 1000000)) as [Q|Q].
  - injection H as H1 H2. subst t s1. cbn [is_ts is_seq].
    assert (G : ((1000000 <= now - is_ts s))%Z). { destruct (Z.lt_ge_cases (now - is_ts s) 1000000); [|lia]. destruct (Z.lt_ge_cases (now - is_ts s) 0).
      - pose proof (Z.quot_opp_l (now - is_ts s) 1000000 ltac:(lia)). pose proof (Z.quot_pos (- (now - is_ts s)) 1000000 ltac:(lia) ltac:(lia)). lia.
      - rewrite Z.quot_small in Q by lia. lia. }
    splits; auto; [|lia]. rewrite Z.max_l; [reflexivity|]. rewrite <- A1. apply Z.div_le_mono; lia.
  - inv_bind H. injection H as H1 H2. subst t s1. cbn [is_ts is_seq].
    assert (A : a = (is_ts s + 1000000)%Z). { unfold i64 in E0. destruct (_ && _)%bool; inversion E0. reflexivity. }
    subst a.
    assert (G : ((now - is_ts s < 1000000))%Z). { destruct (Z.lt_ge_cases (now - is_ts s) 1000000); [assumption|]. pose proof (Z.quot_le_mono 1000000 (now - is_ts s) 1000000 ltac:(lia) ltac:(lia)) as M. rewrite Z.quot_same in M by lia. lia. }
    splits; auto; [|lia]. rewrite Z.max_r; [lia|]. rewrite <- A1. apply Z.div_le_mono; lia.
Qed.
Lemma fresh_total : forall now s, (- 2 ^ 61 <= now <= 2 ^ 62)%Z -> (0 <= is_ts s < 2 ^ 62 + 2 ^ 61 - 1000000)%Z -> exists t s1, is_fresh now s = Ok (t, s1).
Proof.
  intros now s H1 H2. unfold is_fresh, i64. replace ((- 2 ^ 63 <=? now - is_ts s) && (now - is_ts s <? 2 ^ 63))%Z with true by lia. cbn [bind].
  destruct (0 <? Z.quot (now - is_ts s) 1000000)%Z; [eauto|]. replace ((- 2 ^ 63 <=? is_ts s + 1000000) && (is_ts s + 1000000 <? 2 ^ 63))%Z with true by lia. cbn [bind]. eauto.
Qed.
Lemma unix_ms_is : forall t, (0 <= t < 2 ^ 63)%Z -> unix_ms t = Z.to_N (t / 1000000) /\ unix_ms t < 2 ^ 64.
Proof.
  intros t H. unfold unix_ms, time_u64. rewrite Z.quot_div_nonneg by lia.
  assert (B : (0 <= t / 1000000 < 2 ^ 63)%Z). { split; [apply Z.div_pos; lia|]. apply Z.div_lt_upper_bound; lia. }
  rewrite Z.mod_small by lia. split; [reflexivity|lia].
Qed.
Lemma toNumber_from : forall n, n < 2 ^ 64 -> exists c, fromNumber n tGenericNameComponent = Ok c /\ toNumber c = Ok n.
Proof.
  intros n L. exists (comp_of_elem (mkNNIBlock tGenericNameComponent n)). split.
  - unfold fromNumber, comp_ofBlock. apply ensureValid_iff. split; [|reflexivity]. unfold valid_key, ckey. splits; try discriminate. intros [H|H]; discriminate H.
  - unfold toNumber, isNumber. change (c_val (comp_of_elem (mkNNIBlock tGenericNameComponent n))) with (encNNI n).
    pose proof (readNNI_enc n [] L) as R. rewrite app_nil_r in R. rewrite encNNI_len, R.
    destruct (sizeOfNNI_cases n) as [E|[E|[E|E]]]; rewrite E; reflexivity.
Qed.

Lemma fromNumber_ok : forall n, fromNumber n tGenericNameComponent = Ok (comp_of_elem (mkNNIBlock tGenericNameComponent n)).
Proof.
  intros n. unfold fromNumber, comp_ofBlock. apply ensureValid_iff. split; [|reflexivity]. unfold valid_key, ckey. splits; try discriminate. intros [H|H]; discriminate H.
Qed.
Lemma stamped_fun : forall o r a b, stamped o r a -> stamped o r b -> a = b.
Proof.
  intros [i f x now|n x now] [[v|v]|e] a b; cbn [stamped]; try contradiction.
  - congruence.
  - intros (c1 & c2 & E & A & _) (d1 & d2 & F & B & _). rewrite E in F. apply app_inv_head in F. injection F as -> ->. congruence.
Qed.

Definition in_range (s : isigner) : Prop := (0 <= is_ts s < 2 ^ 63)%Z /\ is_seq s < two64.

Ltac si_simp := repeat first
  [ rewrite si_number_get by assumption | rewrite si_nonce_get ].

Lemma getNumber_custom : forall t a b, si_getCustomTlv t a = si_getCustomTlv t b -> si_getNumber t a = si_getNumber t b.
Proof. intros t a b H. unfold si_getNumber. rewrite H. reflexivity. Qed.
Lemma getNonce_custom : forall a b, si_getCustomTlv tSignatureNonce a = si_getCustomTlv tSignatureNonce b -> si_getNonce a = si_getNonce b.
Proof. intros a b H. unfold si_getNonce. rewrite H. reflexivity. Qed.
Lemma setNumber_head : forall t v s, si_type (si_setNumber t (Some v) s) = si_type s /\ si_key (si_setNumber t (Some v) s) = si_key s.
Proof. intros. apply si_add_head. Qed.
Lemma setNonce_head : forall v s, si_type (si_setNonce (Some v) s) = si_type s /\ si_key (si_setNonce (Some v) s) = si_key s.
Proof. intros. apply si_add_head. Qed.

Lemma fresh_range : forall now s t s1, is_fresh now s = Ok (t, s1) -> (- 2 ^ 63 <= now < 2 ^ 63)%Z -> in_range s -> in_range s1 /\ (is_ts s <= t)%Z.
Proof.
  intros now s t s1 H B [R1 R2]. destruct (fresh_ms _ _ _ _ H ltac:(lia)) as (A1 & A2 & A3 & A4 & A5). unfold in_range. rewrite A1, A2.
  assert (T : (t < 2 ^ 63)%Z). { unfold is_fresh in H. inv_bind H. destruct (0 <? _)%Z; [injection H as <- _; lia|]. inv_bind H. injection H as -> _. unfold i64 in E0.
    destruct ((- 2 ^ 63 <=? is_ts s + 1000000) && (is_ts s + 1000000 <? 2 ^ 63))%Z eqn:Q; [|discriminate]. injection E0 as <-. lia. }
  split; [split; [lia|exact R2]|]. destruct A4; [|lia]. destruct (Z.lt_ge_cases now (is_ts s)); [|lia].
  pose proof (Z.div_le_mono now (is_ts s) 1000000 ltac:(lia) ltac:(lia)). lia.
Qed.

Lemma step_ok : forall o s s1 r, is_step o s = (s1, r) -> (- 2 ^ 63 <= clock o < 2 ^ 63)%Z -> in_range s ->
  (useless o = true /\ s1 = s /\ r = Err EInvalidArg) \/
  (useless o = false /\ timed o = true /\ s1 = s /\ r = Err EUb /\ is_fresh (clock o) s = Err EUb) \/
  (useless o = false /\ in_range s1 /\ rest_kept o r /\
   (if timed o then stamped o r (Z.to_N (is_ts s1 / 1000000)) /\ (exists t s0, is_fresh (clock o) s = Ok (t, s0) /\ is_ts s1 = t) else is_ts s1 = is_ts s) /\
   (if numbered o then is_seq s1 = (is_seq s + 1) mod two64 /\ seq_is r (is_seq s1) else is_seq s1 = is_seq s)).
Proof.
  intros o s s1 r H B R.
  assert (FE : forall now e, is_fresh now s = Err e -> e = EUb).
  { intros now e F. unfold is_fresh, i64 in F. destruct (_ && _)%bool in F; cbn [bind] in F; [|congruence]. destruct (0 <? _)%Z in F; [discriminate|].
    destruct (_ && _)%bool in F; cbn [bind] in F; congruence. }
  destruct o as [i f x now|n x now]; cbn [clock] in B.
  - cbn [is_step] in H. destruct (is_signed i f x now s) as [s2 q] eqn:Q. injection H as <- <-. unfold is_signed in Q. rewrite wants_none, wantsN, wantsT, wantsS in Q.
    cbn [useless timed numbered clock]. destruct (negb (N.testbit f 0 || N.testbit f 1 || N.testbit f 2)) eqn:U.
    { left. injection Q as <- <-. auto. }
    right. set (i1 := if N.testbit f 0 then si_setNonce (Some x) i else i) in *.
    assert (I1 : si_type i1 = si_type i /\ si_key i1 = si_key i /\ (if N.testbit f 0 then si_getNonce i1 = Some x else si_getNonce i1 = si_getNonce i) /\
                 forall t, t <> tSignatureNonce -> si_getCustomTlv t i1 = si_getCustomTlv t i).
    { subst i1. destruct (N.testbit f 0); [|auto]. splits; try apply setNonce_head; [apply si_nonce_get|]. intros. apply si_nonce_other. assumption. }
    clearbody i1. destruct I1 as (T1 & K1 & N1 & O1).
    assert (STEP : forall s2' i2, (if N.testbit f 1 then let! r0 := is_fresh now s in Ok (snd r0, si_setNumber tSignatureTime (Some (unix_ms (fst r0))) i1) else Ok (s, i1)) = Ok (s2', i2) ->
       in_range s2' /\ is_seq s2' = is_seq s /\ si_type i2 = si_type i /\ si_key i2 = si_key i /\ si_getNonce i2 = si_getNonce i1 /\
       (if N.testbit f 1 then si_getNumber tSignatureTime i2 = Ok (Some (Z.to_N (is_ts s2' / 1000000))) /\ (exists t s0, is_fresh now s = Ok (t, s0) /\ is_ts s2' = t)
        else is_ts s2' = is_ts s /\ si_getNumber tSignatureTime i2 = si_getNumber tSignatureTime i) /\
       forall t, t <> tSignatureNonce -> t <> tSignatureTime -> si_getCustomTlv t i2 = si_getCustomTlv t i).
    { intros s2' i2. destruct (N.testbit f 1).
      - destruct (is_fresh now s) as [[t s0]|e] eqn:F; cbn [bind]; [|discriminate]. cbn [fst snd]. intro X. assert (X1 : s0 = s2') by congruence. assert (X2 : si_setNumber tSignatureTime (Some (unix_ms t)) i1 = i2) by congruence. clear X. subst s0 i2.
        destruct (fresh_range _ _ _ _ F B R) as [R2 _]. destruct (fresh_ms _ _ _ _ F ltac:(apply R)) as (A1 & A2 & A3 & A4 & A5).
        destruct (unix_ms_is t) as [M1 M2]. { rewrite <- A1. apply R2. }
        splits; auto.
        + rewrite <- T1. apply setNumber_head.
        + rewrite <- K1. apply setNumber_head.
        + apply getNonce_custom. apply si_number_other. discriminate.
        + rewrite A1, <- M1. apply si_number_get. assumption.
        + eauto.
        + intros u U1 U2. rewrite si_number_other by assumption. apply O1. assumption.
      - intro X. injection X as <- <-. splits; auto. apply getNumber_custom. apply O1. discriminate. }
    destruct (if N.testbit f 1 then _ else Ok (s, i1)) as [[s2' i2]|e] eqn:G.
    + destruct (STEP _ _ eq_refl) as (R2 & Q2 & T2 & K2 & N2 & TT & O2). right.
      assert (L : (is_seq s2' + 1) mod two64 < two64) by (apply N.mod_lt; discriminate).
      destruct (N.testbit f 2) eqn:B2.
      * set (i3 := si_setNumber _ _ i2) in Q. assert (I3 : i3 = si_setNumber tSignatureSeqNum (Some ((is_seq s2' + 1) mod two64)) i2) by reflexivity. clearbody i3.
        injection Q as <- <-. subst i3. cbn [is_ts is_seq bind rest_kept stamped seq_is]. split; [reflexivity|]. split; [split; [apply R2|exact L]|].
        split.
        { splits; try (rewrite <- ?T2, <- ?K2; apply setNumber_head).
          - replace (si_getNonce (si_setNumber tSignatureSeqNum (Some ((is_seq s2' + 1) mod two64)) i2)) with (si_getNonce i1); [exact N1|].
            rewrite <- N2. symmetry. apply getNonce_custom, si_number_other. discriminate.
          - intro B1. rewrite B1 in TT. destruct TT as [_ <-]. apply getNumber_custom, si_number_other. discriminate.
          - congruence.
          - intros t U1 U2 U3. rewrite si_number_other by assumption. apply O2; assumption. }
        split.
        { destruct (N.testbit f 1); [|apply TT]. destruct TT as [TT FF]. split; [|exact FF]. rewrite <- TT. apply getNumber_custom, si_number_other. discriminate. }
        split; [congruence|]. apply si_number_get. exact L.
      * injection Q as <- <-. cbn [bind rest_kept stamped]. split; [reflexivity|]. split; [exact R2|]. split.
        { splits; auto.
          - rewrite N2. exact N1.
          - intro B1. rewrite B1 in TT. apply TT.
          - intros _. apply getNumber_custom, O2; discriminate. }
        split; [|exact Q2]. destruct (N.testbit f 1); [exact TT|apply TT].
    + left. injection Q as <- <-. destruct (N.testbit f 1); [|discriminate G]. destruct (is_fresh now s) as [[t s0]|e'] eqn:F; [discriminate G|]. cbn [bind] in G. injection G as <-.
      pose proof (FE _ _ F) as ->. splits; reflexivity.
  - right. cbn [useless timed numbered clock]. cbn [is_step] in H. unfold is_command in H. destruct (is_fresh now s) as [[t s0]|e] eqn:F.
    + right. rewrite !fromNumber_ok in H. cbn [bind] in H. injection H as <- <-.
      destruct (fresh_range _ _ _ _ F B R) as [R2 _]. destruct (fresh_ms _ _ _ _ F ltac:(apply R)) as (A1 & A2 & A3 & A4 & A5).
      destruct (unix_ms_is t) as [M1 M2]. { rewrite <- A1. apply R2. }
      split; [reflexivity|]. split; [exact R2|]. split; [exact Logic.I|]. split; [|exact A2]. split; [|eauto].
      cbn [stamped]. do 2 eexists. unfold nm_append. cbn [n_comps]. rewrite <- app_assoc. split; [reflexivity|]. rewrite A1, <- M1. split.
      * destruct (toNumber_from (unix_ms t) M2) as (c & C1 & C2). rewrite fromNumber_ok in C1. injection C1 as <-. exact C2.
      * intro X. destruct (toNumber_from x X) as (c & C1 & C2). rewrite fromNumber_ok in C1. injection C1 as <-. exact C2.
    + left. injection H as <- <-. pose proof (FE _ _ F) as ->. splits; reflexivity.
Qed.

(* histories *)
Lemma run_increasing : forall l s s1 rs, is_run l s = (s1, rs) -> in_range s -> Forall (fun o => (- 2 ^ 63 <= clock o < 2 ^ 63)%Z) l ->
  length rs = length l /\ in_range s1 /\
  (forall j o r b, nth_error l j = Some o -> nth_error rs j = Some r -> timed o = true -> stamped o r b -> (is_ts s / 1000000 < Z.of_N b)%Z /\ (clock o / 1000000 <= Z.of_N b)%Z) /\
  (forall i j o1 r1 a o2 r2 b, (i < j)%nat -> nth_error l i = Some o1 -> nth_error rs i = Some r1 -> timed o1 = true -> stamped o1 r1 a ->
     nth_error l j = Some o2 -> nth_error rs j = Some r2 -> timed o2 = true -> stamped o2 r2 b -> a < b).
Proof.
  induction l as [|o l IH]; intros s s1 rs H R F.
  { injection H as <- <-. splits; auto; intros [|?]; intros; discriminate. }
  cbn [is_run] in H. destruct (is_step o s) as [s2 r] eqn:St. destruct (is_run l s2) as [s3 rs'] eqn:Rn. injection H as <- <-. inversion F as [|? ? F1 F2]; subst.
  assert (G : in_range s2 /\ (is_ts s / 1000000 <= is_ts s2 / 1000000)%Z /\
              forall b, timed o = true -> stamped o r b -> b = Z.to_N (is_ts s2 / 1000000) /\ (is_ts s / 1000000 < is_ts s2 / 1000000)%Z /\ (clock o / 1000000 <= is_ts s2 / 1000000)%Z).
  { assert (NO : forall e b, stamped o (Err e) b -> False) by (intros e b; destruct o; cbn [stamped]; auto).
    destruct (step_ok _ _ _ _ St F1 R) as [(U & -> & ->)|[(U & T & -> & -> & _)|(U & R2 & _ & TT & _)]].
    - splits; [exact R|reflexivity|]. intros b _ X. elim (NO _ _ X).
    - splits; [exact R|reflexivity|]. intros b _ X. elim (NO _ _ X).
    - split; [exact R2|]. destruct (timed o) eqn:T.
      + destruct TT as (S1 & t & s0 & FR & S2). destruct (fresh_ms _ _ _ _ FR ltac:(apply R)) as (A1 & A2 & A3 & A4 & A5). rewrite S2. split; [lia|].
        intros b _ X. rewrite S2 in S1. split; [eapply stamped_fun; eauto|lia].
      + rewrite TT. split; [reflexivity|]. intros; discriminate. }
  destruct G as (R2 & LE & ST). destruct (IH _ _ _ Rn R2 F2) as (I1 & I2 & I3 & I4). splits.
  - cbn [length]. rewrite I1. reflexivity.
  - exact I2.
  - intros [|j] o' r' b N1 N2 T X; cbn [nth_error] in N1, N2.
    + injection N1 as <-. injection N2 as <-. destruct (ST _ T X) as (-> & L1 & L2). destruct R as [R _]. pose proof (Z.div_pos (is_ts s) 1000000 ltac:(lia) ltac:(lia)). lia.
    + destruct (I3 _ _ _ _ N1 N2 T X). lia.
  - intros [|i] [|j] o1 r1 a o2 r2 b L N1 N2 T X M1 M2 T' X'; cbn [nth_error] in *; try lia.
    + injection N1 as <-. injection N2 as <-. destruct (ST _ T X) as (-> & L1 & L2). destruct (I3 _ _ _ _ M1 M2 T' X') as [L3 _]. destruct R as [R _]. pose proof (Z.div_pos (is_ts s) 1000000 ltac:(lia) ltac:(lia)). lia.
    + eapply (I4 i j); eauto. lia.
Qed.

Lemma run_exact : forall l s s1 rs, is_run l s = (s1, rs) -> in_range s -> Forall sane l -> (is_ts s <= 2 ^ 62 + 2 ^ 61 - 1000000 * (Z.of_nat (length l) + 1))%Z -> (1000000 * (Z.of_nat (length l) + 1) <= 2 ^ 61)%Z ->
  forall i o r, nth_error l i = Some o -> nth_error rs i = Some r ->
  if useless o then r = Err EInvalidArg
  else rest_kept o r /\ (forall v, nth_error (expected (is_ts s / 1000000) l) i = Some (Some v) -> stamped o r v) /\
       (forall k, nth_error (expected_seq ((is_seq s + 1) mod two64) l) i = Some (Some k) -> seq_is r (k mod two64)).
Proof.
  assert (UT : forall o, useless o = true -> timed o = false /\ numbered o = false).
  { intros [i f x now|]; cbn [useless timed numbered]; [|discriminate]. destruct (N.testbit f 0), (N.testbit f 1), (N.testbit f 2); try discriminate. auto. }
  assert (SQ : forall l a b i k, a mod two64 = b mod two64 -> nth_error (expected_seq a l) i = Some (Some k) -> exists k', nth_error (expected_seq b l) i = Some (Some k') /\ k mod two64 = k' mod two64).
  { induction l as [|o l IH]; intros a b [|i] k E H; cbn [expected_seq nth_error] in *; try discriminate.
    - destruct (numbered o); cbn [nth_error] in *; [|discriminate]. injection H as <-. eauto.
    - destruct (numbered o); cbn [nth_error] in *; [|eauto]. apply (IH (a + 1) (b + 1)); auto.
      rewrite (N.add_mod a), (N.add_mod b) by discriminate. rewrite E. reflexivity. }
  induction l as [|o l IH]; intros s s1 rs H R F LE LE0 i o' r' N1 N2; [destruct i; discriminate|].
  cbn [is_run] in H. destruct (is_step o s) as [s2 r] eqn:St. destruct (is_run l s2) as [s3 rs'] eqn:Rn. injection H as <- <-. inversion F as [|? ? F1 F2]; subst.
  assert (C : (- 2 ^ 63 <= clock o < 2 ^ 63)%Z) by (unfold sane in F1; lia). cbn [length] in LE, LE0.
  assert (P0 : (0 <= is_ts s / 1000000)%Z) by (apply Z.div_pos; destruct R; lia).
  destruct (step_ok _ _ _ _ St C R) as [(U & -> & ->)|[(U & T & -> & -> & FR)|(U & R2 & K & TT & SS)]].
  - destruct (UT _ U) as [T NB]. destruct i as [|i]; cbn [nth_error] in N1, N2.
    + injection N1 as <-. injection N2 as <-. rewrite U. reflexivity.
    + cbn [expected expected_seq]. rewrite T, NB. cbn [nth_error]. apply (IH _ _ _ Rn R F2 ltac:(lia) ltac:(lia) i); assumption.
  - destruct (fresh_total (clock o) s F1) as (t & s0 & E); [destruct R; lia|congruence].
  - destruct i as [|i]; cbn [nth_error] in N1, N2.
    + injection N1 as <-. injection N2 as <-. rewrite U. split; [exact K|]. cbn [expected expected_seq]. split.
      * destruct (timed o); cbn [nth_error]; [|discriminate]. intros v X. injection X as <-. destruct TT as (S1 & t & s0 & FR & S2).
        destruct (fresh_ms _ _ _ _ FR ltac:(apply R)) as (A1 & A2 & A3 & A4 & A5). rewrite S2, A3 in S1. exact S1.
      * destruct (numbered o); cbn [nth_error]; [|discriminate]. intros k X. injection X as <-. destruct SS as [S1 S2]. rewrite <- S1. rewrite N.mod_small by apply R2. exact S2.
    + assert (LE2 : (is_ts s2 <= 2 ^ 62 + 2 ^ 61 - 1000000 * (Z.of_nat (length l) + 1))%Z /\
                    nth_error (expected (is_ts s / 1000000) (o :: l)) (S i) = nth_error (expected (is_ts s2 / 1000000) l) i).
      { cbn [expected]. destruct (timed o); cbn [nth_error]; [|rewrite TT; split; [lia|reflexivity]].
        destruct TT as (S1 & t & s0 & FR & S2). destruct (fresh_ms _ _ _ _ FR ltac:(apply R)) as (A1 & A2 & A3 & A4 & A5). rewrite S2, A3. split; [|reflexivity].
        unfold sane in F1. destruct A4; [|lia]. subst t. lia. }
      destruct LE2 as [L1 L2]. rewrite L2. pose proof (IH _ _ _ Rn R2 F2 L1 ltac:(lia) i _ _ N1 N2) as X. destruct (useless o'); [exact X|]. destruct X as (X1 & X2 & X3). splits; auto.
      intros k Y. cbn [expected_seq] in Y. destruct (numbered o).
      * destruct SS as [S1 S2]. cbn [nth_error] in Y. rewrite <- S1 in Y.
        destruct (SQ l (is_seq s2 + 1) ((is_seq s2 + 1) mod two64) i k) as (k' & Y1 & ->); [rewrite N.mod_mod by discriminate; reflexivity|exact Y|auto].
      * cbn [nth_error] in Y. rewrite SS in X3. auto.
Qed.

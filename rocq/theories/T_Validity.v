(* C54: certificate validity periods *)
From Coq Require Import ZArith List Lia ZifyBool ZifyNat ZifyN.
From Verif Require Import Base BaseLemmas S_Tlv M_Tlv M_Name M_Signer M_Validity S_Validity P_Tlv P_Block P_ValidityC P_ValidityD P_Validity.
Import ListNotations.
Open Scope Z_scope.

(* the calendar: the date computed for a day number is the one reached by counting days from 1 January 1970, and there is only one *)
Theorem C54_calendar : forall n d, is_day n d <-> d = from_day_number n.
Proof. intros n d. split; [apply is_day_unique|]. intros ->. apply from_is_day. Qed.
Print Assumptions C54_calendar.
Example C54_calendar_ex : from_day_number 19782 = mkDate 2024 2 29 /\ from_day_number (-25509) = mkDate 1900 2 28 /\ from_day_number (-25508) = mkDate 1900 3 1.
Proof. repeat split; reflexivity. Qed.

(* the text of an instant: toIsoString writes it, fromIsoString reads it back, and texts compare like instants *)
Theorem C54_iso : forall other s, second s -> is_iso s (toIsoString s) /\ fromIsoString other (toIsoString s) = Ok s.
Proof.
  intros other s H. pose proof (toIso_second s H) as I. split; [exact I|]. unfold fromIsoString. rewrite (proj2 (fromIso_iff _ s)); [reflexivity|].
  split; [exact I|]. pose proof (second_year s H). lia.
Qed.
Print Assumptions C54_iso.
Theorem C54_iso_order : forall s t u v, is_iso s u -> is_iso t v -> (str_lt u v = true <-> s < t) /\ (u = v <-> s = t).
Proof.
  intros s t u v A B. pose proof (iso_order _ _ _ _ A B) as X. pose proof (iso_order _ _ _ _ B A) as Y. split; [rewrite X; apply Z.ltb_lt|].
  split; [intros ->; eapply iso_inj; eauto|]. intros ->. rewrite Z.ltb_irrefl in X, Y. pose proof (iso_len _ _ A). pose proof (iso_len _ _ B).
  rewrite str_lt_antisym in Y by (unfold nlen in *; lia). rewrite X in Y. cbn [orb] in Y. apply bytes_eqb_eq. destruct (bytes_eqb u v); [reflexivity|discriminate].
Qed.
Print Assumptions C54_iso_order.
Example C54_iso_ex : toIsoString 1709209845 = str "20240229T123045" /\ second 1709209845.
Proof. split; [vm_compute; reflexivity|]. unfold second, instant. lia. Qed.

(* a period set from nb to na is valid exactly at the instants that lie between two whole seconds of [nb, na]; so it is never wider than asked, and
   loses less than a second at each end *)
Theorem C54_covers : forall nb na now, roundable nb na -> exists b, vp_isValid (vp_make nb na) now = Ok b /\
  (b = true <-> exists s e, nb <= s * 1000000000 <= now /\ now <= e * 1000000000 <= na).
Proof.
  intros nb na now R. destruct (round_second nb na R) as [A B]. rewrite valid_is by assumption. eexists. split; [reflexivity|]. unfold vp_make. cbn [vp_nb vp_na]. rewrite ceil_is, floor_is. unfold NS. split.
  - intro H. exists (- (- nb / 1000000000)), (na / 1000000000). lia.
  - intros (s & e & H1 & H2). lia.
Qed.
Print Assumptions C54_covers.
(* rounding can leave the range of the clock: with NotBefore in the last second of the range the comparison overflows *)
Theorem C54_covers_refuted : exists nb na now, instant nb /\ instant na /\ instant now /\ nb <= na /\ vp_isValid (vp_make nb na) now = Err EUb.
Proof. exists (2 ^ 63 - 1), (2 ^ 63 - 1), 0. unfold instant. splits; try lia. vm_compute. reflexivity. Qed.
Print Assumptions C54_covers_refuted.
(* the period read back with getPeriod is that of isValid, in whole seconds, also for decoded periods (histories as in C54_history) *)
Theorem C54_period : forall p now, second (vp_nb p) -> second (vp_na p) -> exists a b, vp_getPeriod p = Ok (a, b) /\ (1000000000 | a) /\ (1000000000 | b) /\
  exists v, vp_isValid p now = Ok v /\ (v = true <-> a <= now <= b).
Proof.
  intros p now A B. exists (vp_nb p * NS), (vp_na p * NS). unfold vp_getPeriod, NS. rewrite !i64_ok by assumption. cbn [bind]. split; [reflexivity|].
  split; [apply Z.divide_factor_r|]. split; [apply Z.divide_factor_r|]. rewrite valid_is by assumption. eexists. split; [reflexivity|]. lia.
Qed.
Print Assumptions C54_period.
(* the default period is never valid *)
Theorem C54_default : forall now, vp_isValid vp_default now = Ok false.
Proof. intro now. rewrite valid_is by (unfold second, instant; vm_compute; split; congruence). f_equal. change (vp_nb vp_default) with 1. change (vp_na vp_default) with 0. lia. Qed.
Print Assumptions C54_default.
(* a period relative to now that starts before and ends after it contains now *)
Theorem C54_relative : forall from until now p, vp_makeRelative from until now = Ok p -> from < 0 -> 0 < until -> instant now ->
  second (vp_nb p) -> second (vp_na p) -> vp_isValid p now = Ok true.
Proof.
  intros from until now p H F U I A B. rewrite valid_is by assumption. unfold vp_makeRelative in H. repeat inv_bind H. injection H as <-.
  assert (J : forall z x, i64 z = Ok x -> x = z) by (intros z x; unfold i64; destruct (_ && _); congruence).
  apply J in E, E0, E1, E2. subst. unfold vp_make in *. cbn [vp_nb vp_na] in *. rewrite ceil_is, floor_is in *. unfold NS in *. f_equal. lia.
Qed.
Print Assumptions C54_relative.
Example C54_covers_ex : roundable 1700000000000000001 1700000009999999999 /\
  map (vp_isValid (vp_make 1700000000000000001 1700000009999999999)) [1700000000999999999; 1700000001000000000; 1700000009000000000; 1700000009000000001] = [Ok false; Ok true; Ok true; Ok false] /\
  (exists p, vp_makeRelative (-10) 10 1700000000123456789 = Ok p /\ vp_nb p = 1699999991 /\ vp_na p = 1700000010).
Proof. split; [unfold roundable, instant; lia|]. split; [vm_compute; reflexivity|]. eexists. split; [vm_compute; reflexivity|]. split; reflexivity. Qed.

(* the wire: type 253 with NotBefore (254) and NotAfter (255) as ISO strings *)
Theorem C54_wire : forall nb na, roundable nb na ->
  let '(_, e) := vp_wireEncode (vp_make nb na) in exists s1 s2 v1 v2, period_octets v1 v2 (e_wire e) /\ is_iso s1 v1 /\ is_iso s2 v2 /\
    nb <= s1 * 1000000000 < nb + 1000000000 /\ na - 1000000000 < s2 * 1000000000 <= na.
Proof.
  intros nb na R. unfold vp_wireEncode. change (vp_wire (vp_make nb na)) with (@None elem). cbv zeta iota beta. destruct (round_second nb na R) as [A B].
  destruct (encode_octets (vp_make nb na) A B) as [_ O]. exists (vp_ceil nb), (vp_floor na). do 2 eexists. split; [exact O|].
  split; [apply toIso_second, A|]. split; [apply toIso_second, B|]. rewrite ceil_is, floor_is. unfold NS. lia.
Qed.
Print Assumptions C54_wire.
(* reading: exactly the octets of that form with 15-octet fields are accepted; the fields are read as S_Validity.reads says *)
Theorem C54_decode : forall other w p, vp_read other w = Ok p <->
  exists va vb e, period_octets va vb w /\ nlen va = 15%N /\ nlen vb = 15%N /\ reads other va (vp_nb p) /\ reads other vb (vp_na p) /\ vp_wire p = Some e /\ blockFromWire w = Ok e.
Proof. exact read_iff. Qed.
Print Assumptions C54_decode.
(* in particular two ISO strings are always accepted, and dates out of the range of the clock become its ends *)
Theorem C54_decode_iso : forall other w va vb s1 s2, period_octets va vb w -> is_iso s1 va -> is_iso s2 vb ->
  exists p, vp_read other w = Ok p /\ clamped s1 (vp_nb p) /\ clamped s2 (vp_na p).
Proof.
  intros other w va vb s1 s2 O A B. pose proof O as (a & b & _ & _ & T). apply is_tlv_elem in T. destruct T as (e & W & _ & _ & We).
  exists (mkVp (Z.max minTime (Z.min s1 maxTime)) (Z.max minTime (Z.min s2 maxTime)) (Some e)). cbn [vp_nb vp_na]. split; [|split; apply clamped_iff; reflexivity].
  apply read_iff. exists va, vb, e. cbn [vp_nb vp_na vp_wire]. splits; auto.
  - eapply iso_len, A.
  - eapply iso_len, B.
  - left. exists s1. split; [exact A|]. apply clamped_iff. reflexivity.
  - left. exists s2. split; [exact B|]. apply clamped_iff. reflexivity.
  - rewrite <- We. apply blockFromWire_wf, W.
Qed.
Print Assumptions C54_decode_iso.
(* over any history of setting, encoding and decoding one object, starting from any constructed period: what wireEncode returns decodes to the period
   the object has now *)
Theorem C54_history : forall other nb na l p, honest other -> roundable nb na -> Forall vop_ok l -> v_run other l (vp_make nb na) = Some p ->
  second (vp_nb p) /\ second (vp_na p) /\ exists q, vp_read other (e_wire (snd (vp_wireEncode p))) = Ok q /\ vp_eqb q p = true /\ vp_getPeriod q = vp_getPeriod p.
Proof.
  intros other nb na l p Ho R F H.
  assert (I : vinv other p). { eapply v_run_inv; eauto. destruct (round_second _ _ R). unfold vinv, vp_make. cbn [vp_nb vp_na vp_wire]. splits; auto. discriminate. }
  destruct I as (A & B & C). split; [exact A|]. split; [exact B|]. unfold vp_wireEncode. destruct (vp_wire p) as [e|] eqn:E.
  - exists p. cbn [snd]. split; [auto|]. unfold vp_eqb. split; [lia|reflexivity].
  - cbv zeta. cbn [snd]. rewrite (encode_read other p A B). eexists. split; [reflexivity|]. unfold vp_eqb, vp_getPeriod. cbn [vp_nb vp_na]. split; [lia|reflexivity].
Qed.
Print Assumptions C54_history.
(* after a decoding that throws this is no longer so: the object keeps its period but encodes as the rejected octets *)
Theorem C54_failed_decode_refuted : exists other p p', honest other /\
  vp_wireDecode other (mkBlock tValidityPeriod []) p = (p', Some ETlv) /\ vp_eqb p p' = true /\ vp_isValid p' 5000000000 = Ok true /\
  vp_read other (e_wire (snd (vp_wireEncode p'))) = Err ETlv.
Proof.
  exists (fun _ => Err EBadCast), (vp_make 0 10000000000). eexists.
  split; [intros v s; discriminate|]. split; [vm_compute; reflexivity|]. split; [vm_compute; reflexivity|]. split; vm_compute; reflexivity.
Qed.
Print Assumptions C54_failed_decode_refuted.

Definition C54_far : bytes := e_wire (mkBlock 253 (e_wire (mkBlock 254 (str "10000101T000000")) ++ e_wire (mkBlock 255 (str "99991231T235959")))).
Example C54_ex : (exists p, vp_read (fun _ => Err EBadCast) C54_far = Ok p /\ vp_nb p = -9223372036 /\ vp_na p = 9223372036) /\
  vp_read (fun _ => Err EBadCast) (e_wire (mkBlock 253 (e_wire (mkBlock 254 (str "20240230T000000")) ++ e_wire (mkBlock 255 (str "20240301T000000"))))) = Err ETlv /\
  vp_read (fun _ => Err EBadCast) (e_wire (mkBlock 253 (e_wire (mkBlock 255 (str "20240301T000000")) ++ e_wire (mkBlock 254 (str "20240228T000000"))))) = Err ETlv /\
  (exists p, v_run (fun _ => Err EBadCast) [VEncode; VDecode C54_far; VSet 5 99999999999; VEncode] (vp_make 0 10) = Some p /\ vp_nb p = 1 /\ vp_na p = 99).
Proof.
  split; [eexists; split; [vm_compute; reflexivity|split; reflexivity]|]. split; [vm_compute; reflexivity|]. split; [vm_compute; reflexivity|]. eexists. split; [vm_compute; reflexivity|]. split; reflexivity.
Qed.

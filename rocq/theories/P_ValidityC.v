(* Calendar and ISO strings *)
From Coq Require Import ZArith List Lia ZifyBool ZifyNat ZifyN.
From Verif Require Import Base BaseLemmas M_Tlv M_Validity S_Validity.
Import ListNotations.
Open Scope Z_scope.

Definition valid (d : date) : Prop := 1 <= d_month d <= 12 /\ 1 <= d_day d <= month_days (d_year d) (d_month d).
Lemma is_leap_iff : forall y, is_leap y = true <-> leap y.
Proof.
  intro y. unfold is_leap, leap. rewrite <- !Z.mod_divide by lia. lia.
Qed.
Ltac months m := let H := fresh in assert (H : m = 1 \/ m = 2 \/ m = 3 \/ m = 4 \/ m = 5 \/ m = 6 \/ m = 7 \/ m = 8 \/ m = 9 \/ m = 10 \/ m = 11 \/ m = 12) by lia;
  destruct H as [->|[->|[->|[->|[->|[->|[->|[->|[->|[->|[->| ->]]]]]]]]]]].
Lemma month_len_iff : forall y m n, month_len y m n <-> (1 <= m <= 12 /\ n = month_days y m).
Proof.
  intros y m n. split.
  - intros [y' m' H|y' m' H|y' H|y' H].
    + cbn in H. unfold month_days. split; [lia|]. replace (m' =? 2) with false by lia. replace ((m' =? 4) || (m' =? 6) || (m' =? 9) || (m' =? 11)) with false by lia. reflexivity.
    + cbn in H. unfold month_days. split; [lia|]. replace (m' =? 2) with false by lia. replace ((m' =? 4) || (m' =? 6) || (m' =? 9) || (m' =? 11)) with true by lia. reflexivity.
    + split; [lia|]. apply is_leap_iff in H. unfold month_days. cbn. rewrite H. reflexivity.
    + split; [lia|]. unfold month_days. cbn. destruct (is_leap y') eqn:E; [|reflexivity]. apply is_leap_iff in E. contradiction.
  - intros [H ->]. months m; try (constructor; cbn; tauto).
    unfold month_days. cbn. destruct (is_leap y) eqn:E; constructor.
    + apply is_leap_iff. exact E.
    + rewrite <- is_leap_iff. congruence.
Qed.
Lemma next_valid : forall a b, next_day a b -> valid a /\ valid b.
Proof.
  intros a b [y m d n L H|y m n L H|y]; unfold valid; cbn [d_year d_month d_day].
  - apply month_len_iff in L. lia.
  - apply month_len_iff in L. destruct L as [L ->]. split; [|split; [lia|]]; unfold month_days; repeat destruct (_ =? _); cbn [orb]; destruct (is_leap y); lia.
  - unfold month_days. cbn. lia.
Qed.
Lemma dn_next : forall a b, next_day a b -> day_number b = day_number a + 1.
Proof.
  intros a b [y m d n L H|y m n L H|y]; unfold day_number; cbn [d_year d_month d_day].
  - lia.
  - apply month_len_iff in L. destruct L as [L ->]. months m; unfold month_days, is_leap; cbn [Z.eqb orb Pos.eqb]; try lia.
    destruct ((y mod 4 =? 0) && (negb (y mod 100 =? 0) || (y mod 400 =? 0))) eqn:E; lia.
  - lia.
Qed.
Lemma dn_day : forall y m d, day_number (mkDate y m d) = day_number (mkDate y m 1) + d - 1.
Proof. intros. unfold day_number. cbn [d_year d_month d_day]. lia. Qed.
Lemma dn_month : forall y m, 1 <= m < 12 -> day_number (mkDate y (m + 1) 1) = day_number (mkDate y m 1) + month_days y m.
Proof.
  intros y m H. pose proof (dn_next _ _ (NMonth y m (month_days y m) (proj2 (month_len_iff y m (month_days y m)) (conj (conj (proj1 H) (Z.lt_le_incl _ _ (proj2 H))) eq_refl)) (proj2 H))) as E. rewrite (dn_day y m (month_days y m)) in E. lia.
Qed.
Lemma dn_year : forall y, day_number (mkDate (y + 1) 1 1) > day_number (mkDate y 12 31).
Proof. intro y. rewrite (dn_next _ _ (NYear y)). lia. Qed.
Lemma month_pos : forall y m, 28 <= month_days y m.
Proof. intros. unfold month_days. repeat destruct (_ =? _); cbn [orb]; destruct (is_leap y); lia. Qed.
Lemma dn_months : forall y m k, 1 <= m -> m + Z.of_nat k <= 12 -> (0 < k)%nat -> day_number (mkDate y m 1) + month_days y m <= day_number (mkDate y (m + Z.of_nat k) 1).
Proof.
  intros y m k. induction k as [|k IH]; intros H1 H2 H3; [lia|]. destruct k as [|k].
  - change (Z.of_nat 1) with 1. rewrite <- dn_month by lia. lia.
  - replace (m + Z.of_nat (S (S k))) with ((m + Z.of_nat (S k)) + 1) by lia. rewrite dn_month by lia. pose proof (month_pos y (m + Z.of_nat (S k))). specialize (IH H1 ltac:(lia) ltac:(lia)). lia.
Qed.
Lemma dn_in_year : forall d, valid d -> day_number (mkDate (d_year d) 1 1) <= day_number d <= day_number (mkDate (d_year d) 12 31).
Proof.
  intros [y m d] [V1 V2]. cbn [d_year d_month d_day] in *. rewrite (dn_day y m d). rewrite (dn_day y 12 31). split.
  - destruct (Z.eq_dec m 1) as [->|]; [lia|]. pose proof (dn_months y 1 (Z.to_nat (m - 1)) ltac:(lia) ltac:(lia) ltac:(lia)) as E. replace (1 + Z.of_nat (Z.to_nat (m - 1))) with m in E by lia. pose proof (month_pos y 1). lia.
  - destruct (Z.eq_dec m 12) as [->|]; [unfold month_days in V2; cbn in V2; lia|]. pose proof (dn_months y m (Z.to_nat (12 - m)) ltac:(lia) ltac:(lia) ltac:(lia)) as E. replace (m + Z.of_nat (Z.to_nat (12 - m))) with 12 in E by lia. lia.
Qed.
Lemma dn_years : forall y k, (0 < k)%nat -> day_number (mkDate y 12 31) < day_number (mkDate (y + Z.of_nat k) 1 1).
Proof.
  intros y k. induction k as [|k IH]; intros H; [lia|]. destruct k as [|k].
  - change (Z.of_nat 1) with 1. pose proof (dn_year y). lia.
  - specialize (IH ltac:(lia)). pose proof (dn_year (y + Z.of_nat (S k))) as E. replace (y + Z.of_nat (S k) + 1) with (y + Z.of_nat (S (S k))) in E by lia.
    pose proof (dn_in_year (mkDate (y + Z.of_nat (S k)) 1 1)) as F. cbn [d_year d_month d_day] in F. unfold valid in F. cbn [d_year d_month d_day] in F. pose proof (month_pos (y + Z.of_nat (S k)) 1). specialize (F ltac:(lia)). lia.
Qed.
(* dates in calendar order *)
Definition before (a b : date) : Prop :=
  d_year a < d_year b \/ (d_year a = d_year b /\ (d_month a < d_month b \/ (d_month a = d_month b /\ d_day a < d_day b))).
Lemma dn_before : forall a b, valid a -> valid b -> before a b -> day_number a < day_number b.
Proof.
  intros a b A B [H|[H [K|[K L]]]].
  - pose proof (dn_in_year a A). pose proof (dn_in_year b B). pose proof (dn_years (d_year a) (Z.to_nat (d_year b - d_year a)) ltac:(lia)) as E. replace (d_year a + Z.of_nat (Z.to_nat (d_year b - d_year a))) with (d_year b) in E by lia. lia.
  - destruct a as [y m d], b as [y' m' d']. cbn [d_year d_month d_day] in *. subst y'. destruct A as [A1 A2], B as [B1 B2]. cbn [d_year d_month d_day] in *.
    rewrite (dn_day y m d), (dn_day y m' d'). pose proof (dn_months y m (Z.to_nat (m' - m)) ltac:(lia) ltac:(lia) ltac:(lia)) as E. replace (m + Z.of_nat (Z.to_nat (m' - m))) with m' in E by lia. lia.
  - destruct a as [y m d], b as [y' m' d']. cbn [d_year d_month d_day] in *. subst y' m'. rewrite (dn_day y m d), (dn_day y m d'). lia.
Qed.
Lemma before_total : forall a b, before a b \/ a = b \/ before b a.
Proof.
  intros [y m d] [y' m' d']. unfold before. cbn [d_year d_month d_day].
  destruct (Z.lt_trichotomy y y') as [|[<-|]]; [lia| |lia]. destruct (Z.lt_trichotomy m m') as [|[<-|]]; [lia| |lia]. destruct (Z.lt_trichotomy d d') as [|[<-|]]; [lia|auto|lia].
Qed.
Lemma dn_inj : forall a b, valid a -> valid b -> day_number a = day_number b -> a = b.
Proof.
  intros a b A B E. destruct (before_total a b) as [H|[H|H]]; [|exact H|].
  - pose proof (dn_before _ _ A B H). lia.
  - pose proof (dn_before _ _ B A H). lia.
Qed.
Lemma is_day_valid : forall n d, is_day n d -> valid d /\ day_number d = n.
Proof.
  intros n d H. induction H as [|n a b _ [V E] N|n a b _ [V E] N].
  - split; [|reflexivity]. unfold valid, month_days. cbn. lia.
  - split; [apply (next_valid _ _ N)|]. rewrite (dn_next _ _ N). lia.
  - split; [apply (next_valid _ _ N)|]. pose proof (dn_next _ _ N). lia.
Qed.
Lemma has_next : forall a, valid a -> exists b, next_day a b.
Proof.
  intros [y m d] [V1 V2]. cbn [d_year d_month d_day] in *. pose proof (proj2 (month_len_iff y m _) (conj V1 eq_refl)) as L.
  destruct (Z.eq_dec d (month_days y m)) as [->|].
  - destruct (Z.eq_dec m 12) as [->|]; [eexists; apply NYear|]. eexists. apply NMonth; [exact L|lia].
  - eexists. eapply NDay; [exact L|lia].
Qed.
Lemma has_prev : forall b, valid b -> exists a, next_day a b.
Proof.
  intros [y m d] [V1 V2]. cbn [d_year d_month d_day] in *.
  destruct (Z.eq_dec d 1) as [->|].
  - destruct (Z.eq_dec m 1) as [->|].
    + exists (mkDate (y - 1) 12 31). replace (mkDate y 1 1) with (mkDate (y - 1 + 1) 1 1) by (f_equal; lia). apply NYear.
    + exists (mkDate y (m - 1) (month_days y (m - 1))). replace (mkDate y m 1) with (mkDate y (m - 1 + 1) 1) by (f_equal; lia). apply NMonth; [apply month_len_iff|]; lia.
  - exists (mkDate y m (d - 1)). replace (mkDate y m d) with (mkDate y m (d - 1 + 1)) by (f_equal; lia). eapply NDay; [apply month_len_iff; split; [lia|reflexivity]|lia].
Qed.
Lemma day_exists : forall n, exists d, is_day n d.
Proof.
  assert (P : forall k, exists d, is_day (Z.of_nat k) d).
  { induction k as [|k [d H]]; [exists (mkDate 1970 1 1); constructor|]. destruct (has_next d (proj1 (is_day_valid _ _ H))) as [b B]. exists b. replace (Z.of_nat (S k)) with (Z.of_nat k + 1) by lia. eapply DayS; eauto. }
  assert (M : forall k, exists d, is_day (- Z.of_nat k) d).
  { induction k as [|k [d H]]; [exists (mkDate 1970 1 1); constructor|]. destruct (has_prev d (proj1 (is_day_valid _ _ H))) as [b B]. exists b. replace (- Z.of_nat (S k)) with (- Z.of_nat k - 1) by lia. eapply DayP; eauto. }
  intro n. destruct (Z.le_ge_cases 0 n); [destruct (P (Z.to_nat n)) as [d D]|destruct (M (Z.to_nat (- n))) as [d D]]; exists d; [replace n with (Z.of_nat (Z.to_nat n)) by lia|replace n with (- Z.of_nat (Z.to_nat (- n))) by lia]; exact D.
Qed.
Lemma is_day_iff : forall n d, is_day n d <-> (valid d /\ day_number d = n).
Proof.
  intros n d. split; [apply is_day_valid|]. intros [V E]. destruct (day_exists n) as [d' D]. destruct (is_day_valid _ _ D) as [V' E']. rewrite (dn_inj d d'); [exact D|assumption|assumption|congruence].
Qed.

(* from_day_number *)
Lemma from_month : forall e, 0 <= e <= 365 -> exists m, m = (5 * e + 2) / 153 /\ 0 <= m <= 11 /\
  let mo := m + 3 - 12 * (m / 10) in let da := e - (153 * m + 2) / 5 + 1 in
  1 <= mo <= 12 /\ 1 <= da /\ (m / 10 = 0 -> 3 <= mo) /\ (m / 10 = 1 -> mo <= 2) /\ (m / 10 = 0 \/ m / 10 = 1) /\
  (mo = 2 -> da <= 29 /\ (e < 365 -> da <= 28)) /\ (mo <> 2 -> forall y, da <= month_days y mo).
Proof.
  intros e H. exists ((5 * e + 2) / 153). split; [reflexivity|].
  assert (M : let m := (5 * e + 2) / 153 in m = 0 \/ m = 1 \/ m = 2 \/ m = 3 \/ m = 4 \/ m = 5 \/ m = 6 \/ m = 7 \/ m = 8 \/ m = 9 \/ m = 10 \/ m = 11) by lia.
  set (m := (5 * e + 2) / 153) in *. assert (L : 153 * m <= 5 * e + 2 < 153 * m + 153) by (subst m; lia). clearbody m. cbv zeta in *.
  destruct M as [->|[->|[->|[->|[->|[->|[->|[->|[->|[->|[->| ->]]]]]]]]]]]; cbn -[Z.mul Z.add Z.sub month_days] in L |- *; splits; intros; try lia;
    unfold month_days; cbn; lia.
Qed.
Lemma from_century : forall a, exists b c, b = (4 * a + 3) / 146097 /\ c = a - (146097 * b) / 4 /\ 0 <= c <= 36524 /\ (c = 36524 -> b mod 4 = 3) /\ a = 36524 * b + b / 4 + c.
Proof.
  intro a. exists ((4 * a + 3) / 146097), (a - (146097 * ((4 * a + 3) / 146097)) / 4). split; [reflexivity|]. split; [reflexivity|].
  set (b := (4 * a + 3) / 146097). assert (B : 146097 * b <= 4 * a + 3 < 146097 * b + 146097) by (subst b; lia). clearbody b.
  assert (D : (146097 * b) / 4 = 36524 * b + b / 4) by lia. rewrite D. lia.
Qed.
Lemma from_year : forall c, 0 <= c <= 36524 -> exists d e, d = (4 * c + 3) / 1461 /\ e = c - (1461 * d) / 4 /\ 0 <= d <= 99 /\ 0 <= e <= 365 /\ (e = 365 -> d mod 4 = 3 /\ (d = 99 -> c = 36524)) /\ c = 365 * d + d / 4 + e.
Proof.
  intros c H. exists ((4 * c + 3) / 1461), (c - (1461 * ((4 * c + 3) / 1461)) / 4). split; [reflexivity|]. split; [reflexivity|].
  set (d := (4 * c + 3) / 1461). assert (D : 1461 * d <= 4 * c + 3 < 1461 * d + 1461) by (subst d; lia). clearbody d.
  assert (E : (1461 * d) / 4 = 365 * d + d / 4) by lia. rewrite E. lia.
Qed.
Lemma from_ok : forall n, valid (from_day_number n) /\ day_number (from_day_number n) = n.
Proof.
  intro n. unfold from_day_number. cbv zeta. destruct (from_century (n + EPOCH_DAY + 32044)) as (b & c & Eb & Ec & C1 & C2 & C3). rewrite <- Eb, <- Ec.
  destruct (from_year c C1) as (d & e & Ed & Ee & D1 & D2 & D3 & D4). rewrite <- Ed, <- Ee.
  destruct (from_month e D2) as (m & Em & M0 & M1 & M2 & M3 & M4 & M5 & M6 & M7). rewrite <- Em. clear Eb Ec Ed Ee.
  assert (Y : 0 <= 100 * b + d \/ 100 * b + d < 0) by lia.
  assert (DN : (100 * b + d) / 4 = 25 * b + d / 4 /\ (100 * b + d) / 100 = b /\ (100 * b + d) / 400 = b / 4) by lia.
  split.
  - unfold valid. cbn [d_year d_month d_day]. split; [exact M1|]. split; [exact M2|].
    destruct (Z.eq_dec (m + 3 - 12 * (m / 10)) 2) as [F|F]; [|apply M7, F].
    destruct (M6 F) as [F1 F2]. rewrite F. assert (E10 : m / 10 = 1) by lia. rewrite E10.
    destruct (Z.eq_dec e 365) as [E|E]; [|specialize (F2 ltac:(lia)); pose proof (month_pos (100 * b + d - 4800 + 1) 2); lia].
    specialize (D3 E). destruct D3 as [D3 D5].
    replace (month_days (100 * b + d - 4800 + 1) 2) with 29; [exact F1|]. unfold month_days. cbn [Z.eqb Pos.eqb].
    replace (is_leap (100 * b + d - 4800 + 1)) with true; [reflexivity|]. symmetry. unfold is_leap.
    replace ((100 * b + d - 4800 + 1) mod 4 =? 0) with true by lia. cbn [andb].
    destruct (Z.eq_dec d 99) as [D|D].
    + specialize (C2 (D5 D)). replace ((100 * b + d - 4800 + 1) mod 400 =? 0) with true by lia. apply Bool.orb_true_r.
    + replace ((100 * b + d - 4800 + 1) mod 100 =? 0) with false by lia. reflexivity.
  - unfold day_number. cbn [d_year d_month d_day].
    assert (A : (14 - (m + 3 - 12 * (m / 10))) / 12 = m / 10) by lia. rewrite A.
    replace (100 * b + d - 4800 + m / 10 + 4800 - m / 10) with (100 * b + d) by lia.
    replace (m + 3 - 12 * (m / 10) + 12 * (m / 10) - 3) with m by lia.
    destruct DN as (-> & -> & ->). lia.
Qed.
Lemma from_is_day : forall n, is_day n (from_day_number n).
Proof. intro n. apply is_day_iff, from_ok. Qed.
Lemma is_day_unique : forall n d, is_day n d -> d = from_day_number n.
Proof. intros n d H. apply is_day_iff in H. destruct (from_ok n). apply dn_inj; tauto || (destruct H; congruence). Qed.


(* Decimal digits and ISO strings *)
From Coq Require Import ZArith List Lia ZifyBool ZifyNat ZifyN.
From Verif Require Import Base BaseLemmas M_Tlv M_Validity S_Validity P_ValidityC.
Import ListNotations.
Open Scope Z_scope.

(* decimal digits *)
Lemma bn_dig : forall k, 0 <= k <= 9 -> Z.of_N (bn (nb (Z.to_N (48 + k)))) = 48 + k.
Proof. intros k H. rewrite bn_nb. rewrite N.mod_small by lia. lia. Qed.
Lemma dec_len : forall w n, length (dec w n) = w.
Proof. induction w as [|w IH]; intro n; [reflexivity|]. cbn [dec]. rewrite app_length, IH. cbn [length]. lia. Qed.
Lemma dec_digits : forall w n, 0 <= n < 10 ^ Z.of_nat w -> digits w n (dec w n).
Proof.
  induction w as [|w IH]; intros n H.
  - unfold digits. cbn in *. splits; auto. lia.
  - assert (B : 0 <= n / 10 < 10 ^ Z.of_nat w). { replace (Z.of_nat (S w)) with (Z.of_nat w + 1) in H by lia. rewrite Z.pow_add_r in H by lia. change (10 ^ 1) with 10 in H. nia. }
    destruct (IH _ B) as (L & F & V). cbn [dec]. unfold digits. rewrite app_length, L. cbn [length]. split; [lia|]. split.
    + apply Forall_app. split; [exact F|]. constructor; [|constructor]. rewrite bn_dig by lia. lia.
    + rewrite fold_left_app, V. cbn [fold_left]. rewrite bn_dig by lia. lia.
Qed.
Lemma undec_fold : forall v acc, Forall (fun c => 48 <= Z.of_N (bn c) <= 57) v -> undec acc v = Some (fold_left (fun a c => 10 * a + (Z.of_N (bn c) - 48)) v acc).
Proof.
  induction v as [|c v IH]; intros acc F; [reflexivity|]. inversion F as [|? ? F1 F2]; subst. cbn [undec fold_left].
  replace ((48 <=? Z.of_N (bn c)) && (Z.of_N (bn c) <=? 57)) with true by lia. apply IH, F2.
Qed.
Lemma undec_digits : forall w n v, digits w n v -> undec 0 v = Some n.
Proof. intros w n v (L & F & V). rewrite undec_fold by exact F. rewrite V. reflexivity. Qed.
Lemma undec_forall : forall v acc n, undec acc v = Some n -> Forall (fun c => 48 <= Z.of_N (bn c) <= 57) v.
Proof.
  induction v as [|c v IH]; intros acc n H; [constructor|]. cbn [undec] in H. destruct ((48 <=? Z.of_N (bn c)) && (Z.of_N (bn c) <=? 57)) eqn:E; [|discriminate]. constructor; [lia|eauto].
Qed.
Lemma digits_undec : forall v n, undec 0 v = Some n -> digits (length v) n v.
Proof. intros v n H. pose proof (undec_forall _ _ _ H) as F. rewrite undec_fold in H by exact F. injection H as H. unfold digits. auto. Qed.
Lemma digits_range : forall v w n, digits w n v -> 0 <= n < 10 ^ Z.of_nat w.
Proof.
  intros v w n (L & F & V). subst. revert F. induction v as [|c v IH] using rev_ind; intro F; [cbn; lia|].
  apply Forall_app in F. destruct F as [F1 F2]. inversion F2; subst. rewrite fold_left_app, app_length. cbn [fold_left length].
  replace (Z.of_nat (length v + 1)) with (Z.of_nat (length v) + 1) by lia. rewrite Z.pow_add_r by lia. change (10 ^ 1) with 10. specialize (IH F1). lia.
Qed.
(* strings of the same number of digits compare like numbers *)
Lemma str_lt_app : forall a b a' b', length a = length b -> str_lt (a ++ a') (b ++ b') = if str_lt a b then true else if str_lt b a then false else str_lt a' b'.
Proof.
  induction a as [|x a IH]; intros [|y b] a' b' L; try discriminate; [reflexivity|]. cbn [app str_lt].
  destruct (N.ltb_spec (bn x) (bn y)); [reflexivity|]. destruct (N.ltb_spec (bn y) (bn x)); [reflexivity|]. apply IH. cbn in L. lia.
Qed.
Lemma str_lt_irrefl : forall a, str_lt a a = false.
Proof. induction a as [|x a IH]; [reflexivity|]. cbn [str_lt]. rewrite N.ltb_irrefl. exact IH. Qed.
Lemma str_lt_antisym : forall u v : bytes, length u = length v -> str_lt v u = negb (str_lt u v || bytes_eqb u v).
Proof.
  induction u as [|a u IHu]; intros [|b v] L0; try discriminate; [reflexivity|]. cbn [str_lt bytes_eqb]. unfold beqb.
  destruct (N.ltb_spec (bn a) (bn b)); destruct (N.ltb_spec (bn b) (bn a)); try lia; try reflexivity.
  replace (bn a =? bn b)%N with true by lia. cbn [andb]. apply IHu. cbn in L0. lia.
Qed.
Lemma digits_inj : forall w n u v, digits w n u -> digits w n v -> u = v.
Proof.
  intros w n u v (L & F & E) (L' & F' & E'). subst w n. revert v L' F F' E'. induction u as [|a u IHu] using rev_ind; intros v L0 A B E0.
  - destruct v; [reflexivity|discriminate].
  - destruct v as [|b v _] using rev_ind; [rewrite app_length in L0; cbn in L0; lia|]. rewrite !app_length in L0. cbn [length] in L0. rewrite !fold_left_app in E0. cbn [fold_left] in E0.
    apply Forall_app in A. apply Forall_app in B. destruct A as [A A'], B as [B B']. inversion A' as [|? ? A1 _]; subst. inversion B' as [|? ? B1 _]; subst.
    assert (X : bn a = bn b) by lia. apply bn_inj in X. subst b. f_equal. apply IHu; auto; lia.
Qed.
Lemma str_lt_digits : forall u v w n m, digits w n u -> digits w m v -> str_lt u v = (n <? m).
Proof.
  intros u. induction u as [|x u IH] using rev_ind; intros v w n m U V.
  - destruct U as (L & _ & <-). destruct V as (L' & _ & <-). subst w. destruct v; [reflexivity|discriminate].
  - destruct U as (L & F & E). destruct V as (L' & F' & E').
    destruct v as [|y v _] using rev_ind. { rewrite app_length in L. cbn in L, L'. lia. }
    rewrite app_length in L, L'. cbn [length] in L, L'. rewrite fold_left_app in E, E'. cbn [fold_left] in E, E'. apply Forall_app in F. apply Forall_app in F'.
    destruct F as [F G], F' as [F' G']. inversion G as [|? ? G1 _]. inversion G' as [|? ? G1' _]. clear G G'. subst.
    rewrite str_lt_app by lia. rewrite (str_lt_antisym u v) by lia.
    assert (DU : digits (length u) (fold_left (fun a c => 10 * a + (Z.of_N (bn c) - 48)) u 0) u) by (unfold digits; auto).
    assert (DV : digits (length u) (fold_left (fun a c => 10 * a + (Z.of_N (bn c) - 48)) v 0) v) by (unfold digits; splits; [lia|exact F'|reflexivity]).
    rewrite (IH v _ _ _ DU DV). revert DU DV. set (fu := fold_left _ u 0). set (fv := fold_left _ v 0). intros DU DV.
    destruct (Z.ltb_spec fu fv); [lia|]. cbn [orb]. destruct (bytes_eqb u v) eqn:Q; cbn [negb].
    + apply bytes_eqb_eq in Q. assert (fu = fv) by (subst fu fv; rewrite Q; reflexivity). cbn [str_lt]. destruct (N.ltb_spec (bn x) (bn y)); [lia|]. destruct (N.ltb_spec (bn y) (bn x)); lia.
    + assert (N : fu <> fv). { intro X. rewrite X in DU. rewrite (digits_inj _ _ _ _ DU DV), bytes_eqb_refl in Q. discriminate. } lia.
Qed.

(* ISO strings *)
Lemma iso_order : forall s t u v, is_iso s u -> is_iso t v -> str_lt u v = (s <? t).
Proof.
  intros s t u v (n & d & h & m & c & vy & vm & vd & vh & vmi & vs & D & -> & Hh & Hm & Hc & D1 & D2 & D3 & D4 & D5 & D6 & ->)
                 (n' & d' & h' & m' & c' & vy' & vm' & vd' & vh' & vmi' & vs' & D' & -> & Hh' & Hm' & Hc' & D1' & D2' & D3' & D4' & D5' & D6' & ->).
  apply is_day_iff in D, D'. destruct D as [V E], D' as [V' E'].
  assert (Ln : forall w x y a b, digits w x a -> digits w y b -> length a = length b) by (intros ? ? ? ? ? [] []; congruence).
  rewrite !str_lt_app by (try reflexivity; eapply Ln; eassumption). rewrite !str_lt_irrefl.
  rewrite (str_lt_digits _ _ _ _ _ D1 D1'), (str_lt_digits _ _ _ _ _ D1' D1), (str_lt_digits _ _ _ _ _ D2 D2'), (str_lt_digits _ _ _ _ _ D2' D2), (str_lt_digits _ _ _ _ _ D3 D3'), (str_lt_digits _ _ _ _ _ D3' D3),
    (str_lt_digits _ _ _ _ _ D4 D4'), (str_lt_digits _ _ _ _ _ D4' D4), (str_lt_digits _ _ _ _ _ D5 D5'), (str_lt_digits _ _ _ _ _ D5' D5), (str_lt_digits _ _ _ _ _ D6 D6').
  clear Ln D1 D1' D2 D2' D3 D3' D4 D4' D5 D5' D6 D6'.
  destruct (before_total d d') as [B|[<-|B]].
  - pose proof (dn_before _ _ V V' B) as L. replace (n * 86400 + h * 3600 + m * 60 + c <? n' * 86400 + h' * 3600 + m' * 60 + c') with true by lia.
    unfold before in B. destruct (Z.ltb_spec (d_year d) (d_year d')); [reflexivity|]. destruct (Z.ltb_spec (d_year d') (d_year d)); [lia|].
    destruct (Z.ltb_spec (d_month d) (d_month d')); [reflexivity|]. destruct (Z.ltb_spec (d_month d') (d_month d)); [lia|].
    destruct (Z.ltb_spec (d_day d) (d_day d')); [reflexivity|]. lia.
  - rewrite !Z.ltb_irrefl. assert (n = n') by congruence. subst n'.
    destruct (Z.ltb_spec h h'); [lia|]. destruct (Z.ltb_spec h' h); [lia|]. destruct (Z.ltb_spec m m'); [lia|]. destruct (Z.ltb_spec m' m); [lia|]. lia.
  - pose proof (dn_before _ _ V' V B) as L. replace (n * 86400 + h * 3600 + m * 60 + c <? n' * 86400 + h' * 3600 + m' * 60 + c') with false by lia.
    unfold before in B. destruct (Z.ltb_spec (d_year d) (d_year d')); [lia|]. destruct (Z.ltb_spec (d_year d') (d_year d)); [reflexivity|].
    destruct (Z.ltb_spec (d_month d) (d_month d')); [lia|]. destruct (Z.ltb_spec (d_month d') (d_month d)); [reflexivity|].
    destruct (Z.ltb_spec (d_day d) (d_day d')); [lia|]. destruct (Z.ltb_spec (d_day d') (d_day d)); [reflexivity|]. lia.
Qed.
Lemma iso_len : forall s v, is_iso s v -> nlen v = 15%N.
Proof.
  intros s v (n & d & h & m & c & vy & vm & vd & vh & vmi & vs & D & -> & Hh & Hm & Hc & (L1 & _) & (L2 & _) & (L3 & _) & (L4 & _) & (L5 & _) & (L6 & _) & ->).
  unfold nlen. rewrite !app_length, L1, L2, L3, L4, L5, L6. reflexivity.
Qed.
Lemma toIso_is : forall s, 0 <= d_year (from_day_number (s / 86400)) <= 9999 -> is_iso s (toIsoString s).
Proof.
  intros s Y. destruct (from_ok (s / 86400)) as [V E]. exists (s / 86400), (from_day_number (s / 86400)), (s mod 86400 / 3600), (s mod 86400 / 60 mod 60), (s mod 86400 mod 60).
  do 6 eexists. split; [apply from_is_day|]. split; [lia|]. split; [lia|]. split; [lia|]. split; [lia|].
  destruct V as [V1 V2]. assert (M : month_days (d_year (from_day_number (s / 86400))) (d_month (from_day_number (s / 86400))) <= 31).
  { generalize (d_year (from_day_number (s / 86400))) (d_month (from_day_number (s / 86400))). intros y m. unfold month_days. repeat destruct (_ =? _); cbn [orb]; destruct (is_leap y); lia. }
  change (10 ^ Z.of_nat 4) with 10000 in *.
  assert (W : 10 ^ Z.of_nat 2 = 100) by reflexivity. assert (W4 : 10 ^ Z.of_nat 4 = 10000) by reflexivity.
  do 6 (split; [apply dec_digits; rewrite ?W, ?W4; lia|]).
  reflexivity.
Qed.
Definition fields_gen (ok : date -> bool) (v : bytes) : option Z :=
  match undec 0 (firstn 4 v), undec 0 (firstn 2 (skipn 4 v)), undec 0 (firstn 2 (skipn 6 v)),
        undec 0 (firstn 2 (skipn 9 v)), undec 0 (firstn 2 (skipn 11 v)), undec 0 (firstn 2 (skipn 13 v)) with
  | Some y, Some m, Some d, Some h, Some mi, Some s =>
      if (nlen v =? 15)%N && bytes_eqb (firstn 1 (skipn 8 v)) [x54] && ok (mkDate y m d) && (h <? 24) && (mi <? 60) && (s <? 60)
      then Some (day_number (mkDate y m d) * 86400 + h * 3600 + mi * 60 + s) else None
  | _, _, _, _, _, _ => None
  end.
Lemma gen_iff : forall ok v s, (forall d, ok d = true -> valid d) -> fields_gen ok v = Some s <-> (is_iso s v /\ ok (from_day_number (s / 86400)) = true).
Proof.
  intros ok v s OK. split.
  - intro H. unfold fields_gen in H.
    destruct (undec 0 (firstn 4 v)) as [y|] eqn:Y; [|discriminate]. destruct (undec 0 (firstn 2 (skipn 4 v))) as [m|] eqn:M; [|discriminate]. destruct (undec 0 (firstn 2 (skipn 6 v))) as [d|] eqn:D; [|discriminate].
    destruct (undec 0 (firstn 2 (skipn 9 v))) as [h|] eqn:H0; [|discriminate]. destruct (undec 0 (firstn 2 (skipn 11 v))) as [mi|] eqn:MI; [|discriminate]. destruct (undec 0 (firstn 2 (skipn 13 v))) as [c|] eqn:C; [|discriminate].
    destruct ((nlen v =? 15)%N && bytes_eqb (firstn 1 (skipn 8 v)) [x54] && ok (mkDate y m d) && (h <? 24) && (mi <? 60) && (c <? 60)) eqn:Q; [|discriminate]. injection H as <-.
    rewrite !Bool.andb_true_iff in Q. destruct Q as [[[[[Q1 Q2] Q3] Q4] Q5] Q6]. apply N.eqb_eq in Q1. apply bytes_eqb_eq in Q2.
    apply digits_undec in Y, M, D, H0, MI, C. assert (L : length v = 15%nat) by (unfold nlen in Q1; lia).
    do 15 (destruct v as [|? v]; [discriminate L|]). destruct v; [|discriminate L]. cbn [firstn skipn length] in Y, M, D, H0, MI, C, Q2.
    pose proof (digits_range _ _ _ H0) as R1. pose proof (digits_range _ _ _ MI) as R2. pose proof (digits_range _ _ _ C) as R3.
    pose proof (OK _ Q3) as V.
    assert (F : from_day_number ((day_number (mkDate y m d) * 86400 + h * 3600 + mi * 60 + c) / 86400) = mkDate y m d).
    { replace ((day_number (mkDate y m d) * 86400 + h * 3600 + mi * 60 + c) / 86400) with (day_number (mkDate y m d)) by lia. symmetry. apply is_day_unique, is_day_iff. auto. }
    rewrite F. split; [|exact Q3].
    exists (day_number (mkDate y m d)), (mkDate y m d), h, mi, c. do 6 eexists. split; [apply is_day_iff; auto|]. split; [reflexivity|]. split; [lia|]. split; [lia|]. split; [lia|]. cbn [d_year d_month d_day].
    split; [exact Y|]. split; [exact M|]. split; [exact D|]. split; [exact H0|]. split; [exact MI|]. split; [exact C|].
    change (str "T") with [x54]. rewrite <- Q2. reflexivity.
  - intros [I Y]. pose proof (iso_len _ _ I) as L. destruct I as (n & d & h & m & c & vy & vm & vd & vh & vmi & vs & D & -> & Hh & Hm & Hc & D1 & D2 & D3 & D4 & D5 & D6 & ->).
    assert (N : (n * 86400 + h * 3600 + m * 60 + c) / 86400 = n) by lia. rewrite N in Y. rewrite <- (is_day_unique _ _ D) in Y.
    pose proof (undec_digits _ _ _ D1) as U1. pose proof (undec_digits _ _ _ D2) as U2. pose proof (undec_digits _ _ _ D3) as U3. pose proof (undec_digits _ _ _ D4) as U4. pose proof (undec_digits _ _ _ D5) as U5. pose proof (undec_digits _ _ _ D6) as U6.
    destruct D1 as [L1 _], D2 as [L2 _], D3 as [L3 _], D4 as [L4 _], D5 as [L5 _], D6 as [L6 _].
    do 4 (destruct vy as [|? vy]; [discriminate L1|]). destruct vy; [|discriminate L1]. do 2 (destruct vm as [|? vm]; [discriminate L2|]). destruct vm; [|discriminate L2]. do 2 (destruct vd as [|? vd]; [discriminate L3|]). destruct vd; [|discriminate L3].
    do 2 (destruct vh as [|? vh]; [discriminate L4|]). destruct vh; [|discriminate L4]. do 2 (destruct vmi as [|? vmi]; [discriminate L5|]). destruct vmi; [|discriminate L5]. do 2 (destruct vs as [|? vs]; [discriminate L6|]). destruct vs; [|discriminate L6].
    unfold fields_gen. change (str "T") with [x54] in *. cbn [app firstn skipn] in *. rewrite U1, U2, U3, U4, U5, U6. rewrite L. replace (mkDate (d_year d) (d_month d) (d_day d)) with d by (destruct d; reflexivity).
    change (bytes_eqb [x54] [x54]) with true. apply is_day_iff in D. destruct D as [[V1 V2] <-]. rewrite Y.
    replace (h <? 24) with true by lia. replace (m <? 60) with true by lia. replace (c <? 60) with true by lia. reflexivity.
Qed.

Lemma fromIso_iff : forall v s, fromIsoFields v = Some s <-> (is_iso s v /\ 1400 <= d_year (from_day_number (s / 86400))).
Proof.
  intros v s. change (fromIsoFields v) with (fields_gen date_ok v). rewrite gen_iff.
  - assert (A : forall a b c : Prop, (a -> (b <-> c)) -> (a /\ b <-> a /\ c)) by tauto. apply A. intro I. clear A.
    destruct I as (n & d & h & m & c & vy & vm & vd & vh & vmi & vs & D & -> & Hh & Hm & Hc & D1 & _).
    assert (N : (n * 86400 + h * 3600 + m * 60 + c) / 86400 = n) by lia. rewrite N, <- (is_day_unique _ _ D). apply is_day_iff in D. destruct D as [[V1 V2] _].
    pose proof (digits_range _ _ _ D1) as R1. change (10 ^ Z.of_nat 4) with 10000 in R1. unfold date_ok. lia.
  - intros d Q. unfold date_ok in Q. unfold valid. lia.
Qed.
Definition validb (d : date) : bool := (1 <=? d_month d) && (d_month d <=? 12) && (1 <=? d_day d) && (d_day d <=? month_days (d_year d) (d_month d)).
Lemma iso_dec : forall v, (exists s, is_iso s v) \/ (forall s, ~ is_iso s v).
Proof.
  intro v. assert (V : forall d, validb d = true <-> valid d) by (intro d; unfold validb, valid; lia).
  destruct (fields_gen validb v) as [s|] eqn:E.
  - left. exists s. apply (gen_iff validb v s) in E; [apply E|]. intro d. apply V.
  - right. intros s I. rewrite (proj2 (gen_iff validb v s (fun d => proj1 (V d)))) in E; [discriminate|]. split; [exact I|]. apply V, from_ok.
Qed.

(* the range of the clock *)
Lemma minTime_is : minTime = -9223372036. Proof. reflexivity. Qed.
Lemma maxTime_is : maxTime = 9223372036. Proof. reflexivity. Qed.
Lemma second_iff : forall s, second s <-> minTime <= s <= maxTime.
Proof. intro s. rewrite minTime_is, maxTime_is. unfold second, instant. lia. Qed.
Lemma day_year : forall n lo hi, day_number (mkDate lo 1 1) <= n -> n < day_number (mkDate (hi + 1) 1 1) -> lo <= d_year (from_day_number n) <= hi.
Proof.
  intros n lo hi L H. destruct (from_ok n) as [V E].
  assert (J : forall y, valid (mkDate y 1 1)) by (intro y; unfold valid; cbn [d_year d_month d_day]; pose proof (month_pos y 1); lia).
  split.
  - destruct (Z.lt_ge_cases (d_year (from_day_number n)) lo) as [B|]; [|assumption]. pose proof (dn_before _ _ V (J lo) (or_introl B)). lia.
  - destruct (Z.lt_ge_cases hi (d_year (from_day_number n))) as [B|]; [|assumption].
    destruct (Z.eq_dec (hi + 1) (d_year (from_day_number n))) as [Q|Q].
    + pose proof (dn_in_year _ V) as K. rewrite <- Q in K. lia.
    + pose proof (dn_before (mkDate (hi + 1) 1 1) _ (J (hi + 1)) V ltac:(left; cbn [d_year]; lia)). lia.
Qed.
Lemma second_year : forall s, second s -> 1677 <= d_year (from_day_number (s / 86400)) <= 2262.
Proof.
  intros s H. apply second_iff in H. rewrite minTime_is, maxTime_is in H. apply day_year.
  - change (day_number (mkDate 1677 1 1)) with (-107015). lia.
  - change (day_number (mkDate (2262 + 1) 1 1)) with 107016. lia.
Qed.

From Coq Require Import ZArith Lia ZifyBool ZifyNat ZifyN.
From Verif Require Import Base BaseLemmas M_Tlv S_Tlv P_Tlv P_Block M_Name S_Name P_Name P_Packet P_Data P_InterestD M_Control S_Control.
Open Scope N_scope.

Lemma cf_eqb_eq : forall a b, cf_eqb a b = true <-> a = b.
Proof. intros [] []; cbn; split; intro H; try reflexivity; discriminate. Qed.
Lemma cf_eqb_refl : forall a, cf_eqb a a = true.
Proof. intros []; reflexivity. Qed.
Lemma cf_eqb_neq : forall a b, a <> b -> cf_eqb a b = false.
Proof. intros a b H. destruct (cf_eqb a b) eqn:E; auto. apply cf_eqb_eq in E. contradiction. Qed.
Lemma all_fields_in : forall f, In f all_fields.
Proof. intros []; cbn; tauto. Qed.
Lemma all_fields_nodup : NoDup all_fields.
Proof. unfold all_fields. repeat (constructor; [cbn; intuition discriminate|]). constructor. Qed.
Lemma field_of_own_type : forall f, field_of_type (cf_type f) = Some f.
Proof. intros []; reflexivity. Qed.
Lemma memf_in : forall f l, memf f l = true <-> In f l.
Proof.
  intros f l. unfold memf. rewrite existsb_exists. split.
  - intros (x & I & E). apply cf_eqb_eq in E. now subst.
  - intro I. exists f. split; auto. apply cf_eqb_refl.
Qed.
Lemma cp_has_iff : forall f p, cp_has f p = true <-> has f p.
Proof. intros f p. unfold cp_has, has. destruct (cp_val p f); split; intro H; eauto; try discriminate. destruct H; discriminate. Qed.

Lemma time_round : forall z, (- 2 ^ 63 <= z < 2 ^ 63)%Z -> u64_time (time_u64 z) = z /\ time_u64 z < 2 ^ 64.
Proof.
  intros z H. unfold time_u64, u64_time. destruct (Z.ltb_spec z 0).
  - rewrite <- (Z.mod_unique z (2 ^ 64) (-1) (z + 2 ^ 64)) by lia. destruct (N.ltb_spec (Z.to_N (z + 2 ^ 64)) (2 ^ 63)); [lia|]. split; lia.
  - rewrite Z.mod_small by lia. destruct (N.ltb_spec (Z.to_N z) (2 ^ 63)); lia.
Qed.
Lemma u64_range : forall n, n < 2 ^ 64 -> (- 2 ^ 63 <= u64_time n < 2 ^ 63)%Z.
Proof. intros n H. unfold u64_time. destruct (N.ltb_spec n (2 ^ 63)); lia. Qed.
Lemma readNNI_block : forall t n, n < 2 ^ 64 -> readNNIBlock (mkBlock t (encNNI n)) = Ok n.
Proof.
  intros t n H. unfold readNNIBlock. cbn [mkBlock e_val]. rewrite encNNI_len. pose proof (readNNI_enc n [] H) as R. rewrite app_nil_r in R. rewrite R. reflexivity.
Qed.
Lemma readNNI_lt : forall e n, readNNIBlock e = Ok n -> n < 2 ^ 64.
Proof.
  intros e n H. apply readNNIBlock_iff in H as [L ->]. rewrite big_endian_be_val. pose proof (be_val_lt (e_val e)) as B.
  destruct L as [X|[X|[X|X]]]; rewrite X in B; cbn in B; lia.
Qed.

Lemma num_wf : forall f n, elem_wf (mkBlock (cf_type f) (encNNI n)) /\ e_wire (mkBlock (cf_type f) (encNNI n)) = tlv_nni (cf_type f) n.
Proof.
  intros f n. split; [|apply mkBlock_wire]. apply mkBlock_wf; [destruct f; reflexivity|destruct f; reflexivity|]. rewrite encNNI_len.
  destruct (sizeOfNNI_cases n) as [->|[->|[->| ->]]]; reflexivity.
Qed.
Definition rounds (f : cfield) (v : cval) : Prop :=
  exists e w, elem_wf e /\ e_type e = cf_type f /\ e_wire e = cv_octets f v /\ cv_decode f e = Ok w /\ val_eq (Some w) (Some v).
Lemma round_num : forall f n, cf_kind f = KNum -> n < 2 ^ 64 -> rounds f (VNum n).
Proof.
  intros f n K L. destruct (num_wf f n) as [W WI]. eexists _, (VNum n). split; [exact W|]. split; [reflexivity|]. split; [unfold cv_octets; rewrite K; exact WI|].
  split; [|reflexivity]. unfold cv_decode. rewrite K, readNNI_block by exact L. reflexivity.
Qed.
Lemma round_enum : forall f n l, cf_kind f = KEnum l -> n < l -> l <= 2 ^ 64 -> rounds f (VNum n).
Proof.
  intros f n l K L LL. destruct (num_wf f n) as [W WI]. eexists _, (VNum n). split; [exact W|]. split; [reflexivity|]. split; [unfold cv_octets; rewrite K; exact WI|].
  split; [|reflexivity]. unfold cv_decode, readNNIBlockAs. rewrite K, readNNI_block by lia. cbn [bind]. destruct (N.leb_spec l n); [lia|reflexivity].
Qed.
Lemma round_time : forall f z, cf_kind f = KTime -> (- 2 ^ 63 <= z < 2 ^ 63)%Z -> rounds f (VTime z).
Proof.
  intros f z K L. destruct (time_round z L) as [TR TL]. destruct (num_wf f (time_u64 z)) as [W WI]. eexists _, (VTime z).
  split; [exact W|]. split; [reflexivity|]. split; [unfold cv_octets; rewrite K; exact WI|].
  split; [|reflexivity]. unfold cv_decode. rewrite K, readNNI_block by exact TL. cbn [bind]. now rewrite TR.
Qed.
Lemma round_str : forall f s, cf_kind f = KStr -> nlen s < two64 -> rounds f (VStr s).
Proof.
  intros f s K L. eexists (mkBlock (cf_type f) s), (VStr s). split; [apply mkBlock_wf; [destruct f; reflexivity|destruct f; reflexivity|exact L]|]. split; [reflexivity|].
  split; [unfold cv_octets; rewrite K; apply mkBlock_wire|]. split; [|reflexivity]. unfold cv_decode. rewrite K. reflexivity.
Qed.
Lemma round_name : forall n, Forall ctype_ok (n_comps n) -> nlen (nm_octets n) < two64 -> rounds FName (VName n).
Proof.
  intros n OK L. destruct (nm_decode_octets n OK L) as (e & n' & W & T & WI & D & K). exists e, (VName n'). splits; auto. unfold cv_decode. cbn [cf_kind]. rewrite D. reflexivity.
Qed.
Lemma round_nested : forall n, Forall ctype_ok (n_comps n) -> nlen (nm_octets n) < two64 -> rounds FStrategy (VName n).
Proof.
  intros n OK L. destruct (nm_decode_octets n OK L) as (e & n' & W & T & WI & D & K). exists (mkBlock 107 (nm_octets n)), (VName n').
  splits; [apply mkBlock_wf; [reflexivity|reflexivity|exact L]|reflexivity|apply mkBlock_wire| |exact K].
  unfold cv_decode. cbn [cf_kind mkBlock e_val]. assert (P : parseValue (nm_octets n) = Ok [e]) by (apply parseValue_ok_iff; split; [constructor; auto|cbn; rewrite app_nil_r; auto]).
  rewrite P. cbn [bind]. rewrite D. reflexivity.
Qed.
Lemma field_round : forall f v, val_ok f v -> nlen (cv_octets f v) < two64 -> rounds f v.
Proof.
  intros f v OK L. destruct f, v; cbn [val_ok] in OK; try contradiction;
    first [apply round_num; [reflexivity|exact OK] | eapply round_enum; [reflexivity|exact OK|discriminate] | apply round_time; [reflexivity|exact OK]
          | apply round_str; [reflexivity|]; unfold cv_octets in L; cbn [cf_kind] in L; rewrite tlv_enc_len in L; lia
          | apply round_name; [exact OK|exact L] | apply round_nested; [exact OK|]; unfold cv_octets in L; cbn [cf_kind] in L; rewrite tlv_enc_len in L; lia].
Qed.

(* the loop over the elements of an encoding *)
Lemma fields_round : forall p l, params_ok p -> NoDup l -> nlen (concat (map (fun f => match cp_val p f with Some v => cv_octets f v | None => [] end) l)) < two64 ->
  exists es, Forall elem_wf es /\ concat (map e_wire es) = concat (map (fun f => match cp_val p f with Some v => cv_octets f v | None => [] end) l) /\
    forall q, exists q', cp_loop es q = Ok q' /\ cp_wire q' = cp_wire q /\
      forall f, (In f l -> has f p -> val_eq (cp_val q' f) (cp_val p f)) /\ (~ (In f l /\ has f p) -> cp_val q' f = cp_val q f).
Proof.
  intros p l OK. induction l as [|f l IH]; intros ND L.
  - exists []. splits; auto. intro q. exists q. splits; auto. intro f. split; [intros []|auto].
  - inversion ND as [|? ? NI ND1]; subst. cbn [map concat] in *. rewrite nlen_app in L. destruct IH as (es & W & C & LO); [exact ND1|lia|].
    destruct (cp_val p f) as [v|] eqn:V.
    + destruct (field_round f v (OK _ _ V)) as (e & w & We & Te & Wi & De & Eq); [lia|].
      exists (e :: es). split; [constructor; auto|]. split; [cbn [map concat]; now rewrite Wi, C|].
      intro q. cbn [cp_loop]. rewrite Te, field_of_own_type, De. cbn [bind].
      destruct (LO (mkCp (fun g => if cf_eqb f g then Some w else cp_val q g) (cp_wire q))) as (q' & L1 & L2 & L3). exists q'. splits; auto.
      intro g. destruct (L3 g) as [L4 L5]. split.
      * intros [<-|I] H; [|auto]. rewrite L5 by (intros [X _]; contradiction). cbn [cp_val]. rewrite cf_eqb_refl, V. exact Eq.
      * intro N. rewrite L5 by (intros [X Y]; apply N; split; [right|]; auto). cbn [cp_val]. rewrite cf_eqb_neq; auto. intros ->. apply N. split; [now left|]. exists v. exact V.
    + exists es. splits; auto. intro q. destruct (LO q) as (q' & L1 & L2 & L3). exists q'. splits; auto. intro g. destruct (L3 g) as [L4 L5]. split.
      * intros [<-|I] H; [|auto]. destruct H; congruence.
      * intro N. apply L5. intros [X Y]. apply N. split; [now right|auto].
Qed.

Lemma cv_decode_ok : forall f e v, cv_decode f e = Ok v -> val_ok f v.
Proof.
  intros f e v H. unfold cv_decode in H.
  assert (NUM : forall w, (let! n := readNNIBlock e in Ok (VNum n)) = Ok w -> exists n, w = VNum n /\ n < 2 ^ 64).
  { intros w X. inv_bind X. apply Ok_inj in X as <-. eauto using readNNI_lt. }
  assert (ENUM : forall l w, (let! n := readNNIBlockAs l e in Ok (VNum n)) = Ok w -> exists n, w = VNum n /\ n < l).
  { intros l w X. inv_bind X. apply Ok_inj in X as <-. unfold readNNIBlockAs in E. inv_bind E. destruct (N.leb_spec l a0); [discriminate|]. apply Ok_inj in E as <-. eauto. }
  assert (TIME : forall w, (let! n := readNNIBlock e in Ok (VTime (u64_time n))) = Ok w -> exists z, w = VTime z /\ (- 2 ^ 63 <= z < 2 ^ 63)%Z).
  { intros w X. inv_bind X. apply Ok_inj in X as <-. eauto using u64_range, readNNI_lt. }
  destruct f; cbn [cf_kind] in H;
    try (apply NUM in H as (n & -> & L); exact L); try (apply ENUM in H as (n & -> & L); exact L); try (apply TIME in H as (z & -> & L); exact L);
    try (apply Ok_inj in H as <-; exact Logic.I).
  - inv_bind H. apply Ok_inj in H as <-. eapply nm_decode_ok; eauto.
  - inv_bind H. destruct a as [|x es]; [discriminate|]. inv_bind H. apply Ok_inj in H as <-. eapply nm_decode_ok; eauto.
Qed.
Lemma cp_loop_ok : forall es p q, cp_loop es p = Ok q -> params_ok p -> params_ok q /\ cp_wire q = cp_wire p.
Proof.
  induction es as [|e es IH]; intros p q H OK; cbn [cp_loop] in H; [apply Ok_inj in H as <-; auto|].
  destruct (field_of_type (e_type e)) as [f|]; [|eauto]. inv_bind H. apply IH in H as [H1 H2]; [auto|].
  intros g v G. cbn [cp_val] in G. destruct (cf_eqb f g) eqn:X; [|eauto]. apply cf_eqb_eq in X as <-. injection G as <-. eapply cv_decode_ok; eauto.
Qed.
Lemma cp_decode_ok : forall e q, cp_decode e = Ok q -> params_ok q /\ cp_wire q = Some e.
Proof.
  intros e q H. unfold cp_decode in H. destruct (negb _); [discriminate|]. inv_bind H. apply cp_loop_ok in H; auto. intros f v X. discriminate.
Qed.
Lemma val_eq_refl : forall a, val_eq a a.
Proof. intros [[]|]; cbn; auto. Qed.
Lemma val_eq_sym : forall a b, val_eq a b -> val_eq b a.
Proof. intros [[]|] [[]|]; cbn; intuition congruence. Qed.
Lemma val_eq_trans : forall a b c, val_eq a b -> val_eq b c -> val_eq a c.
Proof. intros [[]|] [[]|] [[]|]; cbn; intuition congruence. Qed.

Lemma encode_fresh : forall p, params_ok p -> cp_wire p = None -> nlen (tlv_enc 104 (cp_value p)) <= MAX_BUFFER ->
  exists q, cp_encode p = Ok (mkBlock 104 (cp_value p), mkCp (cp_val p) (Some (mkBlock 104 (cp_value p)))) /\ elem_wf (mkBlock 104 (cp_value p)) /\
    cp_decode (mkBlock 104 (cp_value p)) = Ok q /\ same_params q p.
Proof.
  intros p OK W L. pose proof L as L'. rewrite tlv_enc_len in L'. unfold MAX_BUFFER in L'. assert (LV : nlen (cp_value p) < two64) by (unfold two64; lia).
  assert (WF : elem_wf (mkBlock 104 (cp_value p))) by (apply mkBlock_wf; [reflexivity|reflexivity|exact LV]).
  destruct (fields_round p all_fields OK all_fields_nodup LV) as (es & We & Ce & LO). destruct (LO (mkCp (fun _ => None) (Some (mkBlock 104 (cp_value p))))) as (q & L1 & L2 & L3).
  exists q. splits; auto.
  - unfold cp_encode. rewrite W. change tControlParameters with 104. unfold alloc. destruct (N.ltb_spec MAX_BUFFER (nlen (tlv_enc 104 (cp_value p)))); [lia|]. cbn [bind]. rewrite <- mkBlock_wire, blockFromWire_wf by exact WF. reflexivity.
  - unfold cp_decode. cbn [mkBlock e_type e_val]. change (negb (104 =? tControlParameters)) with false. cbn [negb].
    assert (P : parseValue (cp_value p) = Ok es) by (apply parseValue_ok_iff; split; [exact We|symmetry; exact Ce]). rewrite P. cbn [bind]. exact L1.
  - intro f. destruct (L3 f) as [A B]. destruct (cp_has f p) eqn:H.
    + apply A; [apply all_fields_in|now apply cp_has_iff].
    + rewrite B; [|intros [_ X]; apply cp_has_iff in X; congruence]. unfold cp_has in H. destruct (cp_val p f); [discriminate|exact Logic.I].
Qed.

(* reachable states *)
Definition cp_inv (p : cparams) : Prop :=
  params_ok p /\ forall e, cp_wire p = Some e -> elem_wf e /\ exists q, cp_decode e = Ok q /\ same_params q p.
Lemma put_ok : forall f v p, params_ok p -> (forall x, v = Some x -> val_ok f x) -> cp_inv (cp_put f v p).
Proof.
  intros f v p OK V. split; [|discriminate]. intros g x G. cbn in G. destruct (cf_eqb f g) eqn:E; [|eauto]. apply cf_eqb_eq in E as <-. auto.
Qed.
Lemma num_lt : forall f p n, params_ok p -> cp_num f p = Ok n -> n < 2 ^ 64.
Proof.
  intros f p n OK H. unfold cp_num in H. destruct (cp_val p f) as [[]|] eqn:E; try discriminate. apply Ok_inj in H as <-. apply OK in E. destruct f; cbn in E; try contradiction; lia.
Qed.
Lemma one_shl_lt : forall b m, one_shl b = Ok m -> m < 2 ^ 64.
Proof.
  intros b m H. unfold one_shl in H. destruct (N.ltb_spec b 31); [apply Ok_inj in H as <-; apply N.pow_lt_mono_r; lia|]. destruct (b =? 31); [|discriminate]. apply Ok_inj in H as <-. reflexivity.
Qed.
Lemma lor_lt : forall a b, a < 2 ^ 64 -> b < 2 ^ 64 -> N.lor a b < 2 ^ 64.
Proof.
  intros a b A B. destruct (N.eq_dec (N.lor a b) 0) as [->|Z]; [lia|]. apply N.log2_lt_pow2; [lia|]. rewrite N.log2_lor.
  destruct (N.eq_dec a 0) as [->|]; destruct (N.eq_dec b 0) as [->|]; cbn [N.log2]; try lia;
  try (apply N.max_lub_lt; try (apply N.log2_lt_pow2; lia); cbn; lia).
Qed.
Lemma land_lt : forall a b, a < 2 ^ 64 -> N.land a b < 2 ^ 64.
Proof.
  intros a b A. destruct (N.eq_dec (N.land a b) 0) as [->|Z]; [lia|]. apply N.log2_lt_pow2; [lia|]. eapply N.le_lt_trans; [apply N.log2_land|].
  destruct (N.eq_dec a 0) as [->|]; [rewrite N.land_0_l in Z; lia|]. assert (N.log2 a < 64) by (apply N.log2_lt_pow2; lia). lia.
Qed.
Lemma word_or_0 : forall f p n, params_ok p -> (if cp_has f p then cp_num f p else Ok 0) = Ok n -> n < 2 ^ 64.
Proof. intros f p n OK H. destruct (cp_has f p); [eapply num_lt; eauto|]. apply Ok_inj in H as <-. reflexivity. Qed.
Lemma step_cp_inv : forall o p q, cp_inv p -> op_ok o -> cp_step o p = Some q -> cp_inv q.
Proof.
  intros o p q [OK WI] OO H. destruct o as [f v|f|b v m|b| |e]; cbn [cp_step] in H.
  - injection H as <-. apply put_ok; auto. intros x E. injection E as <-. exact OO.
  - injection H as <-. apply put_ok; auto. discriminate.
  - destruct (cp_setFlagBit b v m p) as [r|x] eqn:E; [injection H as ->|destruct x; try discriminate; injection H as <-; split; auto].
    unfold cp_setFlagBit in E. destruct (64 <=? b); [discriminate|]. inv_bind E. inv_bind E.
    assert (LA : a < 2 ^ 64) by (eapply word_or_0; eauto). assert (LM : a0 < 2 ^ 64) by (eapply one_shl_lt; eauto).
    set (p1 := cp_set FFlags (VNum (if v then N.lor a a0 else N.land a (not64 a0))) p) in *.
    assert (I1 : cp_inv p1). { apply put_ok; auto. intros x X. injection X as <-. cbn. destruct v; [apply lor_lt|apply land_lt]; auto. }
    destruct m; [|apply Ok_inj in E as <-; exact I1]. inv_bind E. apply Ok_inj in E as <-. destruct I1 as [O1 _].
    apply put_ok; auto. intros x X. injection X as <-. cbn. apply lor_lt; auto. eapply word_or_0; [exact O1|eauto].
  - destruct (cp_unsetFlagBit b p) as [r|x] eqn:E; [injection H as ->|destruct x; try discriminate; injection H as <-; split; auto].
    unfold cp_unsetFlagBit in E. destruct (64 <=? b); [discriminate|]. inv_bind E. inv_bind E.
    assert (LA : a < 2 ^ 64) by (eapply word_or_0; eauto).
    destruct (_ =? 0); apply Ok_inj in E as <-.
    + apply put_ok; [|discriminate]. apply put_ok; auto. discriminate.
    + apply put_ok; auto. intros x X. injection X as <-. cbn. apply land_lt; auto.
  - destruct (cp_encode p) as [[e r]|x] eqn:E; [injection H as ->|injection H as <-; split; auto].
    unfold cp_encode in E. destruct (cp_wire p) as [e0|] eqn:W; [apply Ok_inj in E; injection E as <- <-; split; auto; intros e1 X; apply WI; congruence|].
    unfold alloc in E. destruct (MAX_BUFFER <? _) eqn:LB; [discriminate|]. cbn [bind] in E.
    destruct (encode_fresh p OK W) as (q' & E1 & E2 & E3 & E4); [change tControlParameters with 104 in LB; lia|].
    assert (X : cp_encode p = Ok (e, q)). { unfold cp_encode. rewrite W. unfold alloc. rewrite LB. exact E. }
    rewrite E1 in X. apply Ok_inj in X. injection X as <- <-. split; [exact OK|]. cbn [cp_wire]. intros e1 Y. injection Y as <-. split; [exact E2|]. exists q'. split; auto.
  - destruct (cp_decode e) as [r|x] eqn:E; [injection H as ->|discriminate]. destruct (cp_decode_ok _ _ E) as [O1 W1]. split; auto.
    intros e1 X. rewrite W1 in X. injection X as <-. destruct OO as [w Hw]. apply blockFromWire_inv in Hw as [Hw _]. split; auto. exists q. split; auto. intro f. apply val_eq_refl.
Qed.
Lemma run_cp_inv : forall l p q, cp_inv p -> Forall op_ok l -> cp_run l p = Some q -> cp_inv q.
Proof.
  induction l as [|o l IH]; intros p q I F H; cbn in H; [injection H as <-; auto|]. inversion F; subst. destruct (cp_step o p) as [p1|] eqn:E; [|discriminate].
  apply (IH p1); auto. eapply step_cp_inv; [exact I| |exact E]. assumption.
Qed.

(* bits *)
Lemma not64_spec : forall m j, m < 2 ^ 64 -> j < 64 -> N.testbit (not64 m) j = negb (N.testbit m j).
Proof.
  intros m j M J. assert (E : not64 m = N.lnot m 64).
  { destruct (N.eq_dec m 0) as [->|NZ]; [reflexivity|]. rewrite N.lnot_sub_low by (apply N.log2_lt_pow2; lia). reflexivity. }
  rewrite E. apply N.lnot_spec_low. exact J.
Qed.
Lemma testbit_pow : forall b j, N.testbit (2 ^ b) j = (b =? j).
Proof. intros b j. apply N.pow2_bits_eqb. Qed.
Lemma land_pow : forall w b, negb (N.land w (2 ^ b) =? 0) = N.testbit w b.
Proof.
  intros w b. destruct (N.testbit w b) eqn:T.
  - destruct (N.eqb_spec (N.land w (2 ^ b)) 0) as [Z|Z]; auto. apply (f_equal (fun x => N.testbit x b)) in Z. rewrite N.land_spec, T, N.pow2_bits_true, N.bits_0 in Z. discriminate.
  - destruct (N.eqb_spec (N.land w (2 ^ b)) 0) as [Z|Z]; auto. exfalso. apply Z. apply N.bits_inj. intro j. rewrite N.land_spec, N.pow2_bits_eqb, N.bits_0.
    destruct (N.eqb_spec b j) as [<-|]; [now rewrite T|]. apply andb_false_r.
Qed.

Lemma one_shl_31 : forall b, b < 31 -> one_shl b = Ok (2 ^ b).
Proof. intros b L. unfold one_shl. destruct (N.ltb_spec b 31); [reflexivity|lia]. Qed.
Lemma pow_64 : forall b, b < 31 -> 2 ^ b < 2 ^ 64.
Proof. intros b L. apply N.pow_lt_mono_r; lia. Qed.
Lemma word_num : forall f p, params_ok p -> cf_kind f = KNum -> (if cp_has f p then cp_num f p else Ok 0) = Ok (word f p).
Proof.
  intros f p OK K. unfold cp_has, cp_num, word. destruct (cp_val p f) as [v|] eqn:E; [|reflexivity]. apply OK in E. destruct f; try discriminate K; destruct v; cbn in E; try contradiction; reflexivity.
Qed.
Lemma bit_word : forall f b p, params_ok p -> cf_kind f = KNum -> b < 31 -> cp_bit f b p = Ok (N.testbit (word f p) b).
Proof.
  intros f b p OK K L. unfold cp_bit. destruct (N.leb_spec 64 b); [lia|]. pose proof (word_num f p OK K) as W. destruct (cp_has f p) eqn:HP; cbn [negb].
  - rewrite W. cbn [bind]. rewrite one_shl_31 by lia. cbn [bind]. now rewrite land_pow.
  - apply Ok_inj in W. rewrite <- W, N.bits_0. reflexivity.
Qed.
Lemma clear_bit : forall w b j, b < 31 -> w < 2 ^ 64 -> N.testbit (N.land w (not64 (2 ^ b))) j = if j =? b then false else N.testbit w j.
Proof.
  intros w b j L W. rewrite N.land_spec. destruct (N.ltb_spec j 64).
  - rewrite not64_spec, testbit_pow by (auto using pow_64). rewrite N.eqb_sym. destruct (j =? b); cbn; [apply andb_false_r|apply andb_true_r].
  - assert (N.testbit w j = false) as ->. { destruct (N.eq_dec w 0) as [->|]; [apply N.bits_0|]. apply N.bits_above_log2. apply N.lt_le_trans with 64; [|lia]. apply N.log2_lt_pow2; lia. }
    destruct (j =? b); reflexivity.
Qed.
Lemma set_bit : forall w b j, N.testbit (N.lor w (2 ^ b)) j = if j =? b then true else N.testbit w j.
Proof. intros w b j. rewrite N.lor_spec, testbit_pow, N.eqb_sym. destruct (j =? b); [apply orb_true_r|apply orb_false_r]. Qed.

Lemma setFlagBit_spec : forall b v m p, params_ok p -> b < 31 -> exists q, cp_setFlagBit b v m p = Ok q /\ has FFlags q /\
  (forall j, N.testbit (word FFlags q) j = if j =? b then v else N.testbit (word FFlags p) j) /\
  (m = true -> has FMask q) /\
  (forall j, N.testbit (word FMask q) j = if m && (j =? b) then true else N.testbit (word FMask p) j) /\
  (forall f, f <> FFlags -> (m = true -> f <> FMask) -> cp_val q f = cp_val p f).
Proof.
  intros b v m p OK L. unfold cp_setFlagBit. destruct (N.leb_spec 64 b); [lia|].
  rewrite (word_num FFlags) by auto. cbn [bind]. rewrite one_shl_31 by lia. cbn [bind].
  set (w := if v then _ else _). assert (WB : forall j, N.testbit w j = if j =? b then v else N.testbit (word FFlags p) j).
  { intro j. unfold w. destruct v; [apply set_bit|apply clear_bit; auto]. unfold word. destruct (cp_val p FFlags) as [[]|] eqn:E; try lia. apply OK in E. exact E. }
  assert (OK1 : params_ok (cp_set FFlags (VNum w) p)).
  { apply put_ok; auto. intros x X. injection X as <-. cbn. unfold w. assert (word FFlags p < 2 ^ 64) by (unfold word; destruct (cp_val p FFlags) as [[]|] eqn:E; try lia; apply OK in E; exact E).
    destruct v; [apply lor_lt; auto using pow_64|apply land_lt; auto]. }
  destruct m.
  - rewrite (word_num FMask) by auto. cbn [bind]. eexists. split; [reflexivity|]. splits.
    + exists (VNum w). reflexivity.
    + exact WB.
    + intros _. eexists. reflexivity.
    + intro j. unfold word at 1. cbn [cp_set cp_put cp_val cf_eqb]. rewrite set_bit. reflexivity.
    + intros f F1 F2. cbn [cp_set cp_put cp_val]. rewrite !cf_eqb_neq; auto. apply not_eq_sym. auto.
  - eexists. split; [reflexivity|]. splits.
    + exists (VNum w). reflexivity.
    + exact WB.
    + discriminate.
    + intro j. reflexivity.
    + intros f F1 F2. cbn [cp_set cp_put cp_val]. rewrite !cf_eqb_neq; auto.
Qed.
Lemma unsetFlagBit_spec : forall b p, params_ok p -> b < 31 -> exists q, cp_unsetFlagBit b p = Ok q /\
  (forall j, N.testbit (word FMask q) j = if j =? b then false else N.testbit (word FMask p) j) /\
  (forall f, f <> FFlags -> f <> FMask -> cp_val q f = cp_val p f) /\
  ((word FMask q <> 0 /\ has FMask q /\ cp_val q FFlags = cp_val p FFlags) \/ (word FMask q = 0 /\ ~ has FMask q /\ ~ has FFlags q)).
Proof.
  intros b p OK L. unfold cp_unsetFlagBit. destruct (N.leb_spec 64 b); [lia|].
  rewrite (word_num FMask) by auto. cbn [bind]. rewrite one_shl_31 by lia. cbn [bind].
  set (w := N.land _ _). assert (WB : forall j, N.testbit w j = if j =? b then false else N.testbit (word FMask p) j).
  { intro j. apply clear_bit; auto. unfold word. destruct (cp_val p FMask) as [[]|] eqn:E; try lia. apply OK in E. exact E. }
  destruct (N.eqb_spec w 0) as [Z|Z].
  - eexists. split; [reflexivity|]. splits.
    + intro j. rewrite <- WB, Z. reflexivity.
    + intros f F1 F2. cbn [cp_unset cp_put cp_val]. rewrite !cf_eqb_neq; auto.
    + right. splits; [reflexivity| |]; intros [v X]; discriminate X.
  - eexists. split; [reflexivity|]. splits.
    + exact WB.
    + intros f F1 F2. cbn [cp_set cp_put cp_val]. rewrite !cf_eqb_neq; auto.
    + left. splits; [exact Z|eexists; reflexivity|reflexivity].
Qed.

(* formats *)
Lemma has_iff : forall f p, cp_has f p = true <-> has f p.
Proof. intros f p. unfold cp_has, has. destruct (cp_val p f); split; intro H; eauto; [discriminate|destruct H; discriminate]. Qed.
Lemma fmt_loop_iff : forall fm p l, fmt_loop fm p l = None <-> (forall f, In f l -> In f (cm_required fm) -> has f p) /\ (forall f, In f l -> has f p -> In f (cm_required fm) \/ In f (cm_optional fm)).
Proof.
  intros fm p l. induction l as [|f l IH]; cbn [fmt_loop]; [split; [intros _; split; intros f []|reflexivity]|].
  destruct (memf f (cm_required fm)) eqn:R.
  - apply memf_in in R. destruct (cp_has f p) eqn:H; cbn [negb].
    + apply has_iff in H. rewrite IH. split; intros [A B]; split.
      * intros g [<-|G]; auto.
      * intros g [<-|G]; auto.
      * intros g G. apply A. now right.
      * intros g G. apply B. now right.
    + split; [discriminate|]. intros [A _]. specialize (A f (or_introl eq_refl) R). apply has_iff in A. congruence.
  - assert (NR : ~ In f (cm_required fm)) by (intro X; apply memf_in in X; congruence). destruct (cp_has f p && negb (memf f (cm_optional fm))) eqn:X.
    + split; [discriminate|]. apply andb_prop in X as [X1 X2]. apply has_iff in X1. intros [_ B]. destruct (B f (or_introl eq_refl) X1) as [Y|Y]; [contradiction|]. apply memf_in in Y. rewrite Y in X2. discriminate.
    + rewrite IH. split; intros [A B]; split.
      * intros g [<-|G]; [contradiction|auto].
      * intros g [<-|G] H; [|auto]. right. apply has_iff in H. rewrite H in X. cbn in X. apply memf_in. now destruct (memf f (cm_optional fm)).
      * intros g G. apply A. now right.
      * intros g G. apply B. now right.
Qed.
Lemma fmt_validate_iff : forall fm p, fmt_validate fm p = None <-> accepts (cm_required fm) (cm_optional fm) p.
Proof.
  intros fm p. unfold fmt_validate, accepts. destruct (fmt_loop fm p all_fields) as [x|] eqn:E.
  - split; [discriminate|]. intros (A & B & _). assert (fmt_loop fm p all_fields = None) by (apply fmt_loop_iff; split; auto). congruence.
  - apply fmt_loop_iff in E as [A B]. assert (A' : forall f, In f (cm_required fm) -> has f p) by (intros f; apply A, all_fields_in).
    assert (B' : forall f, has f p -> In f (cm_required fm) \/ In f (cm_optional fm)) by (intros f; apply B, all_fields_in).
    rewrite <- !memf_in, <- !has_iff. destruct (memf FFlags _); destruct (memf FMask _); cbn [andb]; try (split; [intros _; splits; auto; intros; discriminate|reflexivity]).
    destruct (cp_has FFlags p), (cp_has FMask p); cbn [Bool.eqb negb]; split; intro X; try reflexivity; try discriminate X.
    + splits; auto. intros _ _. tauto.
    + destruct X as (_ & _ & X). destruct X as [X _]; auto. discriminate (X eq_refl).
    + destruct X as (_ & _ & X). destruct X as [_ X]; auto. discriminate (X eq_refl).
    + splits; auto. intros _ _. tauto.
Qed.
Lemma fmt_loop_err : forall fm p l x, fmt_loop fm p l = Some x -> x = EInvalidArg.
Proof.
  intros fm p. induction l as [|f l IH]; cbn; intros x H; [discriminate|]. destruct (memf f (cm_required fm)); [destruct (negb _)|destruct (_ && _)]; try congruence; auto.
Qed.
Lemma fmt_validate_err : forall fm p x, fmt_validate fm p = Some x -> x = EInvalidArg.
Proof.
  intros fm p x H. unfold fmt_validate in H. destruct (fmt_loop _ _ _) eqn:E; [injection H as <-; eapply fmt_loop_err; eauto|]. destruct (_ && _); congruence.
Qed.
Lemma accepts_perm : forall r o r' o' p, (forall f, In f r <-> In f r') -> (forall f, In f o <-> In f o') -> accepts r o p <-> accepts r' o' p.
Proof.
  intros r o r' o' p R O. unfold accepts. split; intros (A & B & C); splits.
  - intros f X. apply A, R, X.
  - intros f X. rewrite <- R, <- O. auto.
  - rewrite <- !O. exact C.
  - intros f X. apply A, R, X.
  - intros f X. rewrite R, O. auto.
  - rewrite !O. exact C.
Qed.
Lemma face_valid_iff : forall p, params_ok p -> has FFaceId p -> (face_valid p = None <-> nonzero FFaceId p) /\ (forall x, face_valid p = Some x -> x = EInvalidArg).
Proof.
  intros p OK [v H]. unfold face_valid, cp_num, nonzero. rewrite H. pose proof (OK _ _ H) as V. destruct v; cbn in V; try contradiction.
  destruct (N.eqb_spec n 0); split; [split; [discriminate|intro X; exfalso; exact (X _ eq_refl e)]|congruence|split; [intros _ m [= <-]; auto|reflexivity]|discriminate].
Qed.
Lemma positive_iff : forall f p, params_ok p -> cf_kind f = KNum -> (positive_if_present f p = None <-> nonzero f p) /\ (forall x, positive_if_present f p = Some x -> x = EInvalidArg).
Proof.
  intros f p OK K. unfold positive_if_present, cp_has, cp_num, nonzero. destruct (cp_val p f) as [v|] eqn:H; [|split; [split; [discriminate|reflexivity]|discriminate]].
  pose proof (OK _ _ H) as V. assert (exists n, v = VNum n) as [n ->] by (destruct f; try discriminate K; destruct v; cbn in V; try contradiction; eauto).
  destruct (N.eqb_spec n 0); split; [split; [discriminate|intro X; exfalso; exact (X _ eq_refl e)]|congruence|split; [intros _ m [= <-]; auto|reflexivity]|discriminate].
Qed.
Lemma name_nonempty_iff : forall p, params_ok p -> has FName p ->
  (name_nonempty p = None <-> (forall n, cp_val p FName = Some (VName n) -> n_comps n <> [])) /\ (forall x, name_nonempty p = Some x -> x = EInvalidArg).
Proof.
  intros p OK [v H]. unfold name_nonempty, cp_name. rewrite H. pose proof (OK _ _ H) as V. destruct v; cbn in V; try contradiction.
  unfold nm_size. destruct (n_comps n) as [|c l] eqn:E.
  - split; [split; [discriminate|intro X; exfalso; exact (X _ eq_refl E)]|intros x X; vm_compute in X; congruence].
  - rewrite nlen_cons. destruct (N.eqb_spec (1 + nlen l) 0); [lia|]. split; [split; [intros _ m [= <-]; rewrite E; discriminate|reflexivity]|discriminate].
Qed.

(* what is on the wire *)
Lemma number_type : forall f, cf_type f = field_number f.
Proof. intros []; reflexivity. Qed.
Lemma time_mod : forall z, ((Z.of_N (time_u64 z) - z) mod 2 ^ 64 = 0)%Z.
Proof.
  intro z. unfold time_u64. rewrite Z2N.id by (apply Z.mod_pos_bound; reflexivity). rewrite (Z.mod_eq z) by discriminate.
  replace (z - 2 ^ 64 * (z / 2 ^ 64) - z)%Z with (- (z / 2 ^ 64) * 2 ^ 64)%Z by lia. apply Z.mod_mul. discriminate.
Qed.
Lemma u64_mod : forall n, ((Z.of_N n - u64_time n) mod 2 ^ 64 = 0)%Z.
Proof.
  intro n. unfold u64_time. destruct (n <? 2 ^ 63); [rewrite Z.sub_diag; reflexivity|]. replace (Z.of_N n - (Z.of_N n - 2 ^ 64))%Z with (2 ^ 64)%Z by lia. reflexivity.
Qed.
Lemma time_u64_lt : forall z, time_u64 z < 2 ^ 64.
Proof. intro z. unfold time_u64. pose proof (Z.mod_pos_bound z (2 ^ 64) eq_refl). lia. Qed.
Lemma octets_wire : forall p f v, cp_val p f = Some v -> val_ok f v -> nlen (cv_octets f v) < two64 -> field_wire p f (cv_octets f v).
Proof.
  intros p f v V OK L.
  assert (NUM : forall n, n < 2 ^ 64 -> is_nni n (encNNI n) /\ is_tlv (field_number f) (encNNI n) (tlv_nni (cf_type f) n)).
  { intros n H. split; [apply (encNNI_shortest n H)|]. rewrite <- number_type. destruct (num_wf f n) as [W WI]. rewrite <- WI. apply is_tlv_elem. eexists. split; [exact W|]. auto. }
  exists v. unfold cv_octets in *. destruct f, v; cbn [val_ok] in OK; try contradiction; cbn [cf_kind] in *;
    try (destruct (NUM n) as [N1 N2]; [first [exact OK|lia]|]; exists (encNNI n); split; [exact V|split; [exact N1|exact N2]]);
    try (destruct (NUM (time_u64 z)) as [N1 N2]; [apply time_u64_lt|]; exists (encNNI (time_u64 z)); split; [exact V|]; split; [exists (time_u64 z); split; [exact N1|apply time_mod]|exact N2]);
    try (exists s; split; [exact V|]; split; [reflexivity|]; apply tlv_enc_is; [reflexivity|reflexivity|]; rewrite tlv_enc_len in L; lia).
  - destruct (nm_octets_is n OK L) as (x & X1 & X2). exists x. splits; auto.
  - rewrite tlv_enc_len in L. destruct (nm_octets_is n OK) as (x & X1 & X2); [lia|]. exists (nm_octets n). splits; auto; [exists x; auto|]. apply tlv_enc_is; [reflexivity|reflexivity|lia].
Qed.
Lemma fields_wire : forall p l, params_ok p -> nlen (concat (map (fun f => match cp_val p f with Some v => cv_octets f v | None => [] end) l)) < two64 ->
  exists ws, Forall2 (field_wire p) (filter (fun f => cp_has f p) l) ws /\ concat (map (fun f => match cp_val p f with Some v => cv_octets f v | None => [] end) l) = concat ws.
Proof.
  intros p l OK. induction l as [|f l IH]; intro L; [exists []; split; [constructor|reflexivity]|]. cbn [map concat filter] in *. rewrite nlen_app in L. destruct IH as (ws & F & C); [lia|].
  unfold cp_has at 1. destruct (cp_val p f) as [v|] eqn:V.
  - exists (cv_octets f v :: ws). split; [constructor; auto; apply octets_wire; auto; lia|]. cbn [concat]. now rewrite C.
  - exists ws. auto.
Qed.
Lemma cv_decode_reads : forall f e v, cv_decode f e = Ok v -> field_reads f v (e_val e).
Proof.
  intros f e v H. unfold cv_decode in H.
  assert (NUM : forall w, (let! n := readNNIBlock e in Ok (VNum n)) = Ok w -> field_value f w (e_val e)).
  { intros w X. inv_bind X. apply Ok_inj in X as <-. now apply readNNIBlock_iff. }
  assert (ENUM : forall l w, (let! n := readNNIBlockAs l e in Ok (VNum n)) = Ok w -> field_value f w (e_val e)).
  { intros l w X. inv_bind X. apply Ok_inj in X as <-. unfold readNNIBlockAs in E. inv_bind E. destruct (N.leb_spec l a0); [discriminate|]. apply Ok_inj in E as <-. now apply readNNIBlock_iff. }
  assert (TIME : forall w, (let! n := readNNIBlock e in Ok (VTime (u64_time n))) = Ok w -> field_value f w (e_val e)).
  { intros w X. inv_bind X. apply Ok_inj in X as <-. exists a. split; [now apply readNNIBlock_iff|apply u64_mod]. }
  destruct f; cbn [cf_kind] in H; try exact (NUM _ H); try exact (ENUM _ _ H); try exact (TIME _ H); try (apply Ok_inj in H as <-; reflexivity).
  - inv_bind H. apply Ok_inj in H as <-. now apply nm_decode_keys in E.
  - inv_bind H. destruct a as [|x es]; [discriminate|]. inv_bind H. apply Ok_inj in H as <-. apply parseValue_ok_iff in E as [W C]. apply nm_decode_keys in E0 as (T & SQ & _).
    cbn [map concat] in C. exists (e_wire x), (concat (map e_wire es)). split; [exact C|]. exists (e_val x). split; [exact SQ|]. apply is_tlv_elem. exists x. inversion W; subst. auto.
Qed.
Lemma field_of_type_iff : forall t f, field_of_type t = Some f <-> field_number f = t.
Proof.
  intros t f. unfold field_of_type. split.
  - intro H. apply find_some in H as [_ H]. rewrite <- number_type. lia.
  - intros <-. rewrite <- number_type. apply field_of_own_type.
Qed.
Lemma cp_loop_reads : forall es p q, cp_loop es p = Ok q -> forall f,
  match last_of (field_number f) (map (fun e => (e_type e, e_val e)) es) with None => cp_val q f = cp_val p f | Some d => exists v, cp_val q f = Some v /\ field_reads f v d end.
Proof.
  induction es as [|e es IH]; intros p q H f; cbn [cp_loop] in H; [apply Ok_inj in H as <-; reflexivity|]. cbn [map last_of].
  destruct (field_of_type (e_type e)) as [g|] eqn:G.
  - inv_bind H. specialize (IH _ _ H f). destruct (last_of (field_number f) _) as [d|]; [exact IH|]. apply field_of_type_iff in G. cbn [cp_val] in IH. rewrite IH.
    destruct (N.eqb_spec (e_type e) (field_number f)) as [T|T].
    + assert (g = f) as ->. { assert (X : field_of_type (e_type e) = Some f) by (apply field_of_type_iff; auto). apply field_of_type_iff in G. congruence. } rewrite cf_eqb_refl. exists a. split; auto. now apply cv_decode_reads.
    + rewrite cf_eqb_neq; [reflexivity|]. intros ->. auto.
  - specialize (IH _ _ H f). destruct (last_of (field_number f) _) as [d|]; [exact IH|]. destruct (N.eqb_spec (e_type e) (field_number f)) as [T|T]; [|exact IH].
    symmetry in T. apply field_of_type_iff in T. congruence.
Qed.

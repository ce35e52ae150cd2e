(* Proofs for C51 and C52: parsing, traces, the command policy *)
From Verif Require Import Base BaseLemmas M_Tlv S_Tlv P_Tlv P_Block M_Str M_Name S_Name P_NameUri M_Packet M_Ims P_Ims M_Control M_Signer M_IntPolicy S_IntPolicy.
From Coq Require Import ZArith Lia ZifyBool ZifyNat ZifyN Permutation.
Open Scope N_scope.
Open Scope Z_scope.

(* ---- parsing ---- *)
Lemma i64_ok : forall z, - 2 ^ 63 <= z < 2 ^ 63 -> i64 z = Ok z.
Proof. intros z H. unfold i64. destruct ((- 2 ^ 63 <=? z) && (z <? 2 ^ 63)) eqn:E; [reflexivity|lia]. Qed.
Lemma i64_inv : forall z w, i64 z = Ok w -> w = z /\ - 2 ^ 63 <= z < 2 ^ 63.
Proof. intros z w H. unfold i64 in H. destruct ((- 2 ^ 63 <=? z) && (z <? 2 ^ 63)) eqn:E; [|discriminate]. injection H as <-. split; [reflexivity|lia]. Qed.
Lemma i64_err : forall z e, i64 z = Err e -> e = EUb.
Proof. intros z e H. unfold i64 in H. destruct ((- 2 ^ 63 <=? z) && (z <? 2 ^ 63)); congruence. Qed.

Lemma key_name_iff : forall si k, getKeyLocatorName si = PGo k <-> key_name si k.
Proof.
  intros si k. unfold getKeyLocatorName, key_name, tDigestSha256, digestIdentity. destruct (si_type si) as [t|] eqn:T.
  - destruct (N.eqb_spec t 0) as [->|Ne].
    + split; [intros [= <-]; auto|]. intros [[_ ->]|[X _]]; [reflexivity|congruence].
    + split.
      * intro H. right. split; [congruence|]. destruct (si_key si) as [kl|]; [|discriminate]. destruct (kl_loc kl) eqn:L; try discriminate.
        injection H as <-. exists kl. eauto.
      * intros [[X _]|[_ (kl & n & -> & -> & ->)]]; [congruence|reflexivity].
  - split.
    + intro H. right. split; [congruence|]. destruct (si_key si) as [kl|]; [|discriminate]. destruct (kl_loc kl) eqn:L; try discriminate.
      injection H as <-. exists kl. eauto.
    + intros [[X _]|[_ (kl & n & -> & -> & ->)]]; [congruence|reflexivity].
Qed.
Lemma custom_some : forall t si v, field t si v <-> exists b, si_getCustomTlv t si = Some b /\ c_val b = v.
Proof.
  intros t si v. unfold field, si_getCustomTlv. split.
  - intros (a & x & b & E & T & V & Na). exists x. split; [|exact V]. rewrite E. clear E. induction a as [|y a IH]; cbn [app find].
    + now replace (c_type x =? t)%N with true by lia.
    + specialize (Na y (or_introl eq_refl)) as Ny. replace (c_type y =? t)%N with false by lia. apply IH. intros z Hz. apply Na. now right.
  - intros (b & F & V). induction (si_other si) as [|y l IH]; cbn [find] in F; [discriminate|].
    destruct (N.eqb_spec (c_type y) t) as [E|Ne].
    + injection F as ->. exists [], b, l. splits; auto.
    + destruct (IH F) as (a & x & b' & -> & T & V' & Na). exists (y :: a), x, b'. splits; auto. intros z [<-|Hz]; auto.
Qed.
Lemma custom_none : forall t si, no_field t si <-> si_getCustomTlv t si = None.
Proof.
  intros t si. unfold no_field, si_getCustomTlv. split; intro H.
  - induction (si_other si) as [|y l IH]; cbn [find]; [reflexivity|]. specialize (H y (or_introl eq_refl)) as Hy. replace (c_type y =? t)%N with false by lia.
    apply IH. intros z Hz. apply H. now right.
  - intros y Hy E. apply (find_none _ _ H) in Hy. cbn in Hy. lia.
Qed.
Lemma number_iff : forall t si n, si_getNumber t si = Ok (Some n) <-> exists v, field t si v /\ is_nni n v.
Proof.
  intros t si n. unfold si_getNumber. split.
  - intro H. destruct (si_getCustomTlv t si) as [b|] eqn:G; [|discriminate].
    destruct (readNonNegativeInteger (nlen (c_val b)) (c_val b)) as [[m r]|] eqn:R; cbn [bind fst] in H; [|discriminate]. injection H as ->.
    exists (c_val b). split; [apply custom_some; eauto|]. apply readNNI_iff in R as (d & Hd & L & E).
    assert (r = []) as ->. { assert (nlen (c_val b) = nlen d + nlen r)%N by (rewrite E; apply nlen_app). destruct r; [reflexivity|]. rewrite nlen_cons in H. lia. }
    rewrite app_nil_r in E. now subst d.
  - intros (v & F & Nn). apply custom_some in F as (b & -> & <-).
    assert (readNonNegativeInteger (nlen (c_val b)) (c_val b) = Ok (n, [])) as ->; [|reflexivity].
    apply readNNI_iff. exists (c_val b). rewrite app_nil_r. auto.
Qed.
Lemma number_none : forall t si, si_getNumber t si = Ok None <-> no_field t si.
Proof.
  intros t si. rewrite custom_none. unfold si_getNumber. destruct (si_getCustomTlv t si) as [b|]; [|tauto]. split; [|discriminate].
  destruct (readNonNegativeInteger _ _); cbn; discriminate.
Qed.
Lemma number_err : forall t si e, si_getNumber t si = Err e -> e = ETlv.
Proof.
  intros t si e H. unfold si_getNumber in H. destruct (si_getCustomTlv t si) as [b|]; [|discriminate].
  destruct (readNonNegativeInteger (nlen (c_val b)) (c_val b)) eqn:R; cbn in H; [discriminate|]. injection H as <-. now apply readNNI_err in R.
Qed.
Lemma nni_lt : forall n v, is_nni n v -> (n < 2 ^ 64)%N.
Proof.
  intros n v [Hl ->]. rewrite big_endian_be_val. pose proof (be_val_lt v). assert (L : (nlen v <= 8)%N) by lia.
  eapply N.lt_le_trans; [eassumption|]. change (2 ^ 64)%N with (256 ^ 8)%N. apply N.pow_le_mono_r; lia.
Qed.
Lemma ms_time_iff : forall n t, (n < 2 ^ 64)%N -> ms_time n = Ok t <-> ms_as_time n t.
Proof.
  intros n t L. unfold ms_time, ms_as_time, u64_time. destruct (N.ltb_spec n (2 ^ 63)) as [A|A].
  - split.
    + intro H. apply i64_inv in H as [-> B]. eexists. split; [left; split; [reflexivity|lia]|]. split; [reflexivity|lia].
    + intros (z & [[-> _]|[_ X]] & -> & B); [apply i64_ok; lia|lia].
  - split.
    + intro H. apply i64_inv in H as [-> B]. eexists. split; [right; split; [reflexivity|lia]|]. split; [reflexivity|lia].
    + intros (z & [[_ X]|[-> _]] & -> & B); [lia|apply i64_ok; lia].
Qed.
Lemma getTime_some : forall si t, si_getTime si = Ok (Some t) <-> exists v n, field 40 si v /\ is_nni n v /\ ms_as_time n t.
Proof.
  intros si t. unfold si_getTime. split.
  - intro H. destruct (si_getNumber tSignatureTime si) as [[n|]|] eqn:G; cbn [bind] in H; try discriminate.
    apply number_iff in G as (v & F & I). destruct (ms_time n) as [t'|] eqn:M; cbn [bind] in H; [|discriminate]. injection H as ->.
    exists v, n. splits; auto. apply ms_time_iff; [|exact M]. now apply nni_lt in I.
  - intros (v & n & F & I & M). assert (si_getNumber tSignatureTime si = Ok (Some n)) as -> by (apply number_iff; exists v; split; auto).
    apply ms_time_iff in M; [|now apply nni_lt in I]. cbn [bind]. rewrite M. reflexivity.
Qed.
Lemma getTime_none : forall si, si_getTime si = Ok None <-> no_field 40 si.
Proof.
  intro si. unfold si_getTime. change 40%N with tSignatureTime. rewrite <- number_none. destruct (si_getNumber tSignatureTime si) as [[n|]|]; cbn [bind]; try (split; congruence).
  split; [|congruence]. destruct (ms_time n); cbn; discriminate.
Qed.
Lemma getTime_err : forall si e, si_getTime si = Err e -> e = ETlv \/ e = EUb /\ exists n, si_getNumber tSignatureTime si = Ok (Some n) /\ forall t, ~ ms_as_time n t.
Proof.
  intros si e H. unfold si_getTime in H. destruct (si_getNumber tSignatureTime si) as [[n|]|x] eqn:G; cbn [bind] in H; try discriminate.
  - destruct (ms_time n) as [t'|y] eqn:M; cbn [bind] in H; [discriminate|]. injection H as <-. right. split; [unfold ms_time in M; now apply i64_err in M|].
    exists n. split; [reflexivity|]. intros t K. apply number_iff in G as (v & _ & I). apply ms_time_iff in K; [congruence|]. now apply nni_lt in I.
  - injection H as <-. left. now apply number_err in G.
Qed.

(* components counted from the end *)
Lemma nm_index_back : forall n pre c post, n_comps n = pre ++ c :: post ->
  nm_index (- Z.of_nat (S (length post))) n = Some (length pre).
Proof.
  intros n pre c post E. unfold nm_index, nm_size. rewrite E, nlen_app, nlen_cons. unfold nlen.
  destruct (Z.ltb_spec (- Z.of_nat (S (length post))) 0) as [_|?]; [|lia].
  destruct (_ || _) eqn:B; [lia|]. f_equal. lia.
Qed.
Lemma nm_at_back : forall n pre c post i, n_comps n = pre ++ c :: post -> i = - Z.of_nat (S (length post)) -> nm_at i n = Ok c /\ nm_get i n = Ok c.
Proof.
  intros n pre c post i E ->. unfold nm_at, nm_get. rewrite (nm_index_back _ _ _ _ E), E, nth_error_app2, Nat.sub_diag by lia. split; reflexivity.
Qed.
Lemma split_last4 : forall (A : Type) (l : list A), (4 <= nlen l)%N -> exists pre a b c d, l = pre ++ [a; b; c; d].
Proof.
  intros A l H. unfold nlen in H. assert (H' : (4 <= length l)%nat) by lia.
  exists (firstn (length l - 4) l). pose proof (firstn_skipn (length l - 4) l) as E. pose proof (skipn_length (length l - 4) l) as L.
  destruct (skipn (length l - 4) l) as [|a [|b [|c [|d [|x r]]]]]; cbn [length] in L; try lia. exists a, b, c, d. now rewrite E.
Qed.
Lemma split_last2 : forall (A : Type) (l : list A), (2 <= nlen l)%N -> exists pre a b, l = pre ++ [a; b].
Proof.
  intros A l H. unfold nlen in H. assert (H' : (2 <= length l)%nat) by lia.
  exists (firstn (length l - 2) l). pose proof (firstn_skipn (length l - 2) l) as E. pose proof (skipn_length (length l - 2) l) as L.
  destruct (skipn (length l - 2) l) as [|a [|b [|x r]]]; cbn [length] in L; try lia. exists a, b. now rewrite E.
Qed.
Lemma blockFromWire_nil : forall e, blockFromWire [] <> Ok e.
Proof. intros e H. discriminate. Qed.

Lemma sigInfo_v03 : forall si, getSignatureInfo (V03 si) = Ok (PGo si).
Proof. reflexivity. Qed.
Lemma sigInfo_v02 : forall nm pre ci cv si, n_comps nm = pre ++ [ci; cv] -> getSignatureInfo (V02 nm) = Ok (PGo si) <-> v02_info ci si.
Proof.
  intros nm pre ci cv si E. cbn [getSignatureInfo]. replace (nlen (n_comps nm) <? 2)%N with false by (rewrite E, nlen_app; unfold nlen; cbn [length]; lia).
  destruct (nm_at_back nm pre ci [cv] (-2) E eq_refl) as [_ ->]. cbn [bind]. unfold blockFromValue. cbn [e_val]. unfold v02_info.
  destruct (N.eqb_spec (nlen (c_val ci)) 0) as [Z0|Nz].
  - split; [discriminate|]. intros (b & B & _). apply nlen_0 in Z0. rewrite Z0 in B. discriminate.
  - destruct (blockFromWire (c_val ci)) as [b|e].
    + destruct (si_decode SiData b) as [si' [e|]] eqn:D.
      * split; [destruct e; discriminate|]. intros (b' & [= <-] & D'). congruence.
      * split; [intros [= ->]; eauto|]. intros (b' & [= <-] & D'). congruence.
    + split; [destruct e; discriminate|]. intros (b' & ? & _). discriminate.
Qed.
Lemma parseCommand_iff : forall i k t, parseCommand i = Ok (PGo (k, t)) <-> is_command i k t.
Proof.
  intros i k t. unfold parseCommand. destruct i as [si|nm].
  - rewrite sigInfo_v03. cbn [bind]. split.
    + intro H. destruct (si_getTime si) as [[t'|]|] eqn:G; cbn [bind] in H; try discriminate.
      destruct (getKeyLocatorName si) as [|k'] eqn:K; [discriminate|]. injection H as -> ->.
      apply getTime_some in G as (v & n & F & I & M). econstructor; eauto. now apply key_name_iff.
    + intro H. inversion H as [? ? v n ? K F I M|]; subst. assert (si_getTime si = Ok (Some t)) as -> by (apply getTime_some; eauto).
      apply key_name_iff in K. cbn [bind]. now rewrite K.
  - split.
    + intro H. destruct (getSignatureInfo (V02 nm)) as [[|si]|] eqn:G; cbn [bind] in H; try discriminate.
      destruct (N.ltb_spec (nlen (n_comps nm)) 4) as [?|L]; [discriminate|].
      destruct (split_last4 _ _ L) as (pre & a & b & c & d & E).
      destruct (nm_at_back nm pre a [b; c; d] (-4) E eq_refl) as [X _]. rewrite X in H. cbn [bind] in H.
      destruct (isNumber a) eqn:N; [|discriminate]. destruct (toNumber a) as [v|] eqn:T; cbn [bind] in H; [|discriminate].
      destruct (ms_time v) as [t'|] eqn:M; cbn [bind] in H; [|discriminate]. destruct (getKeyLocatorName si) as [|k'] eqn:K; [discriminate|].
      injection H as -> ->. assert (I : is_nni v (c_val a)).
      { unfold toNumber in T. rewrite N in T. destruct (readNonNegativeInteger (nlen (c_val a)) (c_val a)) as [[m r]|] eqn:R; cbn [bind fst] in T; [|discriminate].
        injection T as ->. apply readNNI_iff in R as (d' & Hd & L' & E'). assert (r = []) as ->.
        { assert (Q : nlen (c_val a) = (nlen d' + nlen r)%N) by (rewrite E'; apply nlen_app). destruct r; [reflexivity|]. rewrite nlen_cons in Q. lia. }
        rewrite app_nil_r in E'. now subst d'. }
      econstructor; eauto.
      * apply (sigInfo_v02 nm (pre ++ [a; b]) c d); [rewrite E, <- app_assoc; reflexivity|exact G].
      * now apply key_name_iff.
      * apply ms_time_iff; [|exact M]. now apply nni_lt in I.
    + intro H. inversion H as [|? pre a b c d si ? n ? E V K I M]; subst.
      apply (sigInfo_v02 nm (pre ++ [a; b]) c d) in V; [|rewrite E, <- app_assoc; reflexivity]. rewrite V. cbn [bind].
      replace (nlen (n_comps nm) <? 4)%N with false by (rewrite E, nlen_app; unfold nlen; cbn [length]; lia).
      destruct (nm_at_back nm pre a [b; c; d] (-4) E eq_refl) as [-> _]. cbn [bind].
      assert (R : readNonNegativeInteger (nlen (c_val a)) (c_val a) = Ok (n, [])). { apply readNNI_iff. exists (c_val a). rewrite app_nil_r. auto. }
      assert (N : isNumber a = true). { apply isNumber_iff. destruct I as [L _]. exact L. }
      unfold toNumber. rewrite N, R. cbn [bind fst]. apply ms_time_iff in M; [|now apply nni_lt in I]. rewrite M. cbn [bind].
      apply key_name_iff in K. now rewrite K.
Qed.
Lemma parseSigned_iff : forall si v, parseSigned si = Ok (PGo v) <-> is_signed si v.
Proof.
  intros si v. unfold parseSigned. split.
  - intro H. destruct (getKeyLocatorName si) as [|k] eqn:K; [discriminate|]. destruct (si_getTime si) as [t|] eqn:T; cbn [bind] in H; [|discriminate].
    destruct (si_getNumber tSignatureSeqNum si) as [n|] eqn:N; cbn [bind] in H; [|discriminate]. injection H as <-. constructor; cbn [sv_key sv_ts sv_seq sv_nonce].
    + now apply key_name_iff.
    + destruct t as [t|].
      * left. apply getTime_some in T as (b & n' & F & I & M). exists b. split; eauto.
      * right. split; [now apply getTime_none|reflexivity].
    + destruct n as [n|].
      * left. apply number_iff in N as (b & F & I). exists b. eauto.
      * right. split; [now apply number_none in N|reflexivity].
    + unfold si_getNonce. destruct (si_getCustomTlv tSignatureNonce si) as [b|] eqn:G.
      * left. exists (c_val b). split; [apply custom_some; eauto|reflexivity].
      * right. split; [now apply custom_none|reflexivity].
  - destruct v as [k t n o]. intros [K T N O]. cbn [sv_key sv_ts sv_seq sv_nonce] in *. apply key_name_iff in K. rewrite K.
    assert (si_getTime si = Ok t) as ->.
    { destruct T as [(b & F & n' & t' & I & M & ->)|[F ->]]; [apply getTime_some; eauto|now apply getTime_none]. }
    assert (si_getNumber tSignatureSeqNum si = Ok n) as ->.
    { destruct N as [(b & F & n' & I & ->)|[F ->]]; [apply number_iff; eauto|now apply number_none]. }
    cbn [bind]. unfold si_getNonce. destruct O as [(b & F & ->)|[F ->]].
    + apply custom_some in F as (x & G & <-). change tSignatureNonce with 38%N. now rewrite G.
    + apply custom_none in F. change tSignatureNonce with 38%N. now rewrite F.
Qed.

(* ---- which exceptions ---- *)
Lemma readTypeX_err : forall i e, readTypeX i = Err e -> e = ETlv.
Proof. intros i e H. rewrite readType_X in H. destruct (readType i); cbn in H; congruence. Qed.
Lemma readVarX_err : forall i e, readVarNumberX i = Err e -> e = ETlv.
Proof. intros i e H. unfold readVarNumberX in H. destruct (readVarNumber i); cbn in H; congruence. Qed.
Lemma blockFromWire_err : forall i e, blockFromWire i = Err e -> e = ETlv \/ e = EInvalidArg.
Proof.
  intros i e H. unfold blockFromWire in H. destruct i as [|b i]; [right; congruence|left].
  destruct (readTypeX (b :: i)) as [[t r1]|x] eqn:T; cbn [bind] in H; [|apply readTypeX_err in T; congruence].
  destruct (readVarNumberX r1) as [[l r2]|x] eqn:V; cbn [bind] in H; [|apply readVarX_err in V; congruence].
  destruct (negb _); congruence.
Qed.
Lemma parseValue_err : forall v e, parseValue v = Err e -> e = ETlv.
Proof.
  intros v e H. pose proof (parseValue_no_fuel v) as F. unfold parseValue in *. destruct (parse_loop _ _) as [es []]; try congruence.
Qed.
Lemma kl_decode_err : forall x e, kl_decode x = Err e -> e = ETlv.
Proof.
  intros x e H. unfold kl_decode in H. destruct (negb _); [congruence|]. destruct (parseValue (e_val x)) as [es|y] eqn:P; cbn [bind] in H.
  - destruct es as [|z es]; [discriminate|]. destruct (e_type z =? tName)%N.
    + destruct (nm_decode z) as [n|y] eqn:D; cbn [bind] in H; [discriminate|]. injection H as <-. unfold nm_decode in D.
      destruct (negb _); [congruence|]. destruct (parseValue (e_val z)) eqn:P2; cbn [bind] in D; [discriminate|]. apply parseValue_err in P2. congruence.
    + destruct (e_type z =? tKeyDigest)%N; discriminate.
  - apply parseValue_err in P. congruence.
Qed.
Lemma readNNIAs_err : forall l x e, readNNIBlockAs l x = Err e -> e = ETlv.
Proof.
  intros l x e H. unfold readNNIBlockAs, readNNIBlock in H. destruct (readNonNegativeInteger _ _) as [r|y] eqn:R; cbn [bind] in H.
  - destruct (l <=? fst r)%N; congruence.
  - apply readNNI_err in R. congruence.
Qed.
Lemma si_decode_err : forall k x s e, si_decode k x = (s, Some e) -> e = ETlv.
Proof.
  assert (L : forall es last s s' e, si_loop es last s = (s', Some e) -> e = ETlv).
  { induction es as [|x es IH]; intros last s s' e H; cbn [si_loop] in H; [discriminate|].
    destruct (e_type x =? tSignatureType)%N.
    - destruct (0 <? last)%N; [congruence|]. destruct (readNNIBlockAs two16 x) as [t|y] eqn:R; [eauto|]. apply readNNIAs_err in R. congruence.
    - destruct (e_type x =? tKeyLocator)%N.
      + destruct (1 <? last)%N; [congruence|]. destruct (kl_decode x) as [t|y] eqn:R; [eauto|]. apply kl_decode_err in R. congruence.
      + destruct (e_type x =? tSignatureNonce)%N; [destruct (nlen (e_val x) <? 1)%N; [congruence|eauto]|].
        destruct (e_type x =? tValidityPeriod)%N; [eauto|]. destruct (isCriticalType (e_type x)); [congruence|eauto]. }
  intros k x s e H. unfold si_decode in H. destruct (parseValue (e_val x)) as [es|y] eqn:P.
  - destruct (negb _); [congruence|]. destruct (si_loop es 0 _) as [s1 [z|]] eqn:Q.
    + apply L in Q. congruence.
    + destruct (si_type s1); congruence.
  - apply parseValue_err in P. congruence.
Qed.
Lemma sigInfo_err : forall i e, getSignatureInfo i <> Err e.
Proof.
  intros [si|nm] e H; [discriminate|]. cbn [getSignatureInfo] in H. destruct (N.ltb_spec (nlen (n_comps nm)) 2) as [?|L]; [discriminate|].
  destruct (split_last2 _ _ L) as (pre & c & d & E). destruct (nm_at_back nm pre c [d] (-2) E eq_refl) as [_ X]. rewrite X in H. cbn [bind] in H.
  destruct (blockFromValue _) as [b|y] eqn:B.
  - destruct (si_decode SiData b) as [s [z|]] eqn:D; [|discriminate]. apply si_decode_err in D. subst z. discriminate.
  - unfold blockFromValue in B. cbn [e_val] in B. destruct (N.eqb_spec (nlen (c_val c)) 0) as [Z0|Nz]; [injection B as <-; discriminate|].
    destruct (blockFromWire_err _ _ B) as [ -> | -> ]; [discriminate|]. unfold blockFromWire in B. destruct (c_val c) as [|b0 r] eqn:V; [contradiction Nz; reflexivity|].
    destruct (readTypeX (b0 :: r)) as [[t r1]|x] eqn:T; cbn [bind] in B; [|apply readTypeX_err in T; congruence].
    destruct (readVarNumberX r1) as [[l r2]|x] eqn:V'; cbn [bind] in B; [|apply readVarX_err in V'; congruence].
    destruct (negb _); congruence.
Qed.
Lemma parseCommand_err : forall i e, parseCommand i = Err e -> e = ETlv \/ e = EUb /\ exists n, stamp i n /\ forall t, ~ ms_as_time n t.
Proof.
  intros i e H. unfold parseCommand in H. destruct (getSignatureInfo i) as [[|si]|x] eqn:G; cbn [bind] in H; [discriminate| |now apply sigInfo_err in G].
  destruct i as [si'|nm].
  - injection G as ->. destruct (si_getTime si) as [[t|]|x] eqn:T; cbn [bind] in H; [destruct (getKeyLocatorName si); discriminate|discriminate|].
    injection H as <-. destruct (getTime_err _ _ T) as [Et|[Eu (n & Hn & Hf)]]; [auto|]. right. split; [assumption|]. exists n. split; [now apply number_iff in Hn|exact Hf].
  - destruct (N.ltb_spec (nlen (n_comps nm)) 4) as [?|L]; [discriminate|].
    destruct (split_last4 _ _ L) as (pre & a & b & c & d & E).
    destruct (nm_at_back nm pre a [b; c; d] (-4) E eq_refl) as [X _]. rewrite X in H. cbn [bind] in H.
    destruct (isNumber a) eqn:N; [|discriminate].
    destruct (readNonNegativeInteger (nlen (c_val a)) (c_val a)) as [[m r]|x] eqn:R.
    + assert (I : is_nni m (c_val a)).
      { apply readNNI_iff in R as (d' & Hd & L' & E'). assert (r = []) as ->.
        { assert (Q : nlen (c_val a) = (nlen d' + nlen r)%N) by (rewrite E'; apply nlen_app). destruct r; [reflexivity|]. rewrite nlen_cons in Q. lia. }
        rewrite app_nil_r in E'. now subst d'. }
      unfold toNumber in H. rewrite N, R in H. cbn [bind fst] in H. destruct (ms_time m) as [t|y] eqn:M; cbn [bind] in H; [destruct (getKeyLocatorName si); discriminate|].
      injection H as <-. right. split; [unfold ms_time in M; now apply i64_err in M|]. exists m. split; [exists pre, a, b, c, d; auto|].
      intros t K. apply ms_time_iff in K; [congruence|]. now apply nni_lt in I.
    + unfold toNumber in H. rewrite N, R in H. cbn [bind] in H. apply readNNI_err in R. left. congruence.
Qed.
Lemma parseSigned_err : forall si e, parseSigned si = Err e -> e = ETlv \/ e = EUb /\ exists n, stamp (V03 si) n /\ forall t, ~ ms_as_time n t.
Proof.
  intros si e H. unfold parseSigned in H. destruct (getKeyLocatorName si); [discriminate|]. destruct (si_getTime si) as [t|x] eqn:T; cbn [bind] in H.
  - destruct (si_getNumber tSignatureSeqNum si) as [n|x] eqn:N; cbn [bind] in H; [discriminate|]. apply number_err in N. left. congruence.
  - injection H as <-. destruct (getTime_err _ _ T) as [Et|[Eu (n & Hn & Hf)]]; [auto|]. right. split; [assumption|]. exists n. split; [now apply number_iff in Hn|exact Hf].
Qed.

(* ---- traces ---- *)
Section Trace.
Variables Q A : Type.
Variable check : Z -> Z -> sint -> Q -> res (Q * pstep A).
Variable insert : Z -> A -> Q -> res Q.
Inductive reach : pst Q A -> list (iobs A) -> pst Q A -> Prop :=
| R_nil : forall s, reach s [] s
| R_cons : forall e s s1 o t s2, p_step Q A check insert e s = Ok (s1, o) -> reach s1 t s2 -> reach s (o :: t) s2.
Lemma run_reach : forall l s s' t, p_run Q A check insert l s = Ok (s', t) -> reach s t s'.
Proof.
  induction l as [|e l IH]; intros s s' t H; cbn [p_run] in H.
  - injection H as <- <-. constructor.
  - destruct (p_step Q A check insert e s) as [[s1 o]|] eqn:S1; cbn [bind fst snd] in H; [|discriminate].
    destruct (p_run Q A check insert l s1) as [[s2 t2]|] eqn:R; cbn [bind fst snd] in H; [|discriminate]. injection H as <- <-. econstructor; eauto.
Qed.
Lemma reach_app : forall t1 t2 s s', reach s (t1 ++ t2) s' -> exists m, reach s t1 m /\ reach m t2 s'.
Proof.
  induction t1 as [|o t1 IH]; cbn [app]; intros t2 s s' H; [exists s; split; [constructor|exact H]|].
  inversion H as [|e ? s1 ? ? ? P R]; subst. destruct (IH _ _ _ R) as (m & A1 & A2). exists m. split; [econstructor; eauto|exact A2].
Qed.
Lemma reach_app_intro : forall t1 s m, reach s t1 m -> forall t2 s', reach m t2 s' -> reach s (t1 ++ t2) s'.
Proof. intros t1 s m H. induction H; intros t2 s' R; cbn [app]; [exact R|]. econstructor; eauto. Qed.
Lemma run_app : forall l1 l2 s s' t, p_run Q A check insert (l1 ++ l2) s = Ok (s', t) ->
  exists m t1 t2, p_run Q A check insert l1 s = Ok (m, t1) /\ p_run Q A check insert l2 m = Ok (s', t2) /\ t = t1 ++ t2.
Proof.
  induction l1 as [|e l1 IH]; intros l2 s s' t H; cbn [app p_run] in *.
  - exists s, [], t. auto.
  - destruct (p_step Q A check insert e s) as [[s1 o]|] eqn:S1; cbn [bind fst snd] in *; [|discriminate].
    destruct (p_run Q A check insert (l1 ++ l2) s1) as [[s2 t2]|] eqn:R; cbn [bind fst snd] in *; [|discriminate]. injection H as <- <-.
    destruct (IH _ _ _ _ R) as (m & a & b & R1 & R2 & ->). exists m, (o :: a), b. rewrite R1. auto.
Qed.
(* one step, by its observation *)
Lemma step_pass : forall e s s1 id sys st a, p_step Q A check insert e s = Ok (s1, ObPass id sys st a) ->
  exists i q, e = EvCheck sys st i /\ check sys st i (ps_tab s) = Ok (q, PGo a) /\ id = ps_next s /\
  s1 = mkPS q ((ps_next s, a) :: ps_pend s) (ps_next s + 1)%N.
Proof.
  intros [sys' st' i|id' u|id'] s s1 id sys st a H; cbn [p_step] in H.
  - destruct (check sys' st' i (ps_tab s)) as [[q [|a']]|e] eqn:C; [discriminate| |destruct (catchable e); discriminate].
    injection H as <- <- <- <- <-. exists i, q. auto.
  - destruct (pend_get id' (ps_pend s)) as [b|]; [|discriminate]. destruct (insert u b (ps_tab s)); cbn in H; discriminate.
  - discriminate.
Qed.
Lemma step_done : forall e s s1 id u a, p_step Q A check insert e s = Ok (s1, ObDone id u a) ->
  exists q, e = EvDone id u /\ pend_get id (ps_pend s) = Some a /\ insert u a (ps_tab s) = Ok q /\ s1 = mkPS q (pend_del id (ps_pend s)) (ps_next s).
Proof.
  intros [sys' st' i|id' u'|id'] s s1 id u a H; cbn [p_step] in H.
  - destruct (check sys' st' i (ps_tab s)) as [[q [|a']]|e] eqn:C; [discriminate|discriminate|destruct (catchable e); discriminate].
  - destruct (pend_get id' (ps_pend s)) as [b|] eqn:G; [|discriminate]. destruct (insert u' b (ps_tab s)) as [q|] eqn:I; cbn [bind] in H; [|discriminate].
    injection H as <- <- <- <-. exists q. auto.
  - discriminate.
Qed.
(* the effect of any step on the table, the pending Interests and the counter *)
Lemma step_cases : forall e s s1 o, p_step Q A check insert e s = Ok (s1, o) ->
  (exists id sys st i q a, o = ObPass id sys st a /\ check sys st i (ps_tab s) = Ok (q, PGo a) /\ id = ps_next s /\
     ps_tab s1 = q /\ ps_pend s1 = (id, a) :: ps_pend s /\ ps_next s1 = (ps_next s + 1)%N) \/
  (exists sys st i q, o = ObRefuse sys st i /\ check sys st i (ps_tab s) = Ok (q, PFail) /\ ps_tab s1 = q /\ ps_pend s1 = ps_pend s /\ ps_next s1 = ps_next s) \/
  (exists sys st i x, o = ObThrow sys st x /\ check sys st i (ps_tab s) = Err x /\ s1 = s) \/
  (exists id u a q, o = ObDone id u a /\ pend_get id (ps_pend s) = Some a /\ insert u a (ps_tab s) = Ok q /\
     ps_tab s1 = q /\ ps_pend s1 = pend_del id (ps_pend s) /\ ps_next s1 = ps_next s) \/
  (exists id, o = ObDrop id /\ ps_tab s1 = ps_tab s /\ ps_pend s1 = pend_del id (ps_pend s) /\ ps_next s1 = ps_next s) \/
  (o = ObNothing /\ s1 = s).
Proof.
  intros [sys' st' i|id' u'|id'] s s1 o H; cbn [p_step] in H.
  - destruct (check sys' st' i (ps_tab s)) as [[q [|a']]|e] eqn:C.
    + injection H as <- <-. right; left. exists sys', st', i, q. auto.
    + injection H as <- <-. left. exists (ps_next s), sys', st', i, q, a'. splits; auto.
    + destruct (catchable e); [|discriminate]. injection H as <- <-. right; right; left. exists sys', st', i, e. auto.
  - destruct (pend_get id' (ps_pend s)) as [b|] eqn:G.
    + destruct (insert u' b (ps_tab s)) as [q|] eqn:I; cbn [bind] in H; [|discriminate]. injection H as <- <-.
      right; right; right; left. exists id', u', b, q. splits; auto.
    + injection H as <- <-. repeat right. auto.
  - injection H as <- <-. right; right; right; right; left. exists id'. splits; auto.
Qed.
Lemma pend_get_in : forall id (l : list (N * A)) a, pend_get id l = Some a -> In (id, a) l.
Proof.
  intros id l a H. unfold pend_get in H. destruct (List.find _ l) as [[i b]|] eqn:F; [|discriminate]. cbn in H. injection H as ->.
  apply find_some in F as [F E]. cbn in E. apply N.eqb_eq in E. now subst.
Qed.
Lemma pend_del_in : forall id (l : list (N * A)) p, In p (pend_del id l) -> In p l.
Proof. intros id l p H. unfold pend_del in H. now apply filter_In in H. Qed.
(* every pending Interest, and every accepted one, has passed a check *)
Lemma reach_pend : forall s t s', reach s t s' ->
  (forall id a, In (id, a) (ps_pend s') -> In (id, a) (ps_pend s) \/ exists sys st, In (ObPass id sys st a) t) /\
  (forall id sys st a, In (ObPass id sys st a) t -> (ps_next s <= id < ps_next s')%N) /\ (ps_next s <= ps_next s')%N.
Proof.
  intros s t s' H. induction H as [s|e s s1 o t s2 P R [IH1 [IH2 IH3]]].
  - splits; [auto|intros ? ? ? ? []|lia].
  - assert (N1 : (ps_next s <= ps_next s1)%N).
    { destruct (step_cases _ _ _ _ P) as [(?&?&?&?&?&?&_&_&_&_&_&E)|[(?&?&?&?&_&_&_&_&E)|[(?&?&?&?&_&_&->)|[(?&?&?&?&_&_&_&_&_&E)|[(?&_&_&_&E)|[_ ->]]]]]]; lia. }
    splits; [| |lia].
    + intros id a Hi. destruct (IH1 _ _ Hi) as [Hi'|(sys & st & Hi')]; [|right; exists sys, st; now right].
      destruct (step_cases _ _ _ _ P) as [(i&sys&st&?&?&b&->&_&_&_&E&_)|[(?&?&?&?&_&_&_&E&_)|[(?&?&?&?&_&_&->)|[(?&?&?&?&_&_&_&_&E&_)|[(?&_&_&E&_)|[_ ->]]]]]]; auto; rewrite E in Hi'.
      * destruct Hi' as [[= <- <-]|Hi']; [|auto]. right. exists sys, st. now left.
      * auto.
      * left. now apply pend_del_in in Hi'.
      * left. now apply pend_del_in in Hi'.
    + intros id sys st a [->|Hi].
      * apply step_pass in P as (i & q & _ & _ & -> & ->). cbn [ps_next] in *. lia.
      * apply IH2 in Hi. lia.
Qed.
Lemma reach_done : forall s t s' id u a, reach s (t ++ [ObDone id u a]) s' -> ps_pend s = [] -> exists sys st, In (ObPass id sys st a) t.
Proof.
  intros s t s' id u a H E. apply reach_app in H as (m & R1 & R2). inversion R2 as [|e ? s1 ? ? ? P R]; subst.
  apply step_done in P as (q & _ & G & _). apply pend_get_in in G. destruct (reach_pend _ _ _ R1) as (I & _ & _).
  destruct (I _ _ G) as [X|X]; [rewrite E in X; destruct X|exact X].
Qed.
End Trace.

(* Proofs about MetadataObject and PrefixAnnouncement. *)
From Coq Require Import Lia ZifyBool ZifyNat ZifyN ZArith.
From Verif Require Import Base BaseLemmas M_Tlv P_Tlv S_Tlv P_Block M_Str M_Name S_Name P_Name P_NameUri P_NameOrder M_Packet S_Packet P_Packet P_Data P_DataT P_DataHist
  P_Segmenter P_InterestD M_Validity S_Validity P_Validity M_Special S_Special P_Special.
Open Scope N_scope.
Open Scope list_scope.

(* ---- names that end with keyword, version and segment ---- *)
Lemma last3 : forall A (l : list A), (3 <= length l)%nat -> exists a x y z, l = a ++ [x; y; z].
Proof.
  intros A l L. exists (firstn (length l - 3) l). pose proof (firstn_skipn (length l - 3) l) as E. pose proof (skipn_length (length l - 3) l) as K.
  destruct (skipn (length l - 3) l) as [|x [|y [|z [|]]]] eqn:Q; cbn [length] in K; try lia. exists x, y, z. congruence.
Qed.
Lemma app_inj_len : forall A (a b c d : list A), length a = length c -> a ++ b = c ++ d -> a = c /\ b = d.
Proof. induction a as [|x a IH]; intros b [|y c] d L H; cbn in *; try discriminate; auto. injection H as -> H. destruct (IH b c d ltac:(lia) H) as [-> ->]. auto. Qed.
Lemma get3 : forall n a x y z, n_comps n = a ++ [x; y; z] -> nm_get (-3) n = Ok x /\ nm_get (-2) n = Ok y /\ nm_get (-1) n = Ok z.
Proof.
  intros n a x y z E. unfold nm_get, nm_index, nm_size, nlen. rewrite E, app_length. cbn [length].
  assert (G : forall k c, nth_error [x; y; z] k = Some c -> (k < 3)%nat ->
    match (let sz := Z.of_N (N.of_nat (length a + 3)) in let j := (if (Z.of_nat k - 3 <? 0)%Z then Z.of_nat k - 3 + sz else Z.of_nat k - 3)%Z in
      if ((j <? 0) || (sz <=? j))%Z then None else Some (Z.to_nat j)) with
    | Some j => of_opt EUb (nth_error (a ++ [x; y; z]) j) | None => Err EUb end = Ok c).
  { intros k c Hc Hk. cbv zeta. replace (Z.of_nat k - 3 <? 0)%Z with true by lia.
    replace ((Z.of_nat k - 3 + Z.of_N (N.of_nat (length a + 3)) <? 0) || (Z.of_N (N.of_nat (length a + 3)) <=? Z.of_nat k - 3 + Z.of_N (N.of_nat (length a + 3))))%Z with false by lia.
    replace (Z.to_nat (Z.of_nat k - 3 + Z.of_N (N.of_nat (length a + 3)))) with (length a + k)%nat by lia.
    rewrite nth_error_app2 by lia. replace (length a + k - length a)%nat with k by lia. rewrite Hc. reflexivity. }
  split; [apply (G O x eq_refl); lia|]. split; [apply (G 1%nat y eq_refl); lia|apply (G 2%nat z eq_refl); lia].
Qed.
Lemma kind_key : forall d k c c', ckey c = ckey c' -> isKind d k c = isKind d k c' /\ toKind d k c = toKind d k c'.
Proof.
  intros d k c c' H. unfold ckey in H. injection H as A B.
  unfold isKind, toKind, isNumberWithMarker, toNumberWithMarker, isNumber, toNumber, isNumberWithMarker, isNumber. rewrite A, B. split; reflexivity.
Qed.
Lemma kind_to : forall d k c, isKind d k c = true <-> exists n, toKind d k c = Ok n.
Proof. intros d k c. rewrite isKind_toKind. destruct (toKind d k c) as [n|e]; cbn; split; [eauto|auto|discriminate|intros [n H]; discriminate]. Qed.
Lemma versioned_iff : forall dconv kw n, c_type kw = 32 -> (versioned dconv kw n = true <-> exists pre, ends_with dconv (c_val kw) (nkey n) pre).
Proof.
  intros dconv kw n T. unfold versioned, ends_with. split.
  - intro H. apply andb_true_iff in H as [L H]. unfold nm_size, nlen in L. destruct (last3 _ (n_comps n)) as (a & x & y & z & E); [lia|].
    destruct (get3 _ _ _ _ _ E) as (G1 & G2 & G3). rewrite G1, G2, G3 in H. apply andb_true_iff in H as [H S3]. apply andb_true_iff in H as [K V].
    apply comp_eqb_eq in K. apply kind_to in V as [nv V]. apply kind_to in S3 as [ns S3]. exists (map ckey a), y, z, nv, ns. split; [|auto].
    unfold nkey. rewrite E, map_app. cbn [map]. rewrite K. unfold ckey at 2. rewrite T. reflexivity.
  - intros (pre & v & s & nv & ns & E & V & S3). assert (L : (3 <= length (n_comps n))%nat).
    { pose proof (f_equal (@length _) E) as Q. unfold nkey in Q. rewrite map_length, app_length in Q. cbn [length] in Q. lia. }
    destruct (last3 _ (n_comps n) L) as (a & x & y & z & E'). destruct (get3 _ _ _ _ _ E') as (-> & -> & ->).
    unfold nkey in E. rewrite E', map_app in E. cbn [map] in E.
    assert (Q : map ckey a = pre /\ [ckey x; ckey y; ckey z] = [(32, c_val kw); ckey v; ckey s]).
    { apply app_inj_len; [|exact E]. apply f_equal with (f := @length _) in E. rewrite !app_length in E. cbn [length] in E. lia. }
    destruct Q as [_ Q]. assert (Q1 : ckey x = (32, c_val kw)) by congruence. assert (Q2 : ckey y = ckey v) by congruence. assert (Q3 : ckey z = ckey s) by congruence. unfold nm_size, nlen. replace (3 <=? N.of_nat (length (n_comps n))) with true by lia. cbn [andb].
    replace (comp_eqb x kw) with true; [|symmetry; apply comp_eqb_eq; rewrite Q1; unfold ckey; rewrite T; reflexivity].
    rewrite (proj1 (kind_key dconv KVersion y v Q2)), (proj1 (kind_key dconv KSegment z s Q3)). cbn [andb].
    rewrite (proj2 (kind_to dconv KVersion v)) by eauto. rewrite (proj2 (kind_to dconv KSegment s)) by eauto. reflexivity.
Qed.

(* ---- the first element of a type ---- *)
Lemma find_first : forall t es x, find (fun e => e_type e =? t) es = Some x -> first_of t (map ekey es) (e_val x) /\ e_type x = t /\ In x es.
Proof.
  intros t. induction es as [|e es IH]; intros x H; cbn [find] in H; [discriminate|]. destruct (N.eqb_spec (e_type e) t) as [T|T].
  - injection H as <-. split; [|split; [exact T|now left]]. exists [], (map ekey es). cbn [map app]. unfold ekey at 1. rewrite T. split; [reflexivity|]. intros [].
  - apply IH in H as ((a & b & E & NI) & Tx & I). split; [|split; [exact Tx|now right]]. exists (ekey e :: a), b. cbn [map app]. rewrite E. split; [reflexivity|].
    cbn [map]. intros [K|K]; [|auto]. unfold ekey in K. cbn [fst] in K. congruence.
Qed.
Lemma first_find : forall t es v, first_of t (map ekey es) v -> exists x, find (fun e => e_type e =? t) es = Some x /\ e_val x = v /\ e_type x = t /\ In x es.
Proof.
  intros t. induction es as [|e es IH]; intros v (a & b & E & NI); cbn [map] in E.
  - destruct a; discriminate.
  - cbn [find]. destruct a as [|k a]; cbn [app] in E.
    + assert (ekey e = (t, v)) as K by congruence. unfold ekey in K. injection K as Kt Kv. rewrite (proj2 (N.eqb_eq _ _) Kt). exists e. auto using in_eq.
    + assert (ekey e = k /\ map ekey es = a ++ (t, v) :: b) as [K E'] by (split; congruence). destruct (N.eqb_spec (e_type e) t) as [T|T].
      * elim NI. left. rewrite <- K. exact T.
      * destruct (IH v) as (x & F & X). { exists a, b. split; [exact E'|]. intro Q. apply NI. now right. } exists x. split; [exact F|]. destruct X as (? & ? & ?). auto using in_cons.
Qed.
Lemma find_none_type : forall t es, find (fun e => e_type e =? t) es = None <-> ~ In t (map fst (map ekey es)).
Proof.
  intros t es. rewrite map_map. split.
  - intros H K. apply in_map_iff in K as (x & E & I). apply find_none with (x := x) in H; auto. cbn in E. lia.
  - intro H. destruct (find (fun e => e_type e =? t) es) as [x|] eqn:F; auto. apply find_some in F as [I E]. elim H. apply in_map_iff. exists x. cbn. split; [lia|exact I].
Qed.

(* ---- MetadataObject ---- *)
Lemma parse_err : forall v e, parseValue v = Err e -> e = ETlv.
Proof.
  intros v e H. pose proof (parseValue_no_fuel v) as F. unfold parseValue in *. destruct (parse_loop _ _) as [es []]; try congruence.
Qed.
Lemma mo_sound : forall dconv d n, mo_ofData dconv d = Ok n -> metadata_of dconv d (nkey n).
Proof.
  intros dconv d n H. unfold mo_ofData in H. destruct (versioned dconv kw_metadata (d_name d)) eqn:V; [|discriminate]. cbn [negb] in H.
  destruct (N.eqb_spec (mi_type (d_meta d)) 0) as [T|]; [|discriminate]. cbn [negb] in H. destruct (nlen (c_val (d_content d)) =? 0); [discriminate|].
  inv_bind H. inv_bind H. apply versioned_iff in V; [|reflexivity]. split; [exact V|]. split; [exact T|].
  destruct (find (fun e => e_type e =? tName) a) as [x|] eqn:F; [|discriminate]. cbn [of_opt] in E0. apply Ok_inj in E0 as <-.
  exists (map ekey a), (e_val x). split; [now apply parse_keys|]. split; [now apply find_first in F|]. now apply nm_decode_keys in H.
Qed.
Lemma mo_complete : forall dconv d cs, metadata_of dconv d cs -> exists n, mo_ofData dconv d = Ok n /\ nkey n = cs.
Proof.
  intros dconv d cs (V & T & l & v & SQ & F & K). unfold mo_ofData. rewrite (proj2 (versioned_iff dconv kw_metadata _ eq_refl) V), T. cbn [negb N.eqb].
  change (0 =? 0) with true. cbn [negb]. apply seq_parse in SQ as (es & P & <-). apply first_find in F as (x & F & Vx & Tx & Ix).
  destruct (N.eqb_spec (nlen (c_val (d_content d))) 0) as [Z|_].
  { destruct (c_val (d_content d)); [|unfold nlen in Z; cbn in Z; lia]. cbn in P. assert (es = []) by congruence. subst es. destruct Ix. }
  rewrite P. cbn [bind]. change tName with 7. rewrite F. cbn [of_opt bind]. apply decode_seq; [exact Tx|]. rewrite Vx. exact K.
Qed.
Lemma mo_err : forall dconv d e, mo_ofData dconv d = Err e -> e = ETlv.
Proof.
  intros dconv d e H. unfold mo_ofData in H. destruct (negb _); [congruence|]. destruct (negb _); [congruence|]. destruct (_ =? 0); [congruence|].
  destruct (parseValue (c_val (d_content d))) as [es|] eqn:P; cbn [bind] in H; [|apply parse_err in P; congruence].
  destruct (find _ es) as [x|]; cbn [of_opt bind] in H; [|congruence]. unfold nm_decode in H. destruct (negb _); [congruence|].
  destruct (parseValue (e_val x)) eqn:Q; cbn [bind] in H; [discriminate|]. apply parse_err in Q. congruence.
Qed.

Lemma disc_key : forall disc c, nm_size disc =? 0 = false -> nm_get (-1) disc = Ok c -> ckey c = ckey kw_metadata -> exists pre, nkey disc = pre ++ [(32, str "metadata")].
Proof.
  intros disc c G1 Gc G2.
  assert (NE : n_comps disc <> []) by (intro En; unfold nm_size, nlen in G1; rewrite En in G1; discriminate). destruct (exists_last NE) as (cs0 & x0 & En).
    exists (map ckey cs0). unfold nkey. rewrite En, map_app. cbn [map]. f_equal. f_equal.
    unfold nm_get, nm_index, nm_size, nlen in Gc. rewrite En, app_length in Gc. cbn [length] in Gc. change (-1 <? 0)%Z with true in Gc. cbv iota zeta in Gc.
    replace ((-1 + Z.of_N (N.of_nat (length cs0 + 1)) <? 0) || (Z.of_N (N.of_nat (length cs0 + 1)) <=? -1 + Z.of_N (N.of_nat (length cs0 + 1))))%Z with false in Gc by lia.
    replace (Z.to_nat (-1 + Z.of_N (N.of_nat (length cs0 + 1)))) with (length cs0) in Gc by lia. rewrite nth_error_app2, Nat.sub_diag in Gc by lia. cbn in Gc. injection Gc as <-. exact G2.
Qed.
Section Make.
Variable sha256 : bytes -> bytes.
Hypothesis sha_len : forall b, nlen (sha256 b) = 32.

(* set a content, then sign: what the packet says, and that it decodes to itself *)
Lemma sign_fields : forall signer si d d' e, da_inv sha256 d -> si_ok si -> da_sign signer si d = (d', Ok e) ->
  (nkey (d_name d'), mi_fields (d_meta d'), ckey (d_content d')) = (nkey (d_name d), mi_fields (d_meta d), ckey (d_content d)) /\ d_wire d' = Some e /\
  (forall d0, da_decode e d0 = (d', None)) /\ da_inv sha256 d'.
Proof.
  intros signer si d d' e [O W] Os H. pose proof (da_sign_inv sha256 sha_len _ _ _ _ _ O Os H) as I.
  destruct (da_sign_range _ _ _ _ _ O Os H) as (u & so & _ & _ & _ & _ & _ & Wd & Sv & D). unfold signed_view in Sv. split; [congruence|]. split; [exact Wd|]. split; [exact D|exact I].
Qed.
Lemma block_fields : forall b d d', da_inv sha256 d -> blk_ok b -> nlen (blk_octets b) < 2 ^ 64 -> da_setContentBlock b d = (d', None) ->
  da_inv sha256 d' /\ (nkey (d_name d'), mi_fields (d_meta d')) = (nkey (d_name d), mi_fields (d_meta d)) /\
  ckey (d_content d') = (21, if c_type b =? 21 then c_val b else blk_octets b).
Proof.
  intros b d d' I B L E. destruct (da_step_inv sha256 sha_len (DSetContentBlock b) d d' I) as [I2 F2]; [split; assumption|exact E|].
  unfold da_fields at 1 in F2. cbn [da_effect] in F2. destruct (mi_fields (d_meta d)) as [[[t f] fc] ap] eqn:M. cbv zeta beta in F2. cbn [v_meta] in F2. unfold da_fields in F2.
  split; [exact I2|]. split; congruence.
Qed.
Lemma fresh_fields : forall f d d', da_inv sha256 d -> (f <= MAX_MS)%Z -> mi_fresh (d_meta d) = 0 -> da_setFreshnessPeriod f d = (d', None) ->
  da_inv sha256 d' /\ (nkey (d_name d'), ckey (d_content d')) = (nkey (d_name d), ckey (d_content d)) /\ mi_type (d_meta d') = mi_type (d_meta d) /\
  Z.of_N (mi_fresh (d_meta d')) = f.
Proof.
  intros f d d' I L Z E. destruct (da_step_inv sha256 sha_len (DSetFresh f) d d' I) as [I2 F2]; [exact L|exact E|].
  unfold da_fields at 1 in F2. cbn [da_effect] in F2. destruct (mi_fields (d_meta d)) as [[[t f0] fc] ap] eqn:M. cbv zeta beta in F2. cbn [v_meta] in F2.
  destruct F2 as (r & F2 & _). unfold da_fields in F2. unfold mi_fields in F2, M. split; [exact I2|]. split; [congruence|]. split; [congruence|].
  unfold da_setFreshnessPeriod in E. destruct (f =? mi_getFreshnessPeriod (d_meta d))%Z eqn:Q.
  - injection E as <-. unfold mi_getFreshnessPeriod in Q. rewrite Z in *. unfold MAX_MS in *. destruct (9223372036854775807 <? Z.of_N 0)%Z eqn:X in Q; lia.
  - unfold mi_setFreshnessPeriod in E. destruct (f <? 0)%Z eqn:X; [discriminate|]. injection E as <-. cbn. lia.
Qed.
Lemma ends_app : forall conv dconv kw pre v s nv, can_decode dconv conv = true -> nv < 2 ^ 64 -> fromKind conv KVersion nv = Ok v -> fromKind conv KSegment 0 = Ok s ->
  ends_with dconv kw (pre ++ [(32, kw); ckey v; ckey s]) pre.
Proof.
  intros conv dconv kw pre v s nv CD L V S0. exists v, s, nv, 0. split; [reflexivity|]. split; eapply numeric_round_trip; eauto. reflexivity.
Qed.
Lemma name_wire : forall n w, name_ok n -> nm_encode n = Ok w -> exists v, is_tlv 7 v (e_wire (fst w)) /\ e_type (fst w) = 7 /\ e_val (fst w) = v /\ is_tlv_seq (nkey n) v.
Proof.
  intros n [e n'] [O W] H. cbn [fst]. unfold nm_encode in H. destruct (n_wire n) as [w|] eqn:E.
  - injection H as <- <-. destruct (W w eq_refl) as (T & SQ & Tl). exists (e_val w). auto.
  - inv_bind H. inv_bind H. injection H as <- <-. apply alloc_ok in E0 as [_ L]. rewrite mkBlock_wire, tlv_enc_len in L. cbn [e_val mkBlock] in *.
    exists (concat (map comp_octets (n_comps n))). splits; [|reflexivity|reflexivity|apply comp_octets_spec; auto; lia].
    apply is_tlv_elem. exists (mkBlock 7 (concat (map comp_octets (n_comps n)))). splits; auto. apply mkBlock_wf; [reflexivity|reflexivity|lia].
Qed.
Lemma mo_make : forall conv dconv vn disc signing ver f d, name_ok vn -> Forall ctype_ok (n_comps disc) -> ver < 2 ^ 64 -> (f <= MAX_MS)%Z ->
  (forall si g, signing = Some (si, g) -> si_ok si) -> (forall w, nm_encode vn = Ok w -> nlen (e_wire (fst w)) < 2 ^ 63) -> can_decode dconv conv = true ->
  mo_makeData conv vn disc signing ver f = Ok d ->
  exists pre v s e, nkey disc = pre ++ [(32, str "metadata")] /\ nkey (d_name d) = nkey disc ++ [ckey v; ckey s] /\
    toKind dconv KVersion v = Ok ver /\ toKind dconv KSegment s = Ok 0 /\ Z.of_N (mi_fresh (d_meta d)) = f /\
    da_encode d = (d, Ok e) /\ (forall d0, da_decode e d0 = (d, None)) /\ exists n, mo_ofData dconv d = Ok n /\ nkey n = nkey vn.
Proof.
  intros conv dconv vn disc signing ver f d Ov Od Lv Lf Hs Hw CD H. unfold mo_makeData in H. destruct (_ || _) eqn:G; [discriminate|].
  apply orb_false_iff in G as [G1 G2]. apply negb_false_iff in G2.
  destruct (nm_get (-1) disc) as [c|] eqn:Gc; [|discriminate]. apply comp_eqb_eq in G2.
  assert (K : exists pre, nkey disc = pre ++ [(32, str "metadata")]) by (now apply (disc_key disc c)).
  destruct K as (pre & K). inv_bind H. inv_bind H. inv_bind H. rename a into v, a0 into s, a1 into w.
  assert (Dn : Forall ctype_ok (n_comps (nm_append s (nm_append v disc)))).
  { unfold nm_append. cbn [n_comps]. rewrite !Forall_app. splits; auto; constructor; auto; eapply fromKind_valid; eauto. }
  pose proof (da_of_inv sha256 _ Dn) as I0. set (d0 := da_of (nm_append s (nm_append v disc))) in *.
  destruct (name_wire vn w Ov E1) as (x & Tl & Tw & Vw & SQ). pose proof (Hw w E1) as Lw.
  destruct (da_setContentBlock (comp_of_elem (fst w)) d0) as [d1 [y|]] eqn:E2; [discriminate|].
  assert (Wf : elem_wf (fst w)). { apply is_tlv_elem in Tl as (q & Wq & Tq & Vq & Eq). apply elem_wf_iff. rewrite Tw, Vw. apply is_tlv_elem. exists q. auto. }
  apply block_fields in E2 as (I1 & F1 & C1); auto; [|now apply blk_ok_elem|unfold blk_octets; cbn [comp_of_elem c_hdr c_val]; change (nlen (e_wire (fst w)) < 2 ^ 64); lia].
  destruct (da_setFreshnessPeriod f d1) as [d2 [y|]] eqn:E3; [discriminate|].
  assert (M1 : mi_fresh (d_meta d1) = 0 /\ mi_type (d_meta d1) = 0). { unfold mi_fields in F1. cbn in F1. split; congruence. }
  apply fresh_fields in E3 as (I2 & F2 & T2 & R2); [|exact I1|exact Lf|apply M1].
  destruct signing as [[si g]|]; [|discriminate]. destruct (da_sign g si d2) as [d3 [e|y]] eqn:E4; [|discriminate]. injection H as <-.
  apply sign_fields in E4 as (F3 & W3 & D3 & I3); [|exact I2|now apply (Hs si g)].
  exists pre, v, s, e. split; [exact K|].
  assert (N3 : nkey (d_name d3) = nkey disc ++ [ckey v; ckey s]).
  { assert (nkey (d_name d3) = nkey (d_name d0)) as -> by congruence. unfold d0, nkey, nm_append. cbn [d_name da_of n_comps]. rewrite !map_app, <- app_assoc. reflexivity. }
  split; [exact N3|]. split; [eapply numeric_round_trip; eauto|]. split; [eapply numeric_round_trip; eauto; reflexivity|].
  assert (Fr : mi_fresh (d_meta d3) = mi_fresh (d_meta d2) /\ mi_type (d_meta d3) = 0). { unfold mi_fields in F3. split; [congruence|]. destruct M1. congruence. }
  split; [rewrite (proj1 Fr); exact R2|]. split; [unfold da_encode; rewrite W3; reflexivity|]. split; [exact D3|].
  apply mo_complete. split.
  - exists pre. rewrite N3, K, <- app_assoc. cbn [app]. eapply ends_app; eauto.
  - split; [apply Fr|]. exists [(7, x)], x.
    assert (Cv : c_val (d_content d3) = e_wire (fst w)).
    { assert (ckey (d_content d3) = ckey (d_content d1)) as Q by congruence. rewrite C1 in Q. cbn [comp_of_elem c_type] in Q. rewrite Tw in Q. change (7 =? 21) with false in Q. cbv iota in Q.
      unfold ckey in Q. unfold blk_octets in Q. cbn [comp_of_elem c_hdr c_val] in Q. unfold e_wire. congruence. }
    rewrite Cv. split; [rewrite <- (app_nil_r (e_wire (fst w))); constructor; [exact Tl|constructor]|]. split; [exists [], []; split; [reflexivity|intros []]|exact SQ].
Qed.
End Make.
Lemma mo_refuses : forall conv vn disc signing ver f, (~ exists pre, nkey disc = pre ++ [(32, str "metadata")]) -> mo_makeData conv vn disc signing ver f = Err ETlv.
Proof.
  intros conv vn disc signing ver f H. unfold mo_makeData. destruct (_ || _) eqn:G; [reflexivity|]. exfalso. apply H. clear H.
  apply orb_false_iff in G as [G1 G2]. apply negb_false_iff in G2. destruct (nm_get (-1) disc) as [c|] eqn:Gc; [|discriminate]. apply comp_eqb_eq in G2.
  now apply (disc_key disc c).
Qed.

(* Proofs about Data. *)
From Coq Require Import Lia ZifyBool ZifyNat ZifyN.
From Verif Require Import Base BaseLemmas M_Tlv P_Tlv S_Tlv P_Block M_Str M_Name S_Name P_Name P_NameUri M_Packet S_Packet P_Packet.

Lemma Ok_inj : forall A (a b : A), Ok a = Ok b -> a = b.
Proof. congruence. Qed.
Arguments Ok_inj {A a b}.

Definition recd (e : elem) : bool := da_recognised (e_type e).
Definition setMeta (m : metainfo) (d : data) :=
  mkData (d_name d) m (d_content d) (d_sinfo d) (d_sval d) (d_wire d) (d_full d).
Definition setCont (c : blk) (d : data) :=
  mkData (d_name d) (d_meta d) c (d_sinfo d) (d_sval d) (d_wire d) (d_full d).
Definition setSI (s : siginfo) (d : data) :=
  mkData (d_name d) (d_meta d) (d_content d) s (d_sval d) (d_wire d) (d_full d).
Definition setSV (v : blk) (d : data) :=
  mkData (d_name d) (d_meta d) (d_content d) (d_sinfo d) v (d_wire d) (d_full d).

Lemma da_loop_filter : forall es last d,
  Forall (fun e => recd e = false -> ~ critical (e_type e)) es ->
  da_loop es last d = da_loop (filter recd es) last d.
Proof.
  induction es as [|e es IH]; intros last d H; [reflexivity|].
  inversion H as [|? ? He Hes]; subst. cbn [filter].
  destruct (recd e) eqn:R.
  - cbn [da_loop]. repeat rewrite IH by auto. 
    destruct (mi_decode e (d_meta d)) as [m [x|]]; destruct (si_decode SiData e) as [s [y|]]; rewrite ?IH by auto; reflexivity.
  - cbn [da_loop]. unfold recd, da_recognised in R. unfold tMetaInfo, tContent, tSignatureInfo, tSignatureValue.
    destruct (e_type e =? 20); [discriminate|]. destruct (e_type e =? 21); [discriminate|].
    destruct (e_type e =? 22); [discriminate|]. destruct (e_type e =? 23); [discriminate|].
    specialize (He eq_refl). apply isCritical_false in He. rewrite He. auto.
Qed.

Lemma da_loop_noncritical : forall es last d d', da_loop es last d = (d', None) ->
  Forall (fun e => recd e = false -> ~ critical (e_type e)) es.
Proof.
  induction es as [|e es IH]; intros last d d' H; [constructor|]. cbn [da_loop] in H.
  unfold recd at 1, da_recognised at 1. unfold tMetaInfo, tContent, tSignatureInfo, tSignatureValue in H.
  destruct (e_type e =? 20) eqn:E1.
  { destruct (2 <=? last); [discriminate|]. destruct (mi_decode e (d_meta d)) as [m [x|]]; [discriminate|].
    constructor; [|eapply IH; eauto]. cbv beta. rewrite E1. discriminate. }
  destruct (e_type e =? 21) eqn:E2.
  { destruct (3 <=? last); [discriminate|]. constructor; [|eapply IH; eauto]. cbv beta. rewrite E1, E2. discriminate. }
  destruct (e_type e =? 22) eqn:E3.
  { destruct (4 <=? last); [discriminate|]. destruct (si_decode SiData e) as [s [x|]]; [discriminate|].
    constructor; [|eapply IH; eauto]. cbv beta. rewrite E1, E2, E3. discriminate. }
  destruct (e_type e =? 23) eqn:E4.
  { destruct (5 <=? last); [discriminate|]. constructor; [|eapply IH; eauto]. cbv beta. rewrite E1, E2, E3, E4. discriminate. }
  destruct (isCriticalType (e_type e)) eqn:E5; [discriminate|].
  constructor; [|eapply IH; eauto]. intros _. now apply isCritical_false.
Qed.

Lemma da_loop_cons : forall x es last d d', recd x = true -> da_loop (x :: es) last d = (d', None) ->
  (e_type x = 20 /\ last < 2 /\ exists m, mi_decode x (d_meta d) = (m, None) /\ da_loop es 2 (setMeta m d) = (d', None)) \/
  (e_type x = 21 /\ last < 3 /\ da_loop es 3 (setCont (comp_of_elem x) d) = (d', None)) \/
  (e_type x = 22 /\ last < 4 /\ exists s, si_decode SiData x = (s, None) /\ da_loop es 4 (setSI s d) = (d', None)) \/
  (e_type x = 23 /\ last < 5 /\ da_loop es 5 (setSV (comp_of_elem x) d) = (d', None)).
Proof.
  intros x es last d d' R H. cbn [da_loop] in H. unfold recd, da_recognised in R.
  unfold tMetaInfo, tContent, tSignatureInfo, tSignatureValue in H.
  destruct (e_type x =? 20) eqn:E1.
  { left. destruct (2 <=? last) eqn:L; [discriminate|]. destruct (mi_decode x (d_meta d)) as [m [y|]]; [discriminate|].
    splits; try lia. eauto. }
  destruct (e_type x =? 21) eqn:E2.
  { right; left. destruct (3 <=? last) eqn:L; [discriminate|]. splits; try lia. exact H. }
  destruct (e_type x =? 22) eqn:E3.
  { right; right; left. destruct (4 <=? last) eqn:L; [discriminate|].
    destruct (si_decode SiData x) as [s [y|]]; [discriminate|]. splits; try lia. eauto. }
  destruct (e_type x =? 23) eqn:E4.
  { right; right; right. destruct (5 <=? last) eqn:L; [discriminate|]. splits; try lia. exact H. }
  discriminate.
Qed.

Lemma da_loop_5 : forall es d d', forallb recd es = true -> da_loop es 5 d = (d', None) -> es = [] /\ d' = d.
Proof.
  intros [|x es] d d' F H; [injection H as <-; auto|].
  cbn in F. apply andb_true_iff in F as [R _]. apply da_loop_cons in H as [H|[H|[H|H]]]; auto; lia.
Qed.
Lemma da_loop_4 : forall es d d', forallb recd es = true -> da_loop es 4 d = (d', None) ->
  (es = [] /\ d' = d) \/ exists sv, es = [sv] /\ e_type sv = 23 /\ d' = setSV (comp_of_elem sv) d.
Proof.
  intros [|x es] d d' F H; [injection H as <-; auto|].
  cbn in F. apply andb_true_iff in F as [R F]. apply da_loop_cons in H as [H|[H|[H|H]]]; auto; try lia.
  destruct H as (T & _ & H). apply da_loop_5 in H as [-> ->]; auto. right. exists x. auto.
Qed.
Lemma da_loop_3 : forall es d d', forallb recd es = true -> da_loop es 3 d = (d', None) ->
  si_type (d_sinfo d) = None -> si_type (d_sinfo d') <> None -> blk_isValid (d_sval d) = false -> blk_isValid (d_sval d') = true ->
  exists si sv s, es = [si; sv] /\ e_type si = 22 /\ e_type sv = 23 /\ si_decode SiData si = (s, None) /\
    d' = setSV (comp_of_elem sv) (setSI s d).
Proof.
  intros [|x es] d d' F H N1 N2 N3 N4; [injection H as <-; congruence|].
  cbn in F. apply andb_true_iff in F as [R F]. apply da_loop_cons in H as [H|[H|[H|H]]]; auto; try lia.
  - destruct H as (T & _ & s & Ds & H). apply da_loop_4 in H as [[-> ->]|(sv & -> & T2 & ->)]; auto.
    + cbn in N4. congruence.
    + exists x, sv, s. splits; auto.
  - destruct H as (T & _ & H). apply da_loop_5 in H as [-> ->]; auto. cbn in N2. congruence.
Qed.
Lemma da_loop_2 : forall es d d', forallb recd es = true -> da_loop es 2 d = (d', None) ->
  si_type (d_sinfo d) = None -> si_type (d_sinfo d') <> None -> blk_isValid (d_sval d) = false -> blk_isValid (d_sval d') = true ->
  exists c si sv s, es = opt_list c ++ [si; sv] /\ (forall x, c = Some x -> e_type x = 21) /\
    e_type si = 22 /\ e_type sv = 23 /\ si_decode SiData si = (s, None) /\
    d' = setSV (comp_of_elem sv) (setSI s (setCont (match c with Some x => comp_of_elem x | None => d_content d end) d)).
Proof.
  intros [|x es] d d' F H N1 N2 N3 N4; [injection H as <-; congruence|].
  cbn in F. apply andb_true_iff in F as [R F]. apply da_loop_cons in H as [H|[H|[H|H]]]; auto; try lia.
  - destruct H as (T & _ & H). apply da_loop_3 in H as (si & sv & s & -> & ? & ? & ? & ->); auto.
    exists (Some x), si, sv, s. splits; auto. intros y [= <-]. auto.
  - destruct H as (T & _ & s & Ds & H). apply da_loop_4 in H as [[-> ->]|(sv & -> & T2 & ->)]; auto.
    + cbn in N4. congruence.
    + exists None, x, sv, s. splits; auto; try discriminate. 
  - destruct H as (T & _ & H). apply da_loop_5 in H as [-> ->]; auto. cbn in N2. congruence.
Qed.
Lemma da_loop_1 : forall es d d', forallb recd es = true -> da_loop es 1 d = (d', None) ->
  si_type (d_sinfo d) = None -> si_type (d_sinfo d') <> None -> blk_isValid (d_sval d) = false -> blk_isValid (d_sval d') = true ->
  exists mi c si sv m s, es = opt_list mi ++ opt_list c ++ [si; sv] /\
    (forall x, mi = Some x -> e_type x = 20) /\ (forall x, c = Some x -> e_type x = 21) /\
    e_type si = 22 /\ e_type sv = 23 /\ 
    match mi with Some x => mi_decode x (d_meta d) = (m, None) | None => m = d_meta d end /\
    si_decode SiData si = (s, None) /\
    d' = setSV (comp_of_elem sv) (setSI s (setCont (match c with Some x => comp_of_elem x | None => d_content d end) (setMeta m d))).
Proof.
  intros [|x es] d d' F H N1 N2 N3 N4; [injection H as <-; congruence|].
  cbn in F. apply andb_true_iff in F as [R F]. pose proof H as H0.
  apply da_loop_cons in H as [H|[H|[H|H]]]; auto.
  - destruct H as (T & _ & m & Dm & H). apply da_loop_2 in H as (c & si & sv & s & -> & ? & ? & ? & ? & ->); auto.
    exists (Some x), c, si, sv, m, s. splits; auto. intros y [= <-]. auto.
  - destruct H as (T & _ & H). apply da_loop_3 in H as (si & sv & s & -> & ? & ? & ? & ->); auto.
    exists None, (Some x), si, sv, (d_meta d), s. splits; auto; try discriminate. intros y [= <-]. auto.
  - destruct H as (T & _ & s & Ds & H). apply da_loop_4 in H as [[-> ->]|(sv & -> & T2 & ->)]; auto.
    + cbn in N4. congruence.
    + exists None, None, x, sv, (d_meta d), s. splits; auto; try discriminate.
  - destruct H as (T & _ & H). apply da_loop_5 in H as [-> ->]; auto. cbn in N2. congruence.
Qed.

Lemma da_loop_mi : forall x es last d m, e_type x = 20 -> (2 <=? last) = false -> mi_decode x (d_meta d) = (m, None) ->
  da_loop (x :: es) last d = da_loop es 2 (setMeta m d).
Proof. intros x es last d m T L D. cbn [da_loop]. rewrite T, D, L. reflexivity. Qed.
Lemma da_loop_c : forall x es last d, e_type x = 21 -> (3 <=? last) = false ->
  da_loop (x :: es) last d = da_loop es 3 (setCont (comp_of_elem x) d).
Proof. intros x es last d T L. cbn [da_loop]. rewrite T, L. reflexivity. Qed.
Lemma da_loop_si : forall x es last d s, e_type x = 22 -> (4 <=? last) = false -> si_decode SiData x = (s, None) ->
  da_loop (x :: es) last d = da_loop es 4 (setSI s d).
Proof. intros x es last d s T L D. cbn [da_loop]. rewrite T, D, L. reflexivity. Qed.
Lemma da_loop_sv : forall x es last d, e_type x = 23 -> (5 <=? last) = false ->
  da_loop (x :: es) last d = da_loop es 5 (setSV (comp_of_elem x) d).
Proof. intros x es last d T L. cbn [da_loop]. rewrite T, L. reflexivity. Qed.

Lemma filter_all : forall es, forallb recd (filter recd es) = true.
Proof. induction es as [|e es IH]; cbn; auto. destruct (recd e) eqn:R; cbn; auto. now rewrite R. Qed.

(* the exact domain and result of decoding *)
Lemma da_decode_iff : forall e d d', da_decode e d = (d', None) <->
  exists n es mi c si sv nm m s, da_parts e n es mi c si sv nm m s /\
    d' = mkData nm m (blk_of c) s (comp_of_elem sv) (Some e) nm_empty.
Proof.
  intros e d d'. unfold da_decode. split.
  - intro H. destruct (negb (e_type e =? tData)) eqn:T; [discriminate|].
    destruct (parseValue (e_val e)) as [[|n es]|] eqn:P; try discriminate.
    destruct (negb (e_type n =? tName)); [discriminate|].
    destruct (nm_decode n) as [nm|] eqn:Dn; [|discriminate].
    set (d0 := mkData nm mi_empty blk_invalid si_empty blk_invalid (Some e) nm_empty) in *.
    destruct (da_loop es 1 d0) as [d1 [x|]] eqn:Lp; [discriminate|].
    destruct (si_type (d_sinfo d1)) as [ty|] eqn:Ty; [|discriminate].
    destruct (blk_isValid (d_sval d1)) eqn:Sv; [|discriminate]. injection H as <-.
    pose proof (da_loop_noncritical _ _ _ _ Lp) as NC.
    rewrite da_loop_filter in Lp by auto.
    apply da_loop_1 in Lp as (mi & c & si & sv & m & s & F & T1 & T2 & T3 & T4 & Dm & Ds & ->);
      auto using filter_all; try (cbn; congruence).
    exists n, es, mi, c, si, sv, nm, m, s. split; [|reflexivity].
    unfold da_parts, da_layout. splits; auto. apply negb_false_iff, N.eqb_eq in T. exact T.
  - intros (n & es & mi & c & si & sv & nm & m & s & (T & P & Dn & (F & NC & T1 & T2 & T3 & T4) & Dm & Ds) & ->).
    rewrite T, P. cbn [negb N.eqb]. change (6 =? tData) with true. cbn [negb].
    assert (Tn : e_type n = 7) by (apply nm_decode_keys in Dn; apply Dn).
    rewrite Tn, Dn. change (7 =? tName) with true. cbn [negb].
    rewrite da_loop_filter by exact NC. unfold recd. rewrite F.
    assert (Vs : si_type s <> None) by (apply si_decode_ok in Ds; apply Ds).
    destruct (si_type s) as [ty|] eqn:Ty; [|congruence].
    assert (Vv : blk_isValid (comp_of_elem sv) = true) by (unfold blk_isValid; cbn; now rewrite T4).
    assert (R : da_loop (opt_list mi ++ opt_list c ++ [si; sv]) 1
        (mkData nm mi_empty blk_invalid si_empty blk_invalid (Some e) nm_empty) =
        (mkData nm m (blk_of c) s (comp_of_elem sv) (Some e) nm_empty, None)).
    { destruct mi as [x|]; [specialize (T1 x eq_refl)|clear T1; subst m]; cbn [opt_list app];
        [rewrite (da_loop_mi _ _ _ _ m T1) by (auto; reflexivity)|];
        (destruct c as [y|]; [specialize (T2 y eq_refl)|clear T2]; cbn [opt_list app];
         [rewrite (da_loop_c _ _ _ _ T2) by reflexivity|]);
        rewrite (da_loop_si _ _ _ _ s T3) by (auto; reflexivity);
        rewrite (da_loop_sv _ _ _ _ T4) by reflexivity; reflexivity. }
    rewrite R. cbn [d_sinfo d_sval]. rewrite Ty, Vv. reflexivity.
Qed.

Lemma nm_decode_ok : forall e n, nm_decode e = Ok n -> Forall ctype_ok (n_comps n).
Proof.
  intros e n H. apply nm_decode_iff in H as (_ & es & P & ->). apply parseValue_ok_iff in P as [W _].
  now apply comp_of_elem_ok.
Qed.

Lemma mi_ok_types : forall m m' e, mi_ok m -> mi_decode e mi_empty = (m', None) -> elem_wf e ->
  map ckey (mi_app m') = map ckey (mi_app m) -> mi_ok m'.
Proof.
  intros m m' e (_ & _ & _ & A) D W K. apply mi_decode_range in D as (R1 & R2 & R3 & l & Hl & Wl); auto.
  cbn in Hl. unfold mi_ok. splits; auto. rewrite Hl in *. clear - A K Wl.
  revert K Wl A. generalize (mi_app m). induction l as [|b l IH]; intros l' K Wl A; constructor.
  - destruct l' as [|b' l']; [discriminate|]. inversion A as [|? ? (A1 & A2) _]; subst. inversion Wl; subst.
    injection K as Kt Kv Kl. splits; auto; rewrite Kt; apply A2.
  - destruct l' as [|b' l']; [discriminate|]. inversion A; inversion Wl; subst. injection K as Kt Kv Kl. eapply IH; eauto.
Qed.

Lemma blk_isValid_ok : forall b, blk_ok b -> blk_isValid b = true.
Proof. intros b (H & _). unfold blk_isValid, tInvalid. destruct (c_type b =? 0) eqn:E; auto. lia. Qed.

Lemma da_decode_encoded : forall d v e d0, da_ok d -> da_value d = Ok v -> nlen v < two64 ->
  blk_isValid (d_sval d) = true -> e_type e = 6 -> e_val e = v ->
  exists d', da_decode e d0 = (d', None) /\ da_fields d' = da_fields d /\ d_wire d' = Some e /\
    d_full d' = nm_empty /\ da_ok d'.
Proof.
  intros d v e d0 (On & Om & Oc & Os & Ov) V L Sv Te Ve.
  unfold da_value in V. destruct (si_type (d_sinfo d)) as [ty|] eqn:Ty; [|discriminate].
  inv_bind V. apply Ok_inj in V as Hv. unfold da_unsigned in E. inv_bind E. apply Ok_inj in E as Ha. clear E.
  unfold si_octets in E0. inv_bind E0. apply Ok_inj in E0 as Hs. clear E0.
  assert (Lens : nlen (nm_octets (d_name d)) < two64 /\ nlen (mi_value (d_meta d)) < two64 /\ nlen a1 < two64).
  { pose proof (tlv_enc_len tMetaInfo (mi_value (d_meta d))) as L1. fold (mi_octets (d_meta d)) in L1.
    pose proof (f_equal nlen Hs) as L2. rewrite tlv_enc_len in L2.
    rewrite <- Hv, <- Ha in L. rewrite (nlen_app (_ ++ _)), (nlen_app (nm_octets _)), (nlen_app (mi_octets _)), (nlen_app (if da_hasContent d then _ else _)) in L. lia. }
  destruct Lens as (Ln & Lm & Ls).
  destruct (nm_decode_octets (d_name d) On Ln) as (n & nm & Wn & Tn & Hn & Dn & Kn).
  set (mie := mkBlock tMetaInfo (mi_value (d_meta d))).
  assert (Wm : elem_wf mie) by (apply mkBlock_wf; auto; reflexivity).
  destruct (mi_round_trip (d_meta d) mie Om Lm eq_refl) as (m' & Dm & Fm & Wm').
  set (sie := mkBlock tSignatureInfo a1).
  assert (Ws : elem_wf sie) by (apply mkBlock_wf; auto; reflexivity).
  destruct (si_round_trip SiData (d_sinfo d) a1 sie Os E Ls eq_refl eq_refl) as (s' & Ds & Fs & Ws').
  set (ce := if da_hasContent d then Some (blk_elem (d_content d)) else None).
  assert (Bv : c_type (d_sval d) = 23 /\ blk_ok (d_sval d)) by (destruct Ov as [Ov|]; [rewrite Ov in Sv; discriminate|auto]).
  destruct Bv as [Tv Bv].
  assert (Hc : (c_type (d_content d) = 21 /\ blk_ok (d_content d) /\ ce = Some (blk_elem (d_content d))) \/
               (d_content d = blk_invalid /\ ce = None)).
  { unfold ce, da_hasContent. destruct Oc as [->|[T B]]; [right; auto|]. left. rewrite blk_isValid_ok by exact B. splits; [exact T|exact B|reflexivity]. }
  assert (Cw : concat (map e_wire (opt_list ce)) = if da_hasContent d then blk_octets (d_content d) else []).
  { unfold ce. destruct (da_hasContent d); cbn [opt_list map concat]; auto. now rewrite app_nil_r, blk_elem_wire. }
  assert (Kc : ckey (blk_of ce) = ckey (d_content d)).
  { destruct Hc as [(_ & _ & ->)|[-> ->]]; reflexivity. }
  assert (P : parseValue (e_val e) = Ok (n :: mie :: opt_list ce ++ [sie; blk_elem (d_sval d)])).
  { apply parseValue_ok_iff. split.
    - constructor; auto. constructor; auto. apply Forall_app. split.
      + destruct Hc as [(_ & ? & ->)|[_ ->]]; constructor; auto using blk_elem_wf.
      + constructor; auto. constructor; auto. apply blk_elem_wf, Bv.
    - rewrite Ve, <- Hv, <- Ha, <- Hs. cbn [map concat]. rewrite map_app, concat_app, Cw. cbn [map concat].
      rewrite app_nil_r, blk_elem_wire, Hn. unfold mie, sie. rewrite !mkBlock_wire. unfold mi_octets.
      now rewrite <- !app_assoc. }
  set (d' := mkData nm m' (blk_of ce) s' (comp_of_elem (blk_elem (d_sval d))) (Some e) nm_empty).
  exists d'. splits; auto.
  - apply da_decode_iff. exists n, (mie :: opt_list ce ++ [sie; blk_elem (d_sval d)]), (Some mie), ce, sie,
      (blk_elem (d_sval d)), nm, m', s'. split; [|reflexivity].
    unfold da_parts. splits; auto. unfold da_layout.
    assert (Al : Forall (fun x => da_recognised (e_type x) = true) (mie :: opt_list ce ++ [sie; blk_elem (d_sval d)])).
    { constructor; [reflexivity|]. apply Forall_app. split.
      - destruct Hc as [(T & _ & ->)|[_ ->]]; constructor; auto. cbn. now rewrite T.
      - constructor; [reflexivity|]. constructor; auto. cbn. now rewrite Tv. }
    splits; auto.
    + clear - Al. change (Some mie) with (Some mie). cbn [opt_list app]. revert Al. generalize (mie :: opt_list ce ++ [sie; blk_elem (d_sval d)]).
      induction 1 as [|x l Hx Hl IH]; cbn [filter]; auto. rewrite Hx. f_equal. exact IH.
    + eapply Forall_impl; [|exact Al]. cbn. intros x Hx Hx'. congruence.
    + intros x [= <-]. reflexivity.
    + intros x Hx. destruct Hc as [(T & _ & E')|[_ E']]; rewrite E' in Hx; [injection Hx as <-; exact T|discriminate].
  - unfold da_fields, d'. cbn [d_name d_meta d_content d_sinfo d_sval]. rewrite Kn, Fm, Kc, Fs. reflexivity.
  - unfold da_ok, d'. cbn [d_name d_meta d_content d_sinfo d_sval]. splits.
    + now apply nm_decode_ok in Dn.
    + eapply mi_ok_types; eauto. unfold mi_fields in Fm. congruence.
    + destruct Hc as [(T & B & ->)|[_ ->]]; [right|left; reflexivity]. cbn. split; auto.
      apply blk_ok_elem, blk_elem_wf, B.
    + apply si_decode_ok in Ds as [Ds _]. exact Ds.
    + right. split; auto. apply blk_ok_elem, blk_elem_wf, Bv.
Qed.

(* ---- C20 ---- *)
Lemma parse_zero_tail : forall es tail x, Forall elem_wf es -> tail <> [] -> fromBuffer tail = None ->
  parseValue (concat (map e_wire es) ++ tail) <> Ok x.
Proof.
  intros es tail x W NE F H. apply parseValue_ok_iff in H as [Wx Hx].
  revert x Wx Hx. induction W as [|e es We Wes IH]; intros x Wx Hx; cbn [map concat app] in Hx.
  - destruct x as [|y x]; [cbn in Hx; congruence|]. apply Forall_cons_iff in Wx as [Wy Wx]. cbn [map concat] in Hx.
    rewrite Hx in F. rewrite fromBuffer_wf in F by auto. discriminate.
  - destruct x as [|y x].
    + cbn in Hx. destruct (e_wire e) eqn:Ew; [|discriminate]. pose proof (elem_wf_wire_len e We) as Lw.
      rewrite Ew in Lw. change (nlen (@nil byte)) with 0 in Lw. lia.
    + apply Forall_cons_iff in Wx as [Wy Wx]. cbn [map concat] in Hx. rewrite <- app_assoc in Hx.
      assert (A : fromBuffer (e_wire e ++ concat (map e_wire es) ++ tail) = Some (e, concat (map e_wire es) ++ tail))
        by (now apply fromBuffer_wf).
      rewrite Hx, fromBuffer_wf in A by auto. injection A as <- A. eapply IH; eauto.
Qed.

(* the elements of the unsigned portion *)
Lemma da_unsigned_elems : forall d u, da_ok d -> da_unsigned d = Ok u -> nlen u < two64 ->
  exists n nm mie m' sie s' siv, 
    elem_wf n /\ e_type n = 7 /\ nm_decode n = Ok nm /\ nkey nm = nkey (d_name d) /\
    elem_wf mie /\ e_type mie = 20 /\ mi_decode mie mi_empty = (m', None) /\ mi_fields m' = mi_fields (d_meta d) /\
    elem_wf sie /\ e_type sie = 22 /\ si_decode SiData sie = (s', None) /\ si_fields s' = si_fields (d_sinfo d) /\
    si_value (d_sinfo d) = Ok siv /\ sie = mkBlock tSignatureInfo siv /\
    let c := if da_hasContent d then [blk_elem (d_content d)] else [] in
    Forall elem_wf c /\ Forall (fun x => e_type x = 21) c /\
    u = concat (map e_wire (n :: mie :: c ++ [sie])) /\
    e_wire n = nm_octets (d_name d) /\ e_wire mie = mi_octets (d_meta d) /\ e_wire sie = tlv_enc tSignatureInfo siv.
Proof.
  intros d u (On & Om & Oc & Os & Ov) U L. unfold da_unsigned in U. inv_bind U. apply Ok_inj in U.
  unfold si_octets in E. inv_bind E. apply Ok_inj in E.
  assert (Lens : nlen (nm_octets (d_name d)) < two64 /\ nlen (mi_value (d_meta d)) < two64 /\ nlen a0 < two64).
  { pose proof (tlv_enc_len tMetaInfo (mi_value (d_meta d))) as L1. fold (mi_octets (d_meta d)) in L1.
    pose proof (f_equal nlen E) as L2. rewrite tlv_enc_len in L2.
    rewrite <- U in L. rewrite (nlen_app (nm_octets _)), (nlen_app (mi_octets _)), (nlen_app (if da_hasContent d then _ else _)) in L. lia. }
  destruct Lens as (Ln & Lm & Ls).
  destruct (nm_decode_octets (d_name d) On Ln) as (n & nm & Wn & Tn & Hn & Dn & Kn).
  destruct (mi_round_trip (d_meta d) (mkBlock tMetaInfo (mi_value (d_meta d))) Om Lm eq_refl) as (m' & Dm & Fm & Wm').
  destruct (si_round_trip SiData (d_sinfo d) a0 (mkBlock tSignatureInfo a0) Os E0 Ls eq_refl eq_refl) as (s' & Ds & Fs & Ws').
  exists n, nm, (mkBlock tMetaInfo (mi_value (d_meta d))), m', (mkBlock tSignatureInfo a0), s', a0.
  assert (HC : Forall elem_wf (if da_hasContent d then [blk_elem (d_content d)] else []) /\
               Forall (fun x => e_type x = 21) (if da_hasContent d then [blk_elem (d_content d)] else [])).
  { unfold da_hasContent. destruct Oc as [->|[T B]]; [split; constructor|].
    rewrite blk_isValid_ok by exact B. split; constructor; auto. now apply blk_elem_wf. }
  destruct HC as [HC1 HC2].
  cbv zeta. splits; auto; try (apply mkBlock_wf; auto; reflexivity); try apply mkBlock_wire.
  cbn [map concat]. rewrite map_app, concat_app. cbn [map concat].
  rewrite app_nil_r, Hn, !mkBlock_wire, <- U. fold (mi_octets (d_meta d)).
  assert (Cw : concat (map e_wire (if da_hasContent d then [blk_elem (d_content d)] else [])) =
               if da_hasContent d then blk_octets (d_content d) else []).
  { destruct (da_hasContent d); cbn [map concat]; auto. now rewrite app_nil_r, blk_elem_wire. }
  rewrite Cw, <- E. reflexivity.
Qed.

Lemma da_invalid_sval : forall d v e d0 d', da_ok d -> da_value d = Ok v -> nlen v < two64 ->
  blk_isValid (d_sval d) = false -> e_val e = v -> da_decode e d0 <> (d', None).
Proof.
  intros d v e d0 d' O V L Sv Ve H.
  apply da_decode_iff in H as (n0 & es0 & mi & c & si & sv & nm0 & m & s & (_ & P & _) & _).
  unfold da_value in V. destruct (si_type (d_sinfo d)) as [ty|]; [|discriminate]. inv_bind V. apply Ok_inj in V.
  assert (Sv' : d_sval d = blk_invalid).
  { destruct O as (_ & _ & _ & _ & [Ov|[_ Ov]]); auto. rewrite blk_isValid_ok in Sv by exact Ov. discriminate. }
  rewrite Sv' in V.
  destruct (da_unsigned_elems d a O E) as (n & nm & mie & m' & sie & s' & siv & Wn & _ & _ & _ & Wm & _ & _ & _ & Ws & _ & _ & _ & _ & _ & Wc & _ & U & _).
  { rewrite <- V, nlen_app in L. lia. }
  revert P. rewrite Ve, <- V, U. apply parse_zero_tail; try discriminate; try reflexivity.
  constructor; auto. constructor; auto. apply Forall_app. split; auto.
Qed.

Lemma da_encode_fresh : forall d d' e, da_ok d -> d_wire d = None -> da_encode d = (d', Ok e) ->
  da_fields d' = da_fields d /\ d_wire d' = Some e /\ d_full d' = nm_empty /\ da_ok d' /\
  elem_wf e /\ e_type e = 6 /\ da_value d = Ok (e_val e) /\ forall d0, da_decode e d0 = (d', None).
Proof.
  intros d d' e O W H. unfold da_encode in H. rewrite W in H.
  destruct (da_value d) as [v|] eqn:V; [|discriminate].
  destruct (alloc (tlv_enc tData v)) as [w|] eqn:A; [|discriminate]. apply alloc_ok in A as [_ A].
  assert (L : nlen v < two64) by (rewrite tlv_enc_len in A; lia).
  destruct (da_decode (mkBlock tData v) d) as [d1 [x|]] eqn:D; [discriminate|].
  injection H as <- <-.
  destruct (blk_isValid (d_sval d)) eqn:Sv; [|exfalso; eapply da_invalid_sval; eauto; reflexivity].
  destruct (da_decode_encoded d v (mkBlock tData v) d O V L Sv eq_refl eq_refl) as (d2 & D2 & F & Wd & Fl & O2).
  assert (d2 = d1) by congruence. subst d2. splits; auto.
  - apply mkBlock_wf; auto; reflexivity.
  - intro d0. apply da_decode_iff. now apply da_decode_iff in D.
Qed.

Lemma da_encode_total : forall d, da_ok d -> d_wire d = None -> si_type (d_sinfo d) <> None ->
  (forall k t, si_key (d_sinfo d) = Some k -> kl_loc k <> KlOther t) ->
  blk_isValid (d_sval d) = true ->
  (forall v, da_value d = Ok v -> nlen (tlv_enc tData v) <= MAX_BUFFER) ->
  exists d' e, da_encode d = (d', Ok e).
Proof.
  intros d O W T K Sv L. unfold da_encode. rewrite W.
  assert (exists v, da_value d = Ok v) as [v V].
  { unfold da_value, da_unsigned, si_octets, si_value.
    destruct (si_type (d_sinfo d)); [|congruence].
    destruct (si_key (d_sinfo d)) as [k|] eqn:Ek; [|cbn; eauto]. unfold kl_value.
    specialize (fun t => K k t eq_refl). destruct (kl_loc k) eqn:El; cbn [bind]; eauto.
    exfalso. eapply K; eauto. }
  rewrite V. specialize (L v V). unfold alloc.
  destruct (MAX_BUFFER <? nlen (tlv_enc tData v)) eqn:A; [lia|].
  assert (Lv : nlen v < two64) by (rewrite tlv_enc_len in A; unfold MAX_BUFFER, two64 in *; lia).
  destruct (da_decode_encoded d v (mkBlock tData v) d O V Lv Sv eq_refl eq_refl) as (d2 & D2 & _).
  rewrite D2. eauto.
Qed.

(* Proofs about MetaInfo, KeyLocator and SignatureInfo. *)
From Coq Require Import Lia ZifyBool ZifyNat ZifyN.
From Verif Require Import Base BaseLemmas M_Tlv P_Tlv S_Tlv P_Block M_Str M_Name S_Name P_Name P_NameUri M_Packet S_Packet.

Lemma elem_wf_iff : forall e, elem_wf e <-> is_tlv (e_type e) (e_val e) (e_wire e).
Proof.
  intro e. split.
  - intro W. apply is_tlv_elem. eauto.
  - intros (H0 & H1 & a & b & Ha & Hb & Hw). apply elem_wf_is_tlv. splits; auto.
    exists a, b. splits; auto. unfold e_wire in Hw. rewrite app_assoc in Hw.
    now apply app_inv_tail in Hw.
Qed.

Lemma isCritical_iff : forall t, isCriticalType t = true <-> critical t.
Proof.
  intro t. unfold isCriticalType, critical. rewrite orb_true_iff, negb_true_iff.
  rewrite <- N.bit0_odd, N.bit0_eqb, N.leb_le, N.eqb_neq, N.eqb_eq.
  pose proof (N.mod_upper_bound t 2). lia.
Qed.
Lemma isCritical_false : forall t, isCriticalType t = false <-> ~ critical t.
Proof. intro t. rewrite <- isCritical_iff. destruct (isCriticalType t); intuition congruence. Qed.

(* ---- Blocks as elements ---- *)
Definition blk_elem (b : blk) : elem :=
  mkElem (c_type b)
    (match c_hdr b with Some h => h | None => encVarNumber (c_type b) ++ encVarNumber (nlen (c_val b)) end)
    (c_val b).
Lemma blk_elem_wire : forall b, e_wire (blk_elem b) = blk_octets b.
Proof.
  intros [t [h|] v]; unfold e_wire, blk_elem, blk_octets; cbn; auto.
  unfold tlv_enc. now rewrite app_assoc.
Qed.
Lemma blk_elem_wf : forall b, blk_ok b -> elem_wf (blk_elem b).
Proof. intros b H. apply elem_wf_iff. rewrite blk_elem_wire. exact H. Qed.
Lemma blk_elem_key : forall b, ckey (comp_of_elem (blk_elem b)) = ckey b.
Proof. reflexivity. Qed.
Lemma blk_ok_elem : forall e, elem_wf e -> blk_ok (comp_of_elem e).
Proof. intros e W. unfold blk_ok. cbn. now apply elem_wf_iff. Qed.
Lemma blk_ok_bare : forall t v, 0 < t -> t < two32 -> nlen v < two64 -> blk_ok (mkComp t None v).
Proof. intros. unfold blk_ok. cbn. now apply tlv_enc_is. Qed.
Lemma blk_ok_mk : forall t v, 0 < t -> t < two32 -> nlen v < two64 -> blk_ok (comp_of_elem (mkBlock t v)).
Proof. intros. apply blk_ok_elem. now apply mkBlock_wf. Qed.
Lemma concat_blk : forall l, concat (map blk_octets l) = concat (map e_wire (map blk_elem l)).
Proof. intro l. rewrite map_map. f_equal. apply map_ext. intro. now rewrite blk_elem_wire. Qed.
Lemma keys_blk : forall l, map ckey (map comp_of_elem (map blk_elem l)) = map ckey l.
Proof. intro l. rewrite !map_map. reflexivity. Qed.
Lemma blk_elems_wf : forall l, Forall blk_ok l -> Forall elem_wf (map blk_elem l).
Proof. intros l H. rewrite Forall_map. eapply Forall_impl; [|exact H]. apply blk_elem_wf. Qed.

Lemma mkNNI_wire : forall t n, e_wire (mkNNIBlock t n) = tlv_nni t n.
Proof. intros. unfold mkNNIBlock, tlv_nni. apply mkBlock_wire. Qed.
Lemma encNNI_small : forall n, nlen (encNNI n) < two64.
Proof. intro n. rewrite encNNI_len. destruct (sizeOfNNI_cases n) as [-> | [-> | [-> | ->]]]; reflexivity. Qed.
Lemma mkNNI_wf : forall t n, 0 < t -> t < two32 -> elem_wf (mkNNIBlock t n).
Proof. intros. apply mkBlock_wf; auto. apply encNNI_small. Qed.
Lemma readNNIAs_mk : forall t n lim, n < lim -> lim <= two64 -> readNNIBlockAs lim (mkNNIBlock t n) = Ok n.
Proof.
  intros t n lim H H'. unfold readNNIBlockAs. rewrite readNNIBlock_mk by lia. cbn [bind].
  destruct (lim <=? n) eqn:E; [lia|reflexivity].
Qed.

(* ---- MetaInfo ---- *)
Definition mi_elems (m : metainfo) : list elem :=
  (if mi_type m =? 0 then [] else [mkNNIBlock tContentType (mi_type m)]) ++
  (if mi_fresh m =? 0 then [] else [mkNNIBlock tFreshnessPeriod (mi_fresh m)]) ++
  (match mi_final m with None => [] | Some c => [mkBlock tFinalBlockId (comp_octets c)] end) ++
  map blk_elem (mi_app m).

Lemma mi_value_elems : forall m, mi_value m = concat (map e_wire (mi_elems m)).
Proof.
  intro m. unfold mi_value, mi_elems. rewrite !map_app, !concat_app, <- concat_blk. f_equal; [|f_equal; [|f_equal]].
  - destruct (mi_type m =? 0); cbn [map concat]; auto. now rewrite mkNNI_wire, app_nil_r.
  - destruct (mi_fresh m =? 0); cbn [map concat]; auto. now rewrite mkNNI_wire, app_nil_r.
  - destruct (mi_final m); cbn [map concat]; auto. now rewrite mkBlock_wire, app_nil_r.
Qed.

Lemma final_len : forall m c, mi_final m = Some c -> nlen (comp_octets c) <= nlen (mi_value m).
Proof.
  intros m c H. unfold mi_value. rewrite H, !nlen_app, tlv_enc_len. lia.
Qed.
Lemma comp_val_len : forall c, nlen (c_val c) <= nlen (comp_octets c).
Proof. intro c. unfold comp_octets. rewrite tlv_enc_len. lia. Qed.

Lemma mi_elems_wf : forall m, mi_ok m -> nlen (mi_value m) < two64 -> Forall elem_wf (mi_elems m).
Proof.
  intros m (Ht & Hf & Hc & Ha) L. unfold mi_elems. rewrite !Forall_app. splits.
  - destruct (mi_type m =? 0); constructor; auto. apply mkNNI_wf; reflexivity.
  - destruct (mi_fresh m =? 0); constructor; auto. apply mkNNI_wf; reflexivity.
  - destruct (mi_final m) as [c|] eqn:F; constructor; auto. apply mkBlock_wf; try reflexivity.
    apply final_len in F. lia.
  - apply blk_elems_wf. eapply Forall_impl; [|exact Ha]. now intros b [H _].
Qed.

Lemma take_if_app : forall t e es, e_type e = t -> take_if t (e :: es) = (Some e, es).
Proof. intros t e es <-. cbn. now rewrite N.eqb_refl. Qed.
Lemma take_if_no : forall t es, Forall (fun e => e_type e <> t) es -> take_if t es = (None, es).
Proof.
  intros t [|e es] H; auto. cbn. inversion H; subst. destruct (e_type e =? t) eqn:E; auto. lia.
Qed.

Lemma blockFromWire_comp : forall c, valid_key (ckey c) -> nlen (c_val c) < two64 ->
  blockFromWire (comp_octets c) = Ok (celem c).
Proof.
  intros c (H0 & H1 & H2) L. cbn in H0, H1, H2. unfold comp_octets. rewrite <- mkBlock_wire.
  apply blockFromWire_wf. apply mkBlock_wf; auto; unfold two32; lia.
Qed.
Lemma comp_ofBlock_celem : forall c, valid_key (ckey c) -> comp_ofBlock (celem c) = Ok (comp_of_elem (celem c)).
Proof.
  intros c H. unfold comp_ofBlock, ensureValid. cbn [c_type c_val comp_of_elem celem mkBlock e_type e_val].
  apply comp_valid_iff in H. cbn in H. now rewrite H.
Qed.
Lemma comp_octets_nonempty : forall c, nlen (comp_octets c) =? 0 = false.
Proof.
  intro c. apply N.eqb_neq. unfold comp_octets. rewrite tlv_enc_len.
  unfold sizeOfVarNumber at 1. destruct (_ <? 253); [lia|]. destruct (_ <=? 65535); [lia|].
  destruct (_ <=? 4294967295); lia.
Qed.

Lemma mi_decode_elems : forall m e, mi_ok m -> nlen (mi_value m) < two64 -> e_val e = mi_value m ->
  forall m0, exists c', mi_decode e m0 =
    (mkMI (mi_type m) (mi_fresh m) c' (mi_app m0 ++ map comp_of_elem (map blk_elem (mi_app m))) (Some e), None) /\
    option_map ckey c' = option_map ckey (mi_final m).
Proof.
  intros m e Hok L Hv m0. pose proof Hok as (Ht & Hf & Hc & Ha).
  assert (P : parseValue (e_val e) = Ok (mi_elems m)).
  { apply parseValue_ok_iff. split; [now apply mi_elems_wf|]. now rewrite Hv, mi_value_elems. }
  assert (NA : forall t, t = 24 \/ t = 25 \/ t = 26 -> Forall (fun x => e_type x <> t) (map blk_elem (mi_app m))).
  { intros t T. rewrite Forall_map. eapply Forall_impl; [|exact Ha]. cbn. intros b (_ & ? & ? & ?). lia. }
  unfold mi_decode. rewrite P. unfold mi_elems.
  set (A := map blk_elem (mi_app m)) in *.
  set (F := match mi_final m with None => [] | Some c => [mkBlock tFinalBlockId (comp_octets c)] end).
  set (Fr := if mi_fresh m =? 0 then [] else [mkNNIBlock tFreshnessPeriod (mi_fresh m)]).
  assert (NF : forall t, t = 24 \/ t = 25 -> Forall (fun x => e_type x <> t) (F ++ A)).
  { intros t T. apply Forall_app; split; [|apply NA; lia]. unfold F.
    destruct (mi_final m); constructor; auto. cbn. unfold tFinalBlockId. lia. }
  assert (NFr : Forall (fun x => e_type x <> 24) (Fr ++ F ++ A)).
  { apply Forall_app; split; [|apply NF; auto]. unfold Fr.
    destruct (mi_fresh m =? 0); constructor; auto. cbn. unfold tFreshnessPeriod. lia. }
  assert (T1 : (let (ct, es1) := take_if tContentType ((if mi_type m =? 0 then [] else [mkNNIBlock tContentType (mi_type m)]) ++ Fr ++ F ++ A) in
     (match ct with Some v => readNNIBlockAs two32 v | None => Ok 0 end, es1)) = (Ok (mi_type m), Fr ++ F ++ A)).
  { destruct (mi_type m =? 0) eqn:E; cbn [app].
    - rewrite take_if_no by exact NFr. f_equal. f_equal. lia.
    - rewrite take_if_app by reflexivity. rewrite readNNIAs_mk; [reflexivity|exact Ht|discriminate]. }
  destruct (take_if tContentType _) as [ct es1]. injection T1 as -> ->.
  assert (T2 : (let (fp, es2) := take_if tFreshnessPeriod (Fr ++ F ++ A) in
     (match fp with Some v => readNNIBlock v | None => Ok 0 end, es2)) = (Ok (mi_fresh m), F ++ A)).
  { unfold Fr. destruct (mi_fresh m =? 0) eqn:E; cbn [app].
    - rewrite take_if_no by (apply NF; auto). f_equal. f_equal. lia.
    - rewrite take_if_app by reflexivity. rewrite readNNIBlock_mk; auto. }
  destruct (take_if tFreshnessPeriod _) as [fp es2]. injection T2 as -> ->.
  unfold F. destruct (mi_final m) as [c|] eqn:E; cbn [app].
  - rewrite take_if_app by reflexivity. pose proof (Hc c eq_refl) as V.
    unfold blockFromValue. cbn [e_val mkBlock]. rewrite comp_octets_nonempty, blockFromWire_comp, comp_ofBlock_celem; auto.
    + eexists. split; [reflexivity|]. reflexivity.
    + pose proof (comp_val_len c). pose proof (final_len m c E). lia.
  - rewrite take_if_no by (apply NA; auto). eexists. split; [reflexivity|]. reflexivity.
Qed.

Lemma mi_round_trip : forall m e, mi_ok m -> nlen (mi_value m) < two64 -> e_val e = mi_value m ->
  exists m', mi_decode e mi_empty = (m', None) /\ mi_fields m' = mi_fields m /\ mi_wire m' = Some e.
Proof.
  intros m e H L V. destruct (mi_decode_elems m e H L V mi_empty) as (c' & E & K).
  eexists. split; [exact E|]. split; [|reflexivity]. unfold mi_fields. cbn.
  now rewrite K, keys_blk.
Qed.

(* what a decoded MetaInfo looks like *)
Lemma mi_decode_range : forall e m m', mi_decode e m = (m', None) -> elem_wf e ->
  mi_type m' < two32 /\ mi_fresh m' < two64 /\ (forall c, mi_final m' = Some c -> valid_key (ckey c)) /\
  exists l, mi_app m' = mi_app m ++ l /\ Forall blk_ok l.
Proof.
  intros e m m' H W. unfold mi_decode in H.
  destruct (parseValue (e_val e)) as [es|] eqn:P; [|discriminate].
  apply parseValue_ok_iff in P as [We _].
  assert (TW : forall t l o r, take_if t l = (o, r) -> Forall elem_wf l -> Forall elem_wf r).
  { intros t [|x l] o r T F; cbn in T; [now injection T as <- <-|].
    destruct (e_type x =? t); injection T as <- <-; auto. now inversion F. }
  destruct (take_if tContentType es) as [ct es1] eqn:T1.
  destruct (match ct with Some v => _ | None => _ end) as [t|] eqn:E1; [|discriminate].
  destruct (take_if tFreshnessPeriod es1) as [fp es2] eqn:T2.
  destruct (match fp with Some v => _ | None => _ end) as [f|] eqn:E2; [|discriminate].
  destruct (take_if tFinalBlockId es2) as [fb es3] eqn:T3.
  apply TW in T1; auto. apply TW in T2; auto. apply TW in T3; auto.
  assert (Lt : t < two32).
  { destruct ct as [v|]; [|injection E1 as <-; reflexivity]. unfold readNNIBlockAs in E1. inv_bind E1.
    destruct (two32 <=? a) eqn:?; [discriminate|]. injection E1 as <-. lia. }
  assert (Lf : f < two64).
  { destruct fp as [v|]; [now apply readNNIBlock_lt in E2|injection E2 as <-; reflexivity]. }
  assert (Wl : Forall blk_ok (map comp_of_elem es3)).
  { rewrite Forall_map. eapply Forall_impl; [|exact T3]. apply blk_ok_elem. }
  destruct fb as [v|].
  - destruct (blockFromValue v) as [b|] eqn:Eb; [|discriminate].
    destruct (comp_ofBlock b) as [c|] eqn:Ec; [|discriminate].
    injection H as <-. cbn. splits; auto; [|eauto].
    intros c' [= <-]. unfold comp_ofBlock in Ec. unfold ensureValid in Ec.
    destruct (comp_valid _ _) eqn:V; [|discriminate]. injection Ec as <-. apply comp_valid_iff in V. exact V.
  - injection H as <-. cbn. splits; auto; [discriminate|eauto].
Qed.

(* decoding into any object differs from decoding into a fresh one only by the old AppMetaInfo *)
Lemma mi_decode_any : forall e m m', mi_decode e m = (m', None) ->
  exists m0, mi_decode e mi_empty = (m0, None) /\ mi_type m' = mi_type m0 /\ mi_fresh m' = mi_fresh m0 /\
    mi_final m' = mi_final m0 /\ mi_app m' = mi_app m ++ mi_app m0 /\ mi_wire m' = Some e /\ mi_wire m0 = Some e.
Proof.
  intros e m m' H. unfold mi_decode in *.
  destruct (parseValue (e_val e)) as [es|]; [|discriminate].
  destruct (take_if tContentType es) as [ct es1].
  destruct (match ct with Some v => _ | None => _ end) as [t|]; [|discriminate].
  destruct (take_if tFreshnessPeriod es1) as [fp es2].
  destruct (match fp with Some v => _ | None => _ end) as [f|]; [|discriminate].
  destruct (take_if tFinalBlockId es2) as [fb es3].
  destruct fb as [v|].
  - destruct (blockFromValue v) as [b|]; [|discriminate].
    destruct (comp_ofBlock b) as [c|]; [|discriminate].
    injection H as <-. eexists. split; [reflexivity|]. cbn. splits; auto.
  - injection H as <-. eexists. split; [reflexivity|]. cbn. splits; auto.
Qed.

(* ---- KeyLocator ---- *)
Lemma nm_decode_octets : forall n, Forall ctype_ok (n_comps n) -> nlen (nm_octets n) < two64 ->
  exists e n', elem_wf e /\ e_type e = tName /\ e_wire e = nm_octets n /\ nm_decode e = Ok n' /\ nkey n' = nkey n.
Proof.
  intros n T L. pose proof (nm_octets_is n T L) as (v & S1 & S2).
  apply is_tlv_elem in S2 as (e & W & Ht & Hv & Hw).
  destruct (nm_decode_accepts e (nkey n)) as (n' & D & K); auto; [now rewrite Hv|].
  exists e, n'. splits; auto.
Qed.

Lemma kl_round_trip : forall k v e, kl_ok k -> kl_value k = Ok v -> nlen v < two64 ->
  e_type e = tKeyLocator -> e_val e = v ->
  exists k', kl_decode e = Ok k' /\ kl_fields k' = kl_fields k.
Proof.
  intros [l w] v e O V L Te Ve. unfold kl_decode. rewrite Te, N.eqb_refl. cbn [negb]. rewrite Ve.
  unfold kl_value, kl_ok in *. cbn [kl_loc] in *.
  assert (One : forall x, elem_wf x -> v = e_wire x -> parseValue v = Ok [x]).
  { intros x W ->. apply parseValue_ok_iff. cbn. rewrite app_nil_r. auto. }
  destruct l as [|n|b|t]; [..|discriminate]; injection V as Hv.
  - rewrite <- Hv. cbn. eexists. split; reflexivity.
  - destruct (nm_decode_octets n O) as (x & n' & W & Ht & Hw & D & K); [now rewrite Hv|].
    rewrite (One x) by (auto; congruence). cbn [bind]. rewrite Ht. cbn. rewrite D. cbn.
    eexists. split; [reflexivity|]. unfold kl_fields. cbn. now rewrite K.
  - destruct O as [Ht O]. rewrite (One (blk_elem b)) by (auto using blk_elem_wf; now rewrite blk_elem_wire).
    cbn [bind]. cbn [blk_elem e_type]. rewrite Ht. cbn. eexists. split; reflexivity.
Qed.

Lemma kl_decode_ok : forall e k, kl_decode e = Ok k -> kl_ok k.
Proof.
  intros e k H. unfold kl_decode in H. destruct (negb _); [discriminate|]. inv_bind H.
  apply parseValue_ok_iff in E as [W _]. destruct a as [|x a]; [injection H as <-; exact I|].
  inversion W as [|? ? Wx _]; subst.
  destruct (e_type x =? tName).
  - inv_bind H. injection H as <-. cbn. unfold nm_decode in E. destruct (negb _); [discriminate|].
    inv_bind E. apply parseValue_ok_iff in E0 as [Wa _]. injection E as <-. cbn. now apply comp_of_elem_ok.
  - destruct (e_type x =? tKeyDigest) eqn:Et; injection H as <-; cbn; auto.
    split; [apply N.eqb_eq in Et; exact Et|]. now apply blk_ok_elem.
Qed.

Lemma kl_eqb_eq : forall a b, kl_eqb a b = true <-> kl_fields a = kl_fields b.
Proof.
  intros [la wa] [lb wb]. unfold kl_eqb, kl_fields. cbn.
  destruct la, lb; try (split; [discriminate|intros [=]]; fail).
  - split; auto.
  - rewrite nm_equals_iff. split; congruence.
  - rewrite comp_eqb_eq. split; congruence.
  - rewrite N.eqb_eq. split; congruence.
Qed.
Lemma optkl_eqb_eq : forall a b, optkl_eqb a b = true <-> option_map kl_fields a = option_map kl_fields b.
Proof.
  intros [a|] [b|]; cbn; try (split; [discriminate|intros [=]]; fail).
  - rewrite kl_eqb_eq. split; congruence.
  - split; auto.
Qed.

(* ---- SignatureInfo ---- *)
Definition si_rec (t : N) : bool := (t =? 27) || (t =? 28).

Lemma si_other_ok_types : forall b, si_other_ok b ->
  c_type b <> 27 /\ c_type b <> 28 /\
  (c_type b = 38 -> c_val b <> []) /\ (isCriticalType (c_type b) = true -> c_type b = 253).
Proof.
  intros b (_ & H & N). splits; auto; try (intro E; rewrite E in H; unfold critical in H; destruct H; [apply H; lia|lia]).
  rewrite isCritical_iff. tauto.
Qed.

Lemma si_loop_others : forall l last s, Forall si_other_ok l ->
  si_loop (map blk_elem l) last s =
  (mkSI (si_type s) (si_key s) (si_other s ++ map comp_of_elem (map blk_elem l)) (si_wire s), None).
Proof.
  induction l as [|b l IH]; intros last s H; cbn [map si_loop].
  - rewrite app_nil_r. now destruct s.
  - inversion H as [|? ? Hb Hl]; subst.
    pose proof (si_other_ok_types b Hb) as (T1 & T2 & T3 & T4).
    cbn [blk_elem e_type e_val]. unfold tSignatureType, tKeyLocator, tSignatureNonce, tValidityPeriod in *.
    destruct (c_type b =? 27) eqn:E1; [lia|]. destruct (c_type b =? 28) eqn:E2; [lia|].
    assert (Step : si_loop (map blk_elem l) last
       (mkSI (si_type s) (si_key s) (si_other s ++ [comp_of_elem (blk_elem b)]) (si_wire s)) =
       (mkSI (si_type s) (si_key s) (si_other s ++ comp_of_elem (blk_elem b) :: map comp_of_elem (map blk_elem l)) (si_wire s), None)).
    { rewrite IH by auto. cbn [si_type si_key si_other si_wire]. now rewrite <- app_assoc. }
    unfold blk_elem in Step at 2 3. cbn [c_type] in Step.
    destruct (c_type b =? 38) eqn:E3.
    + destruct (nlen (c_val b) <? 1) eqn:E4.
      * exfalso. apply T3; [lia|]. apply nlen_0. lia.
      * exact Step.
    + destruct (c_type b =? 253) eqn:E5; [exact Step|].
      destruct (isCriticalType (c_type b)) eqn:E6; [specialize (T4 eq_refl); lia|exact Step].
Qed.

Definition si_elems (t : N) (s : siginfo) (klv : option bytes) : list elem :=
  mkNNIBlock tSignatureType t :: (match klv with Some v => [mkBlock tKeyLocator v] | None => [] end) ++
  map blk_elem (si_other s).

Lemma si_value_inv : forall s v, si_value s = Ok v -> exists t klv,
  si_type s = Some t /\
  match si_key s with Some k => exists kv, kl_value k = Ok kv /\ klv = Some kv | None => klv = None end /\
  v = concat (map e_wire (si_elems t s klv)).
Proof.
  intros s v H. unfold si_value in H. destruct (si_type s) as [t|]; [|discriminate].
  inv_bind H. injection H as <-. unfold si_elems.
  destruct (si_key s) as [k|].
  - inv_bind E. injection E as <-. exists t, (Some a0). splits; eauto.
    cbn [map concat app]. rewrite concat_blk, mkNNI_wire, mkBlock_wire. reflexivity.
  - injection E as <-. exists t, None. splits; eauto.
    cbn [map concat app]. rewrite concat_blk, mkNNI_wire. reflexivity.
Qed.

Lemma si_round_trip : forall k s v e, si_ok s -> si_value s = Ok v -> nlen v < two64 ->
  e_type e = si_tlv k -> e_val e = v ->
  exists s', si_decode k e = (s', None) /\ si_fields s' = si_fields s /\ si_wire s' = Some e.
Proof.
  intros k s v e (Ot & Ok' & Oo) V L Te Ve.
  apply si_value_inv in V as (t & klv & Ht & Hk & Hv).
  assert (Lk : forall kv, klv = Some kv -> nlen kv < two64).
  { intros kv ->. rewrite Hv in L. unfold si_elems in L. cbn [map concat app] in L.
    rewrite nlen_app, mkBlock_wire, nlen_app, tlv_enc_len in L. lia. }
  assert (W : Forall elem_wf (si_elems t s klv)).
  { unfold si_elems. constructor; [apply mkNNI_wf; reflexivity|]. apply Forall_app; split.
    - destruct klv as [kv|]; constructor; auto. apply mkBlock_wf; try reflexivity. now apply Lk.
    - apply blk_elems_wf. eapply Forall_impl; [|exact Oo]. now intros b [H _]. }
  assert (P : parseValue (e_val e) = Ok (si_elems t s klv)).
  { apply parseValue_ok_iff. split; auto. congruence. }
  unfold si_decode. rewrite P, Te, N.eqb_refl. cbn [negb]. unfold si_elems. cbn [si_loop e_type mkNNIBlock mkBlock].
  change (tSignatureType =? tSignatureType) with true. change (0 <? 0) with false. cbv iota.
  change (mkElem tSignatureType (encVarNumber tSignatureType ++ encVarNumber (nlen (encNNI t))) (encNNI t))
    with (mkNNIBlock tSignatureType t).
  rewrite readNNIAs_mk; [|now apply Ot|discriminate].
  destruct (si_key s) as [kl|] eqn:Ek.
  - destruct Hk as (kv & Kv & ->). cbn [app si_loop e_type mkBlock].
    change (tKeyLocator =? tSignatureType) with false. change (tKeyLocator =? tKeyLocator) with true.
    change (1 <? 1) with false. cbv iota.
    destruct (kl_round_trip kl kv (mkBlock tKeyLocator kv)) as (k' & D & F); auto.
    rewrite D. cbn [si_type si_key si_other si_wire].
    rewrite si_loop_others by auto. cbn [si_type si_key si_other si_wire app].
    eexists. split; [reflexivity|]. split; [|reflexivity].
    unfold si_fields. cbn. now rewrite keys_blk, F, Ht, Ek.
  - subst klv. cbn [app]. rewrite si_loop_others by auto. cbn [si_type si_key si_other si_wire app].
    eexists. split; [reflexivity|]. split; [|reflexivity].
    unfold si_fields. cbn. now rewrite keys_blk, Ht, Ek.
Qed.

(* what a decoded SignatureInfo looks like *)
Lemma readNNIAs_lt : forall lim e n, readNNIBlockAs lim e = Ok n -> n < lim.
Proof.
  intros lim e n H. unfold readNNIBlockAs in H. inv_bind H. destruct (lim <=? a) eqn:E'; [discriminate|].
  injection H as <-. lia.
Qed.
Lemma si_loop_ok : forall es last s s', Forall elem_wf es -> si_ok s -> si_loop es last s = (s', None) -> si_ok s'.
Proof.
  induction es as [|e es IH]; intros last s s' W O H; cbn [si_loop] in H.
  - now injection H as <-.
  - inversion W as [|? ? We Wes]; subst. pose proof O as (O1 & O2 & O3).
    assert (Keep : si_other_ok (comp_of_elem e) ->
      si_ok (mkSI (si_type s) (si_key s) (si_other s ++ [comp_of_elem e]) (si_wire s))).
    { intro Q. unfold si_ok; cbn [si_type si_key si_other]; splits; auto. apply Forall_app; split; auto. }
    unfold si_other_ok in Keep. cbn [comp_of_elem c_type c_val] in Keep.
    pose proof (blk_ok_elem e We) as Bk.
    unfold tSignatureType, tKeyLocator, tSignatureNonce, tValidityPeriod in H.
    destruct (e_type e =? 27) eqn:E1.
    { destruct (0 <? last); [discriminate|]. destruct (readNNIBlockAs two16 e) as [t|] eqn:R; [|discriminate].
      eapply IH in H; eauto. unfold si_ok; cbn [si_type si_key si_other]; splits; auto. intros ? [= <-]. now apply readNNIAs_lt in R. }
    destruct (e_type e =? 28) eqn:E2.
    { destruct (1 <? last); [discriminate|]. destruct (kl_decode e) as [k|] eqn:R; [|discriminate].
      eapply IH in H; eauto. unfold si_ok; cbn [si_type si_key si_other]; splits; auto. intros ? [= <-]. now apply kl_decode_ok in R. }
    destruct (e_type e =? 38) eqn:E3.
    { destruct (nlen (e_val e) <? 1) eqn:L; [discriminate|]. eapply IH in H; eauto. apply Keep. splits; auto.
      - left. intros [C|C]; [lia|]. apply N.eqb_eq in E3. rewrite E3 in C. discriminate.
      - intros _ C. rewrite C in L. discriminate. }
    destruct (e_type e =? 253) eqn:E4.
    { eapply IH in H; eauto. apply Keep. splits; auto; [right; lia|lia]. }
    destruct (isCriticalType (e_type e)) eqn:E5; [discriminate|].
    eapply IH in H; eauto. apply Keep. splits; auto; [|lia]. left. now apply isCritical_false.
Qed.
Lemma si_decode_ok : forall k e s, si_decode k e = (s, None) -> si_ok s /\ si_wire s = Some e /\ si_type s <> None /\ e_type e = si_tlv k.
Proof.
  intros k e s H. unfold si_decode in H. destruct (parseValue (e_val e)) as [es|] eqn:P; [|discriminate].
  apply parseValue_ok_iff in P as [W _]. destruct (negb (e_type e =? si_tlv k)) eqn:T; [discriminate|].
  destruct (si_loop es 0 _) as [s1 [x|]] eqn:Lp; [discriminate|].
  assert (Wr : forall es last s0 s1, si_loop es last s0 = (s1, None) -> si_wire s1 = si_wire s0).
  { clear. induction es as [|e es IH]; intros last s0 s1 H; cbn [si_loop] in H; [now injection H as <-|].
    repeat match type of H with
    | (if ?b then _ else _) = _ => destruct b
    | (match ?m with Ok _ => _ | Err _ => _ end) = _ => destruct m
    end; try discriminate; apply IH in H; auto. }
  pose proof (Wr _ _ _ _ Lp) as Wr'.
  apply si_loop_ok in Lp; auto.
  - destruct (si_type s1) eqn:St; [|discriminate]. injection H as <-. splits; auto; [congruence|].
    apply negb_false_iff in T. now apply N.eqb_eq in T.
  - unfold si_ok; cbn [si_type si_key si_other]; splits; try discriminate; constructor.
Qed.

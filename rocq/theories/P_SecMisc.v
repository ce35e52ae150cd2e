(* Proofs about SafeBag, AdditionalDescription and the text form of SigningInfo. *)
From Coq Require Import Lia ZifyBool ZifyNat ZifyN.
From Verif Require Import Base BaseLemmas M_Tlv S_Tlv P_Tlv P_Block M_Str M_Name S_Name P_Name P_NameUri M_Packet S_Packet P_Packet P_Data P_DataT P_DataHist P_IntPolicy P_Str P_Segmenter M_SecMisc S_SecMisc.
Open Scope N_scope.
Open Scope list_scope.

(* ---- order ---- *)
Lemma cmp_spec : forall a b, match bytes_cmp a b with Eq => a = b | Lt => lex a b | Gt => lex b a end.
Proof.
  induction a as [|x a IH]; intros [|y b]; cbn [bytes_cmp]; try reflexivity; try constructor.
  destruct (N.compare_spec (bn x) (bn y)) as [E|L|L]; try (constructor; exact L).
  assert (x = y) as -> by (apply beqb_eq; unfold beqb; now apply N.eqb_eq). specialize (IH b). destruct (bytes_cmp a b); [now subst|now constructor|now constructor].
Qed.
Lemma lex_irrefl : forall a, ~ lex a a.
Proof. induction a as [|x a IH]; intro H; inversion H; subst; [lia|auto]. Qed.
Lemma lex_trans : forall a b c, lex a b -> lex b c -> lex a c.
Proof.
  induction a as [|x a IH]; intros b c H Q.
  - inversion H; subst; inversion Q; subst; constructor.
  - inversion H; subst; inversion Q; subst; try (apply lex_lt; lia). apply lex_eq. eauto.
Qed.
Lemma cmp_lt : forall a b, lex a b -> bytes_cmp a b = Lt.
Proof. intros a b L. pose proof (cmp_spec a b) as C. destruct (bytes_cmp a b); [subst; now elim (lex_irrefl b)|auto|elim (lex_irrefl a); eapply lex_trans; eauto]. Qed.
Lemma cmp_gt : forall a b, lex b a -> bytes_cmp a b = Gt.
Proof. intros a b L. pose proof (cmp_spec a b) as C. destruct (bytes_cmp a b); [subst; now elim (lex_irrefl b)|elim (lex_irrefl a); eapply lex_trans; eauto|auto]. Qed.

(* ---- the map ---- *)
Definition look (k : bytes) (l : list (bytes * bytes)) : option bytes := option_map snd (find (fun x => bytes_eqb (fst x) k) l).
Lemma get_look : forall k a, got (ad_get k a) = look k (ad_info a).
Proof. intros k a. unfold ad_get, look. destruct (find _ _); reflexivity. Qed.
Lemma beq_neq : forall a b : bytes, a <> b -> bytes_eqb a b = false.
Proof. intros a b N. destruct (bytes_eqb a b) eqn:E; auto. apply bytes_eqb_eq in E. contradiction. Qed.
Lemma look_above : forall k l, Forall (fun y => lex k (fst y)) l -> look k l = None.
Proof.
  intros k l F. unfold look. induction F as [|y l L F IH]; [reflexivity|]. cbn [find]. rewrite beq_neq; [exact IH|]. intros <-. now apply lex_irrefl in L.
Qed.
Lemma put_forall : forall (P : bytes * bytes -> Prop) k v l, (forall w, P (k, w)) -> Forall P l -> (forall k' w w', P (k', w) -> P (k', w')) -> Forall P (map_put k v l).
Proof.
  intros P k v l K F Q. induction F as [|[k' v'] l P1 F IH]; cbn [map_put]; [constructor; auto|]. destruct (bytes_cmp k k'); constructor; eauto.
Qed.
Lemma put_ascending : forall k v l, ascending l -> ascending (map_put k v l).
Proof.
  intros k v l A. induction A as [|[k' v'] l A IH F]; cbn [map_put]; [repeat constructor|]. pose proof (cmp_spec k k') as C. destruct (bytes_cmp k k').
  - subst. constructor; auto.
  - constructor; [constructor; auto|]. constructor; auto. cbn [fst] in F |- *. eapply Forall_impl; [|exact F]. intros y L. eapply lex_trans; eauto.
  - constructor; auto. apply put_forall; auto.
Qed.
Lemma put_look : forall k v l k0, ascending l -> look k0 (map_put k v l) = if bytes_eqb k k0 then Some v else look k0 l.
Proof.
  intros k v l k0 A. induction A as [|[k' v'] l A IH F]; cbn [map_put].
  - unfold look. cbn. destruct (bytes_eqb k k0); reflexivity.
  - pose proof (cmp_spec k k') as C. destruct (bytes_cmp k k').
    + subst. unfold look. cbn [find fst]. destruct (bytes_eqb k' k0); reflexivity.
    + unfold look. cbn [find fst]. destruct (bytes_eqb k k0); reflexivity.
    + unfold look in *. cbn [find fst]. destruct (bytes_eqb k' k0) eqn:E; [|exact IH]. apply bytes_eqb_eq in E as <-. rewrite beq_neq; [reflexivity|]. intros ->. now apply lex_irrefl in C.
Qed.
Lemma put_end : forall k v l, Forall (fun y => lex (fst y) k) l -> map_put k v l = l ++ [(k, v)].
Proof. intros k v l F. induction F as [|[k' v'] l L F IH]; [reflexivity|]. cbn [map_put app]. cbn [fst] in L. rewrite (cmp_gt k k' L). now rewrite IH. Qed.
Lemma ascending_ext : forall a b, ascending a -> ascending b -> (forall k, look k a = look k b) -> a = b.
Proof.
  intros a b A. revert b. induction A as [|[k v] a A IH F]; intros b B H.
  - destruct b as [|[k' v'] b]; auto. specialize (H k'). unfold look in H. cbn in H. rewrite bytes_eqb_refl in H. discriminate.
  - inversion B as [|[k' v'] b' B' F' E]; subst.
    + specialize (H k). unfold look in H. cbn in H. rewrite bytes_eqb_refl in H. discriminate.
    + cbn [fst] in F, F'. assert (k = k') as <-.
      { pose proof (cmp_spec k k') as C. destruct (bytes_cmp k k'); auto.
        - specialize (H k). assert (N : look k ((k', v') :: b') = None). { apply look_above. constructor; auto. eapply Forall_impl; [|exact F']. intros y L. eapply lex_trans; eauto. } rewrite N in H. unfold look in H. cbn in H. rewrite bytes_eqb_refl in H. discriminate.
        - specialize (H k'). assert (N : look k' ((k, v) :: a) = None). { apply look_above. constructor; auto. eapply Forall_impl; [|exact F]. intros y L. eapply lex_trans; eauto. } rewrite N in H. unfold look in H. cbn in H. rewrite bytes_eqb_refl in H. discriminate. }
      assert (v = v') as <-. { specialize (H k). unfold look in H. cbn in H. rewrite !bytes_eqb_refl in H. cbn in H. congruence. }
      f_equal. apply IH; auto. intro k0. specialize (H k0). destruct (bytes_eqb k k0) eqn:E.
      * apply bytes_eqb_eq in E as <-. now rewrite !look_above.
      * unfold look in H |- *. cbn [find fst] in H. rewrite E in H. exact H.
Qed.
Lemma info_eqb_iff : forall a b, info_eqb a b = true <-> a = b.
Proof.
  induction a as [|[k v] a IH]; intros [|[k' v'] b]; cbn; try (split; [discriminate|discriminate]); [tauto|]. rewrite !andb_true_iff, !bytes_eqb_eq, IH. split; [intros [[-> ->] ->]; auto|intro E; injection E as -> -> ->; auto].
Qed.

(* ---- the encoding ---- *)
Definition kv (e : elem) : N * bytes := (e_type e, e_val e).
Lemma entry_parse : forall k v w, entry k v w <-> exists a b, parseValue w = Ok [a; b] /\ kv a = (513, k) /\ kv b = (514, v).
Proof.
  intros k v w. unfold entry. rewrite is_tlv_seq_elems. split.
  - intros (es & W & M & C). destruct es as [|a [|b [|c es]]]; try discriminate. injection M as A1 A2 B1 B2. exists a, b. splits; [apply parseValue_ok_iff; auto|unfold kv; congruence|unfold kv; congruence].
  - intros (a & b & P & A & B). apply parseValue_ok_iff in P as [W C]. exists [a; b]. splits; auto. cbn. unfold kv in A, B. congruence.
Qed.
Lemma loop_ok : forall es l r, ascending l -> ad_loop es l = Ok r ->
  ascending r /\ Forall readable (map kv es) /\ forall pre k, described k pre (look k l) -> described k (pre ++ map kv es) (look k r).
Proof.
  induction es as [|e es IH]; intros l r A H; cbn [ad_loop] in H.
  - apply Ok_inj in H as <-. splits; auto; [constructor|]. intros pre k D. now rewrite app_nil_r.
  - destruct (N.eqb_spec (e_type e) tDescriptionEntry) as [T|T].
    + inv_bind H. destruct a as [|x [|y [|z a]]]; try discriminate. destruct (N.eqb_spec (e_type x) tDescriptionKey) as [X|]; [|discriminate]. destruct (N.eqb_spec (e_type y) tDescriptionValue) as [Y|]; [|discriminate]. cbn [negb orb] in H.
      assert (EN : entry (e_val x) (e_val y) (e_val e)) by (apply entry_parse; exists x, y; unfold kv; rewrite X, Y; auto).
      destruct (IH _ _ (put_ascending _ _ _ A) H) as (R1 & R2 & R3). splits; auto.
      * cbn [map]. constructor; auto. left. cbn [kv fst snd]. split; [exact T|eauto].
      * intros pre k D. cbn [map]. change (pre ++ kv e :: map kv es) with (pre ++ [kv e] ++ map kv es). rewrite app_assoc. apply R3. rewrite put_look by exact A. unfold kv. rewrite T. change tDescriptionEntry with 512.
        destruct (bytes_eqb (e_val x) k) eqn:EK; [apply bytes_eqb_eq in EK as <-; now apply desc_hit|]. eapply desc_other_key; eauto. intros <-. rewrite bytes_eqb_refl in EK. discriminate.
    + destruct (isCriticalType (e_type e)) eqn:C; [discriminate|]. destruct (IH _ _ A H) as (R1 & R2 & R3). splits; auto.
      * cbn [map]. constructor; auto. right. cbn [kv fst]. split; [exact T|]. intro Q. apply isCritical_iff in Q. congruence.
      * intros pre k D. cbn [map]. change (pre ++ kv e :: map kv es) with (pre ++ [kv e] ++ map kv es). rewrite app_assoc. apply R3. apply desc_other_type; auto.
Qed.
Lemma loop_total : forall es l, Forall readable (map kv es) -> exists r, ad_loop es l = Ok r.
Proof.
  induction es as [|e es IH]; intros l F; cbn [ad_loop]; [eauto|]. cbn [map] in F. apply Forall_cons_iff in F as [R F]. destruct R as [[T (k & v & E)]|[T C]]; unfold kv in T; cbn [fst snd] in T; [unfold kv in E; cbn [snd] in E|unfold kv in C; cbn [fst] in C].
  - rewrite T. cbn. apply entry_parse in E as (a & b & P & A & B). rewrite P. cbn [bind]. unfold kv in A, B. injection A as A1 A2. injection B as B1 B2. rewrite A1, B1. cbn. apply IH. exact F.
  - destruct (N.eqb_spec (e_type e) tDescriptionEntry) as [Q|_]; [contradiction|]. destruct (isCriticalType (e_type e)) eqn:Q; [apply isCritical_iff in Q; contradiction|]. now apply IH.
Qed.
Lemma loop_err : forall es l x, ad_loop es l = Err x -> x = ETlv.
Proof.
  induction es as [|e es IH]; intros l x H; cbn [ad_loop] in H; [discriminate|]. destruct (e_type e =? tDescriptionEntry).
  - destruct (parseValue (e_val e)) as [xs|y] eqn:P; cbn [bind] in H; [|apply parseValue_err in P; congruence]. destruct xs as [|a [|b [|c xs]]]; try congruence. destruct (_ || _); [congruence|eauto].
  - destruct (isCriticalType _); [congruence|eauto].
Qed.
Lemma ad_decode_ok : forall e a, ad_decode e = Ok a -> e_type e = 258 /\ ad_wire a = Some e /\ ascending (ad_info a) /\ exists l, is_tlv_seq l (e_val e) /\ Forall readable l /\ forall k, described k l (look k (ad_info a)).
Proof.
  intros e a H. unfold ad_decode in H. destruct (N.eqb_spec (e_type e) tAdditionalDescription) as [T|]; [|discriminate]. cbn [negb] in H. inv_bind H. inv_bind H. apply Ok_inj in H as <-. cbn [ad_info ad_wire].
  destruct (loop_ok _ _ _ asc_nil E0) as (R1 & R2 & R3). splits; auto. apply parseValue_ok_iff in E as [W C]. exists (map kv a0). splits; [apply is_tlv_seq_elems; exists a0; auto|exact R2|]. intro k. apply (R3 [] k). constructor.
Qed.
Lemma ad_decode_total : forall e l, e_type e = 258 -> is_tlv_seq l (e_val e) -> Forall readable l -> exists a, ad_decode e = Ok a.
Proof.
  intros e l T S F. apply is_tlv_seq_elems in S as (es & W & M & C). unfold ad_decode. rewrite T. change (negb (258 =? tAdditionalDescription)) with false. cbn iota. assert (P : parseValue (e_val e) = Ok es) by (apply parseValue_ok_iff; auto). rewrite P. cbn [bind].
  destruct (loop_total es []) as (r & R); [change (map kv es) with (map (fun e => (e_type e, e_val e)) es); now rewrite <- M|]. rewrite R. cbn. eauto.
Qed.
Lemma ad_err : forall e x, ad_decode e = Err x -> x = ETlv.
Proof.
  intros e x H. unfold ad_decode in H. destruct (negb _); [congruence|]. destruct (parseValue (e_val e)) as [es|y] eqn:P; cbn [bind] in H; [|apply parseValue_err in P; congruence]. destruct (ad_loop es []) eqn:L; cbn [bind] in H; [discriminate|]. apply loop_err in L. congruence.
Qed.

(* ---- decoding an encoded Data and encoding it again from its fields gives the same octets ---- *)
Lemma blk_octets_back : forall b, blk_octets (comp_of_elem (blk_elem b)) = blk_octets b.
Proof. intro b. rewrite <- (blk_elem_wire b). reflexivity. Qed.
Lemma octets_back : forall l, concat (map blk_octets (map comp_of_elem (map blk_elem l))) = concat (map blk_octets l).
Proof. induction l as [|b l IH]; cbn [map concat]; [reflexivity|]. now rewrite blk_octets_back, IH. Qed.
Lemma nm_octets_key : forall a b, nkey a = nkey b -> nm_octets a = nm_octets b.
Proof.
  intros a b K. unfold nm_octets. f_equal. f_equal. unfold nkey in K. revert K. generalize (n_comps a), (n_comps b). induction l as [|x l IH]; intros [|y l'] K; try discriminate; [reflexivity|]. cbn [map] in K |- *. unfold ckey in K at 1 3. injection K as K1 K2 K. unfold comp_octets at 1 3. rewrite K1, K2. f_equal. now apply IH.
Qed.
Lemma mi_value_back : forall m e, mi_ok m -> nlen (mi_value m) < two64 -> e_val e = mi_value m ->
  exists m', mi_decode e mi_empty = (m', None) /\ mi_value m' = mi_value m.
Proof.
  intros m e H L V. destruct (mi_decode_elems m e H L V mi_empty) as (c' & E & K).
  eexists. split; [exact E|]. unfold mi_value. cbn [mi_type mi_fresh mi_final mi_app mi_empty app]. rewrite octets_back. f_equal. f_equal. f_equal. destruct c' as [c'|], (mi_final m) as [c|]; try discriminate; [|reflexivity]. cbn in K. unfold ckey in K. injection K as K1 K2. unfold comp_octets. now rewrite K1, K2.
Qed.
Lemma kl_value_back : forall k v e, kl_ok k -> kl_value k = Ok v -> nlen v < two64 ->
  e_type e = tKeyLocator -> e_val e = v ->
  exists k', kl_decode e = Ok k' /\ kl_value k' = Ok v.
Proof.
  intros [l w] v e O V L Te Ve. unfold kl_decode. rewrite Te, N.eqb_refl. cbn [negb]. rewrite Ve.
  unfold kl_value, kl_ok in *. cbn [kl_loc] in *.
  assert (One : forall x, elem_wf x -> v = e_wire x -> parseValue v = Ok [x]).
  { intros x W ->. apply parseValue_ok_iff. cbn. rewrite app_nil_r. auto. }
  destruct l as [|n|b|t]; [..|discriminate]; injection V as Hv.
  - rewrite <- Hv. cbn. eexists. split; reflexivity.
  - destruct (nm_decode_octets n O) as (x & n' & W & Ht & Hw & D & K); [now rewrite Hv|].
    rewrite (One x) by (auto; congruence). cbn [bind]. rewrite Ht. cbn. rewrite D. cbn.
    eexists. split; [reflexivity|]. unfold kl_value. cbn [kl_loc]. now rewrite (nm_octets_key _ _ K), Hv.
  - destruct O as [Ht O]. rewrite (One (blk_elem b)) by (auto using blk_elem_wf; now rewrite blk_elem_wire).
    cbn [bind]. cbn [blk_elem e_type]. rewrite Ht. cbn. eexists. split; [reflexivity|]. unfold kl_value. cbn [kl_loc]. rewrite <- Hv. f_equal. apply (blk_octets_back b).
Qed.
Lemma si_value_back : forall k s v e, si_ok s -> si_value s = Ok v -> nlen v < two64 ->
  e_type e = si_tlv k -> e_val e = v ->
  exists s', si_decode k e = (s', None) /\ si_value s' = Ok v.
Proof.
  intros k s v e (Ot & Ok' & Oo) V L Te Ve. pose proof V as V0.
  apply si_value_inv in V as (t & klv & Ht & Hk & Hv).
  assert (Lk : forall kv, klv = Some kv -> nlen kv < two64).
  { intros kv ->. rewrite Hv in L. unfold si_elems in L. cbn [map concat app] in L.
    rewrite nlen_app, mkBlock_wire, nlen_app, tlv_enc_len in L. lia. }
  assert (W : Forall elem_wf (si_elems t s klv)).
  { unfold si_elems. constructor; [apply mkNNI_wf; reflexivity|]. apply Forall_app; split.
    - destruct klv as [kv|]; constructor; auto. apply mkBlock_wf; try reflexivity. now apply Lk.
    - apply blk_elems_wf. eapply Forall_impl; [|exact Oo]. now intros b [H _]. }
  assert (P : parseValue (e_val e) = Ok (si_elems t s klv)).
  { apply parseValue_ok_iff. split; auto. congruence. }
  unfold si_decode. rewrite P, Te, N.eqb_refl. cbn [negb]. unfold si_elems. cbn [si_loop e_type mkNNIBlock mkBlock].
  change (tSignatureType =? tSignatureType) with true. change (0 <? 0) with false. cbv iota.
  change (mkElem tSignatureType (encVarNumber tSignatureType ++ encVarNumber (nlen (encNNI t))) (encNNI t))
    with (mkNNIBlock tSignatureType t).
  rewrite readNNIAs_mk; [|now apply Ot|discriminate].
  destruct (si_key s) as [kl|] eqn:Ek.
  - destruct Hk as (kv & Kv & ->). cbn [app si_loop e_type mkBlock].
    change (tKeyLocator =? tSignatureType) with false. change (tKeyLocator =? tKeyLocator) with true.
    change (1 <? 1) with false. cbv iota.
    destruct (kl_value_back kl kv (mkBlock tKeyLocator kv)) as (k' & D & F); auto.
    rewrite D. cbn [si_type si_key si_other si_wire].
    rewrite si_loop_others by auto. cbn [si_type si_key si_other si_wire app].
    eexists. split; [reflexivity|]. unfold si_value in V0 |- *. cbn [si_type si_key si_other]. rewrite Ht, Ek, Kv in V0. rewrite F. cbn [bind] in V0 |- *. now rewrite octets_back.
  - subst klv. cbn [app]. rewrite si_loop_others by auto. cbn [si_type si_key si_other si_wire app].
    eexists. split; [reflexivity|]. unfold si_value in V0 |- *. cbn [si_type si_key si_other]. rewrite Ht, Ek in V0. cbn [bind] in V0 |- *. now rewrite octets_back.
Qed.
Lemma da_value_back : forall d v e d0, da_ok d -> da_value d = Ok v -> nlen v < two64 ->
  blk_isValid (d_sval d) = true -> e_type e = 6 -> e_val e = v ->
  exists d', da_decode e d0 = (d', None) /\ da_value d' = Ok v.
Proof.
  intros d v e d0 (On & Om & Oc & Os & Ov) V L Sv Te Ve.
  unfold da_value in V. destruct (si_type (d_sinfo d)) as [ty|] eqn:Ty; [|discriminate].
  inv_bind V. apply Ok_inj in V as Hv. unfold da_unsigned in E. inv_bind E. apply Ok_inj in E as Ha. clear E.
  unfold si_octets in E0. inv_bind E0. apply Ok_inj in E0 as Hs. clear E0.
  assert (Lens : nlen (nm_octets (d_name d)) < two64 /\ nlen (mi_value (d_meta d)) < two64 /\ nlen a1 < two64).
  { pose proof (tlv_enc_len tMetaInfo (mi_value (d_meta d))) as L1. fold (mi_octets (d_meta d)) in L1.
    pose proof (f_equal nlen Hs) as L2. rewrite tlv_enc_len in L2.
    rewrite <- Hv, <- Ha in L. rewrite (nlen_app (_ ++ _)), (nlen_app (nm_octets _)), (nlen_app (mi_octets _)), (nlen_app (if da_hasContent d then _ else _)) in L. lia. }
  destruct Lens as (Ln & Lm & Ls).
  destruct (nm_decode_octets (d_name d) On Ln) as (n & nm & Wn & Tn & Hn & Dn & Kn).
  set (mie := mkBlock tMetaInfo (mi_value (d_meta d))).
  assert (Wm : elem_wf mie) by (apply mkBlock_wf; auto; reflexivity).
  destruct (mi_value_back (d_meta d) mie Om Lm eq_refl) as (m' & Dm & Fm).
  set (sie := mkBlock tSignatureInfo a1).
  assert (Ws : elem_wf sie) by (apply mkBlock_wf; auto; reflexivity).
  destruct (si_value_back SiData (d_sinfo d) a1 sie Os E Ls eq_refl eq_refl) as (s' & Ds & Fs).
  set (ce := if da_hasContent d then Some (blk_elem (d_content d)) else None).
  assert (Bv : c_type (d_sval d) = 23 /\ blk_ok (d_sval d)) by (destruct Ov as [Ov|]; [rewrite Ov in Sv; discriminate|auto]).
  destruct Bv as [Tv Bv].
  assert (Hc : (c_type (d_content d) = 21 /\ blk_ok (d_content d) /\ ce = Some (blk_elem (d_content d))) \/
               (d_content d = blk_invalid /\ ce = None)).
  { unfold ce, da_hasContent. destruct Oc as [->|[T B]]; [right; auto|]. left. rewrite blk_isValid_ok by exact B. splits; [exact T|exact B|reflexivity]. }
  assert (Cw : concat (map e_wire (opt_list ce)) = if da_hasContent d then blk_octets (d_content d) else []).
  { unfold ce. destruct (da_hasContent d); cbn [opt_list map concat]; auto. now rewrite app_nil_r, blk_elem_wire. }
  assert (Kc : ckey (blk_of ce) = ckey (d_content d)).
  { destruct Hc as [(_ & _ & ->)|[-> ->]]; reflexivity. }
  assert (P : parseValue (e_val e) = Ok (n :: mie :: opt_list ce ++ [sie; blk_elem (d_sval d)])).
  { apply parseValue_ok_iff. split.
    - constructor; auto. constructor; auto. apply Forall_app. split.
      + destruct Hc as [(_ & ? & ->)|[_ ->]]; constructor; auto using blk_elem_wf.
      + constructor; auto. constructor; auto. apply blk_elem_wf, Bv.
    - rewrite Ve, <- Hv, <- Ha, <- Hs. cbn [map concat]. rewrite map_app, concat_app, Cw. cbn [map concat].
      rewrite app_nil_r, blk_elem_wire, Hn. unfold mie, sie. rewrite !mkBlock_wire. unfold mi_octets.
      now rewrite <- !app_assoc. }
  set (d' := mkData nm m' (blk_of ce) s' (comp_of_elem (blk_elem (d_sval d))) (Some e) nm_empty).
  exists d'. splits; auto.
  - apply da_decode_iff. exists n, (mie :: opt_list ce ++ [sie; blk_elem (d_sval d)]), (Some mie), ce, sie,
      (blk_elem (d_sval d)), nm, m', s'. split; [|reflexivity].
    unfold da_parts. splits; auto. unfold da_layout.
    assert (Al : Forall (fun x => da_recognised (e_type x) = true) (mie :: opt_list ce ++ [sie; blk_elem (d_sval d)])).
    { constructor; [reflexivity|]. apply Forall_app. split.
      - destruct Hc as [(T & _ & ->)|[_ ->]]; constructor; auto. cbn. now rewrite T.
      - constructor; [reflexivity|]. constructor; auto. cbn. now rewrite Tv. }
    splits; auto.
    + clear - Al. change (Some mie) with (Some mie). cbn [opt_list app]. revert Al. generalize (mie :: opt_list ce ++ [sie; blk_elem (d_sval d)]).
      induction 1 as [|x l Hx Hl IH]; cbn [filter]; auto. rewrite Hx. f_equal. exact IH.
    + eapply Forall_impl; [|exact Al]. cbn. intros x Hx Hx'. congruence.
    + intros x [= <-]. reflexivity.
    + intros x Hx. destruct Hc as [(T & _ & E')|[_ E']]; rewrite E' in Hx; [injection Hx as <-; exact T|discriminate].
  - unfold da_value, da_unsigned, si_octets, d'. cbn [d_name d_meta d_content d_sinfo d_sval]. assert (Ty' : exists t, si_type s' = Some t) by (apply si_decode_ok in Ds as (_ & _ & Ds & _); destruct (si_type s'); [eauto|congruence]). destruct Ty' as [t' ->]. rewrite Fs. cbn [bind]. f_equal. rewrite <- Hv, <- Ha, <- Hs. rewrite (nm_octets_key _ _ Kn). unfold mi_octets. rewrite Fm, (blk_octets_back (d_sval d)). unfold da_hasContent. cbn [d_content].
    assert (CC : (if blk_isValid (blk_of ce) then blk_octets (blk_of ce) else []) = if blk_isValid (d_content d) then blk_octets (d_content d) else []).
    { destruct Hc as [(T & B & ->)|[-> ->]]; [|reflexivity]. cbn [blk_of]. rewrite (blk_octets_back (d_content d)). reflexivity. }
    apply (f_equal2 (@app byte)); [|reflexivity]. apply (f_equal2 (@app byte) eq_refl). apply (f_equal2 (@app byte) eq_refl). apply (f_equal2 (@app byte)); [exact CC|reflexivity].
Qed.

(* ---- SafeBag ---- *)
Lemma signed_value : forall d, signed d -> exists v, da_value d = Ok v.
Proof.
  intros d (O & T & K & Sv). unfold da_value, da_unsigned, si_octets, si_value. destruct (si_type (d_sinfo d)); [|congruence].
  destruct (si_key (d_sinfo d)) as [k|] eqn:Ek; [|cbn; eauto]. unfold kl_value. specialize (fun t => K k t eq_refl). destruct (kl_loc k) eqn:El; cbn [bind]; eauto. exfalso. eapply K; eauto.
Qed.
Lemma tlv_len : forall t v, nlen v <= nlen (tlv_enc t v).
Proof. intros t v. rewrite tlv_enc_len. lia. Qed.
(* what encoding a bag and decoding it does *)
Lemma bag_travels : forall d k v, da_ok d -> blk_isValid (d_sval d) = true -> da_value d = Ok v -> nlen (tlv_enc tSafeBag (tlv_enc tData v ++ tlv_enc tEncryptedKey k)) <= MAX_BUFFER ->
  exists e, sb_encode (mkSb d k) = Ok e /\ is_tlv 128 (e_val e) (e_wire e) /\ is_tlv_seq [(6, v); (129, k)] (e_val e) /\ blockFromWire (e_wire e) = Ok e /\ e_wire e = tlv_enc tSafeBag (tlv_enc tData v ++ tlv_enc tEncryptedKey k) /\
    forall d0, exists b, sb_decode e d0 = Ok b /\ da_decode (mkBlock tData v) d0 = (sb_cert b, None) /\ da_fields (sb_cert b) = da_fields d /\ da_value (sb_cert b) = Ok v /\ sb_key b = k.
Proof.
  intros d k v O Sv V L. set (w := tlv_enc tData v ++ tlv_enc tEncryptedKey k) in *.
  pose proof (tlv_len tSafeBag w) as L1. assert (Lw : nlen w = nlen (tlv_enc tData v) + nlen (tlv_enc tEncryptedKey k)) by (unfold w; apply nlen_app).
  pose proof (tlv_len tData v) as L2. pose proof (tlv_len tEncryptedKey k) as L3.
  assert (B1 : nlen v < two64) by (unfold MAX_BUFFER, two64 in *; lia). assert (B2 : nlen k < two64) by (unfold MAX_BUFFER, two64 in *; lia). assert (B3 : nlen w < two64) by (unfold MAX_BUFFER, two64 in *; lia).
  assert (W1 : elem_wf (mkBlock tData v)) by (apply mkBlock_wf; auto; reflexivity). assert (W2 : elem_wf (mkBlock tEncryptedKey k)) by (apply mkBlock_wf; auto; reflexivity). assert (W3 : elem_wf (mkBlock tSafeBag w)) by (apply mkBlock_wf; auto; reflexivity).
  assert (EW : Forall elem_wf [mkBlock tData v; mkBlock tEncryptedKey k]) by auto.
  assert (ES : w = concat (map e_wire [mkBlock tData v; mkBlock tEncryptedKey k])) by (unfold w; cbn [map concat]; rewrite !mkBlock_wire, app_nil_r; reflexivity).
  assert (P : parseValue w = Ok [mkBlock tData v; mkBlock tEncryptedKey k]) by (apply parseValue_ok_iff; auto).
  exists (mkBlock tSafeBag w). splits.
  - unfold sb_encode, sb_value. cbn [sb_cert sb_key]. rewrite V. cbn [bind]. fold w. unfold alloc. replace (MAX_BUFFER <? _) with false by (symmetry; apply N.ltb_ge; exact L). reflexivity.
  - apply elem_wf_iff in W3. exact W3.
  - apply is_tlv_seq_elems. eexists. split; [exact EW|]. split; [reflexivity|exact ES].
  - now apply blockFromWire_wf.
  - apply mkBlock_wire.
  - intro d0. destruct (da_decode_encoded d v (mkBlock tData v) d0 O V B1 Sv eq_refl eq_refl) as (d1 & D1 & F1 & _).
    destruct (da_value_back d v (mkBlock tData v) d0 O V B1 Sv eq_refl eq_refl) as (d2 & D2 & V2). assert (d2 = d1) as -> by congruence.
    exists (mkSb d1 k). splits; auto. unfold sb_decode. change (negb (e_type (mkBlock tSafeBag w) =? tSafeBag)) with false. cbn iota. change (e_val (mkBlock tSafeBag w)) with w. rewrite P. cbn [bind]. rewrite D1. reflexivity.
Qed.
Lemma sb_encode_ok : forall b e, sb_encode b = Ok e -> exists v, da_value (sb_cert b) = Ok v /\ nlen (tlv_enc tSafeBag (tlv_enc tData v ++ tlv_enc tEncryptedKey (sb_key b))) <= MAX_BUFFER.
Proof.
  intros b e H. unfold sb_encode, sb_value in H. destruct (da_value (sb_cert b)) as [v|] eqn:V; cbn [bind] in H; [|discriminate]. exists v. split; [reflexivity|]. unfold alloc in H. destruct (MAX_BUFFER <? _) eqn:L; cbn [bind] in H; [discriminate|]. apply N.ltb_ge in L. exact L.
Qed.
(* a packet signed by the library is what its fields encode to *)
Lemma sign_fixed : forall signer s d d' c, da_ok d -> si_ok s -> da_sign signer s d = (d', Ok c) -> c = mkBlock tData (e_val c) /\ da_value d' = Ok (e_val c) /\ da_ok d' /\ blk_isValid (d_sval d') = true.
Proof.
  intros signer s d d' e O Os H. pose proof (da_sign_range signer s d d' e O Os H) as (u0 & so & _ & _ & _ & _ & KV & _ & _ & DD). unfold da_sign in H.
  destruct (da_unsigned (da_setSignatureInfo s d)) as [u|] eqn:U; [|discriminate].
  pose proof U as U'. unfold da_unsigned in U'. inv_bind U'. apply Ok_inj in U'.
  unfold da_setSignatureInfo, da_hasContent, da_set in E, U'. cbn [d_sinfo d_name d_meta d_content] in E, U'.
  unfold da_finish in H. destruct (alloc (e_wire (mkBlock tData (u ++ tlv_enc tSignatureValue (signer u))))) eqn:A; [|discriminate].
  rewrite mkBlock_wire in A. apply alloc_ok in A as [_ A].
  destruct (da_decode (mkBlock tData (u ++ tlv_enc tSignatureValue (signer u))) (da_setSignatureInfo s d)) as [d2 [x|]] eqn:D; [discriminate|].
  injection H as <- <-.
  set (d1 := da_setSignatureInfo s d) in *.
  set (dv := mkData (d_name d) (d_meta d) (d_content d) s (mkComp 23 None (signer u)) None nm_empty).
  assert (Lu : nlen (u ++ tlv_enc tSignatureValue (signer u)) < two64) by (rewrite tlv_enc_len in A; lia).
  assert (Ls : nlen (signer u) < two64) by (rewrite nlen_app, tlv_enc_len in Lu; lia).
  assert (Ov : da_ok dv).
  { destruct O as (O1 & O2 & O3 & O4 & O5). unfold da_ok, dv. cbn. splits; auto. right. split; auto. apply blk_ok_bare; auto; reflexivity. }
  assert (V : da_value dv = Ok (u ++ tlv_enc tSignatureValue (signer u))).
  { assert (Uv : da_unsigned dv = Ok u) by exact U. unfold da_value. rewrite Uv. unfold dv. cbn [d_sinfo d_sval].
    unfold si_octets, si_value in E. destruct (si_type s); [reflexivity|discriminate]. }
  assert (Sv : blk_isValid (d_sval dv) = true) by reflexivity.
  destruct (da_decode_encoded dv _ (mkBlock tData (u ++ tlv_enc tSignatureValue (signer u))) d1 Ov V Lu Sv eq_refl eq_refl)
    as (d3 & D3 & F & Wd & Fl & O3).
  assert (d3 = d2) by congruence. subst d3.
  destruct (da_value_back dv _ (mkBlock tData (u ++ tlv_enc tSignatureValue (signer u))) d1 Ov V Lu Sv eq_refl eq_refl) as (d4 & D4 & V4). assert (d4 = d2) by congruence. subst d4.
  splits; auto. unfold blk_isValid. apply (f_equal fst) in KV. cbn in KV. now rewrite KV.
Qed.
Lemma sign_bag : forall signer s d d' c k e, da_ok d -> si_ok s -> da_sign signer s d = (d', Ok c) -> sb_encode (mkSb d' k) = Ok e -> forall d0, sb_decode e d0 = Ok (mkSb d' k).
Proof.
  intros signer s d d' c k e O Os H E d0. destruct (sign_fixed _ _ _ _ _ O Os H) as (C & V & O' & Sv). destruct (sb_encode_ok _ _ E) as (v & V1 & L). cbn [sb_cert sb_key] in V1, L. assert (v = e_val c) by congruence. subst v.
  destruct (bag_travels d' k (e_val c) O' Sv V L) as (e' & E' & _ & _ & _ & _ & R). assert (e' = e) by congruence. subst e'. destruct (R d0) as (b & B & D & _ & _ & K). rewrite B. destruct b as [d2 k2]. cbn [sb_cert sb_key] in *. subst k2. f_equal. f_equal. pose proof (da_sign_range signer s d d' c O Os H) as (u0 & so & _ & _ & _ & _ & _ & _ & _ & DD). rewrite <- C in D. specialize (DD d0). congruence.
Qed.
Lemma sb_decode_iff : forall e d0 key v, (exists b, sb_decode e d0 = Ok b /\ sb_key b = key /\ da_fields (sb_cert b) = v) <->
  e_type e = 128 /\ exists d, is_tlv_seq [(6, d); (129, key)] (e_val e) /\ da_reads d = Some v.
Proof.
  intros e d0 key v. split.
  - intros (b & H & <- & <-). unfold sb_decode in H. destruct (N.eqb_spec (e_type e) tSafeBag) as [T|]; [|discriminate]. cbn [negb] in H. inv_bind H. destruct a as [|c [|k [|x a]]]; try discriminate; [destruct (da_decode c d0) as [d' [y|]]; discriminate| |].
    + destruct (da_decode c d0) as [d' [y|]] eqn:D; [discriminate|]. destruct (N.eqb_spec (e_type k) tEncryptedKey) as [K|]; [|discriminate]. cbn [negb] in H. apply Ok_inj in H as <-. cbn [sb_key sb_cert]. split; [exact T|]. exists (e_val c). split; [|eapply da_reads_decode, D].
      apply parseValue_ok_iff in E as [W C]. apply is_tlv_seq_elems. exists [c; k]. splits; auto. cbn [map]. rewrite K. apply da_decode_iff in D as (? & ? & ? & ? & ? & ? & ? & ? & ? & (TD & _) & _). rewrite TD. reflexivity.
    + destruct (da_decode c d0) as [d' [y|]]; [discriminate|]. destruct (negb _); discriminate.
  - intros (T & d & S & R). apply is_tlv_seq_elems in S as (es & W & M & C). destruct es as [|c [|k [|x es]]]; try discriminate. injection M as M1 M2 M3 M4. unfold sb_decode. rewrite T. change (negb (128 =? tSafeBag)) with false. cbn iota. assert (P : parseValue (e_val e) = Ok [c; k]) by (apply parseValue_ok_iff; auto). rewrite P. cbn [bind].
    apply da_reads_iff in R as (n & es & mi & ct & si & sv & nm & m & s & PT & ->). assert (D : exists d', da_decode c d0 = (d', None) /\ da_fields d' = mkDV (nkey nm) (mi_fields m) (ckey (blk_of ct)) (si_fields s) (ekey sv)).
    { eexists. split; [apply da_decode_iff; exists n, es, mi, ct, si, sv, nm, m, s; split; [|reflexivity]|reflexivity]. destruct PT as (PT1 & PT2 & PT3). split; [auto|]. split; [|exact PT3]. rewrite <- M2. exact PT2. }
    destruct D as (d' & D & F). rewrite D, <- M3. change (negb (129 =? tEncryptedKey)) with false. cbn iota. eexists. split; [reflexivity|]. cbn [sb_key sb_cert]. auto.
Qed.

(* ---- histories of an AdditionalDescription ---- *)
Definition ad_inv (a : adesc) : Prop := ascending (ad_info a) /\ forall e, ad_wire a = Some e -> elem_wf e /\ e_type e = 258.
Lemma ad_step_inv : forall o a a', ad_inv a -> ad_op_ok o -> ad_step o a = Some a' -> ad_inv a'.
Proof.
  intros o a a' [A W] O H. destruct o as [k v| |e]; cbn [ad_step] in H.
  - injection H as <-. split; [now apply put_ascending|exact W].
  - unfold ad_encode in H. destruct (ad_wire a) as [e|] eqn:E.
    + injection H as <-. split; auto. intros e' E'. apply W. congruence.
    + unfold alloc in H. destruct (MAX_BUFFER <? _) eqn:L; cbn [bind] in H; injection H as <-; [split; auto; intros e' E'; congruence|]. split; [exact A|]. cbn [ad_wire]. intros e' [= <-]. split; [|reflexivity]. apply mkBlock_wf; try reflexivity. pose proof (tlv_len tAdditionalDescription (ad_value a)). unfold MAX_BUFFER, two64 in *. lia.
  - destruct (ad_decode e) as [a1|] eqn:D; [|discriminate]. injection H as <-. apply ad_decode_ok in D as (T & Wi & As & _). split; auto. intros e' E'. assert (e' = e) as -> by congruence. split; auto. destruct O as (w & B). now apply blockFromWire_inv in B.
Qed.
Lemma ad_run_inv : forall l a a', ad_inv a -> Forall ad_op_ok l -> ad_run l a = Some a' -> ad_inv a'.
Proof. induction l as [|o l IH]; intros a a' I F H; cbn [ad_run] in H; [now injection H as <-|]. apply Forall_cons_iff in F as [O F]. destruct (ad_step o a) as [a1|] eqn:S1; [|discriminate]. eapply IH; [|exact F|exact H]. eapply ad_step_inv; eauto. Qed.
Lemma ad_empty_inv : ad_inv ad_empty.
Proof. split; [constructor|discriminate]. Qed.
Lemma ad_has_iff : forall k a, ad_has k a = true <-> exists v, ad_get k a = Ok v.
Proof.
  intros k a. unfold ad_has, ad_get. induction (ad_info a) as [|[k' v'] l IH]; cbn [existsb find fst].
  - split; [discriminate|intros (v & H); discriminate].
  - destruct (bytes_eqb k' k); cbn [orb]; [|exact IH]. split; eauto.
Qed.
(* the elements of the encoding *)
Definition ent (x : bytes * bytes) : elem := mkBlock tDescriptionEntry (tlv_enc tDescriptionKey (fst x) ++ tlv_enc tDescriptionValue (snd x)).
Lemma ad_value_wires : forall a, ad_value a = concat (map e_wire (map ent (ad_info a))).
Proof. intro a. unfold ad_value. rewrite map_map. apply (f_equal (@concat byte)). apply map_ext. intro x. unfold ent, ad_entry. now rewrite mkBlock_wire. Qed.
Lemma in_concat_len : forall (l : list bytes) w, In w l -> nlen w <= nlen (concat l).
Proof. induction l as [|x l IH]; intros w H; [destruct H|]. cbn [concat]. rewrite nlen_app. destruct H as [->|H]; [lia|]. specialize (IH w H). lia. Qed.
Lemma ent_wf : forall a x, nlen (ad_value a) < two64 -> In x (ad_info a) -> elem_wf (ent x) /\ entry (fst x) (snd x) (e_val (ent x)).
Proof.
  intros a [k v] L H. assert (L1 : nlen (e_wire (ent (k, v))) <= nlen (ad_value a)). { rewrite ad_value_wires. apply in_concat_len. rewrite map_map. apply in_map_iff. exists (k, v). auto. }
  unfold ent in *. cbn [fst snd] in *. rewrite mkBlock_wire in L1. set (w := tlv_enc tDescriptionKey k ++ tlv_enc tDescriptionValue v) in *. pose proof (tlv_len tDescriptionEntry w) as L2. assert (Lw : nlen w = nlen (tlv_enc tDescriptionKey k) + nlen (tlv_enc tDescriptionValue v)) by (unfold w; apply nlen_app). pose proof (tlv_len tDescriptionKey k). pose proof (tlv_len tDescriptionValue v).
  split; [apply mkBlock_wf; try reflexivity; lia|]. change (e_val (mkBlock tDescriptionEntry w)) with w. unfold entry. apply is_tlv_seq_elems. exists [mkBlock tDescriptionKey k; mkBlock tDescriptionValue v]. splits.
  - constructor; [apply mkBlock_wf; try reflexivity; lia|]. constructor; [apply mkBlock_wf; try reflexivity; lia|constructor].
  - reflexivity.
  - unfold w. cbn [map concat]. now rewrite !mkBlock_wire, app_nil_r.
Qed.
Lemma asc_app : forall l1 l2, ascending (l1 ++ l2) -> forall x y, In x l1 -> In y l2 -> lex (fst x) (fst y).
Proof.
  induction l1 as [|z l1 IH]; intros l2 A x y X Y; [destruct X|]. inversion A as [|? ? A' F]; subst. destruct X as [->|X]; [|eauto]. rewrite Forall_forall in F. apply F. apply in_or_app. auto.
Qed.
Lemma loop_ents : forall l pre, ascending (pre ++ l) -> Forall (fun x => entry (fst x) (snd x) (e_val (ent x))) l -> ad_loop (map ent l) pre = Ok (pre ++ l).
Proof.
  induction l as [|x l IH]; intros pre A F; cbn [map ad_loop]; [now rewrite app_nil_r|]. apply Forall_cons_iff in F as [E F]. change (e_type (ent x) =? tDescriptionEntry) with true. cbn iota. apply entry_parse in E as (p & q & P & E1 & E2). rewrite P. cbn [bind]. unfold kv in E1, E2. injection E1 as T1 V1. injection E2 as T2 V2. rewrite T1, T2, V1, V2. change (negb (513 =? tDescriptionKey) || negb (514 =? tDescriptionValue)) with false. cbn iota.
  rewrite put_end; [|apply Forall_forall; intros y Y; eapply asc_app; [exact A|exact Y|now left]]. change (x :: l) with ([x] ++ l). rewrite app_assoc. destruct x as [k v]. cbn [fst snd]. apply IH; auto. rewrite <- app_assoc. exact A.
Qed.
Lemma ad_encode_new : forall a, ascending (ad_info a) -> ad_wire a = None -> nlen (tlv_enc tAdditionalDescription (ad_value a)) <= MAX_BUFFER ->
  exists e a', ad_encode a = Ok (e, a') /\ ad_wire a' = Some e /\ ad_info a' = ad_info a /\ is_tlv 258 (e_val e) (e_wire e) /\ blockFromWire (e_wire e) = Ok e /\ ad_decode e = Ok (mkAd (ad_info a) (Some e)) /\
    exists ws, is_tlv_seq (map (fun w => (512, w)) ws) (e_val e) /\ Forall2 (fun x w => entry (fst x) (snd x) w) (ad_info a) ws.
Proof.
  intros a A W L. pose proof (tlv_len tAdditionalDescription (ad_value a)) as L1. assert (L2 : nlen (ad_value a) < two64) by (unfold MAX_BUFFER, two64 in *; lia).
  assert (F : Forall (fun x => elem_wf (ent x) /\ entry (fst x) (snd x) (e_val (ent x))) (ad_info a)) by (apply Forall_forall; intros x X; now apply (ent_wf a)).
  assert (F1 : Forall elem_wf (map ent (ad_info a))) by (rewrite Forall_map; eapply Forall_impl; [|exact F]; now intros x [X _]).
  assert (F2 : Forall (fun x => entry (fst x) (snd x) (e_val (ent x))) (ad_info a)) by (eapply Forall_impl; [|exact F]; now intros x [_ X]).
  assert (We : elem_wf (mkBlock tAdditionalDescription (ad_value a))) by (apply mkBlock_wf; auto; reflexivity).
  exists (mkBlock tAdditionalDescription (ad_value a)), (mkAd (ad_info a) (Some (mkBlock tAdditionalDescription (ad_value a)))). splits.
  - unfold ad_encode. rewrite W. unfold alloc. replace (MAX_BUFFER <? _) with false by (symmetry; apply N.ltb_ge; exact L). reflexivity.
  - reflexivity.
  - reflexivity.
  - apply elem_wf_iff in We. exact We.
  - now apply blockFromWire_wf.
  - unfold ad_decode. change (negb (e_type (mkBlock tAdditionalDescription (ad_value a)) =? tAdditionalDescription)) with false. cbn iota. change (e_val (mkBlock tAdditionalDescription (ad_value a))) with (ad_value a). assert (P : parseValue (ad_value a) = Ok (map ent (ad_info a))) by (apply parseValue_ok_iff; split; [exact F1|apply ad_value_wires]). rewrite P. cbn [bind]. rewrite (loop_ents (ad_info a) []) by auto. reflexivity.
  - exists (map (fun x => e_val (ent x)) (ad_info a)). split.
    + apply is_tlv_seq_elems. exists (map ent (ad_info a)). splits; [exact F1|now rewrite !map_map|apply ad_value_wires].
    + clear - F2. induction F2; constructor; auto.
Qed.

(* ---- SigningInfo ---- *)
Lemma digest_nkey : nkey sg_digestName = digest_key.
Proof. vm_compute. reflexivity. Qed.
Lemma hmac_nkey : forall d, nkey (nm_append (mkComp tGenericNameComponent None d) sg_hmacName) = [(8, str "localhost"); (8, str "identity"); (8, str "hmac"); (8, d)].
Proof. intro d. unfold nm_append, nkey. cbn [n_comps]. rewrite map_app. replace (map ckey (n_comps sg_hmacName)) with [(8, str "localhost"); (8, str "identity"); (8, str "hmac")] by (vm_compute; reflexivity). reflexivity. Qed.
Lemma scheme_colon : forall p u, forallb (fun x => negb (beqb x cColon)) p = true -> split_at cColon (p ++ cColon :: u) = Some (p, u).
Proof. intros p u H. now apply split_at_app. Qed.
Lemma split_at_id : forall u, split_at cColon (str "id:" ++ u) = Some (str "id", u).
Proof. intro u. exact (split_at_app cColon (str "id") u eq_refl). Qed.
Lemma split_at_key : forall u, split_at cColon (str "key:" ++ u) = Some (str "key", u).
Proof. intro u. exact (split_at_app cColon (str "key") u eq_refl). Qed.
Lemma split_at_cert : forall u, split_at cColon (str "cert:" ++ u) = Some (str "cert", u).
Proof. intro u. exact (split_at_app cColon (str "cert") u eq_refl). Qed.
Lemma split_at_hmac : forall u, split_at cColon (str "hmac-sha256:" ++ u) = Some (str "hmac-sha256", u).
Proof. intro u. exact (split_at_app cColon (str "hmac-sha256") u eq_refl). Qed.
Lemma parse_id : forall f load u, sg_parse f load (str "id:" ++ u) = if bytes_eqb u (nm_toUri f sg_digestName) then Ok (mkSg SgSha256 nm_empty) else let! n := nm_fromUri u in Ok (mkSg SgId n).
Proof. intros f load u. unfold sg_parse. rewrite split_at_id. reflexivity. Qed.
Lemma parse_key : forall f load u, sg_parse f load (str "key:" ++ u) = let! n := nm_fromUri u in Ok (mkSg SgKey n).
Proof. intros f load u. unfold sg_parse. rewrite split_at_key. reflexivity. Qed.
Lemma parse_cert : forall f load u, sg_parse f load (str "cert:" ++ u) = let! n := nm_fromUri u in Ok (mkSg SgCert n).
Proof. intros f load u. unfold sg_parse. rewrite split_at_cert. reflexivity. Qed.
Lemma parse_hmac : forall f load u, sg_parse f load (str "hmac-sha256:" ++ u) = let! d := load u in Ok (mkSg SgHmac (nm_append (mkComp tGenericNameComponent None d) sg_hmacName)).
Proof. intros f load u. unfold sg_parse. rewrite split_at_hmac. reflexivity. Qed.
Lemma parse_inv : forall f load s i, sg_parse f load s = Ok i -> exists j, sg_says f load s j /\ sg_same j i.
Proof.
  intros f load s i H. unfold sg_parse in H. destruct s as [|x s0]; [apply Ok_inj in H as <-; exists (mkSg SgNull nm_empty); split; [constructor|split; reflexivity]|]. revert H. generalize (x :: s0) as s. clear x s0. intros s H.
  destruct (split_at cColon s) as [[sch u]|] eqn:E; [|discriminate]. apply split_at_inv in E as [-> _].
  destruct (bytes_eqb sch (str "id")) eqn:E1; [apply bytes_eqb_eq in E1 as ->|].
  { change (str "id" ++ cColon :: u) with (str "id:" ++ u). destruct (bytes_eqb u (nm_toUri f sg_digestName)) eqn:D; [apply bytes_eqb_eq in D as ->; apply Ok_inj in H as <-; eexists; split; [constructor|split; reflexivity]|]. inv_bind H. apply Ok_inj in H as <-. eexists; split; [apply say_id; [|eauto]; intros ->; rewrite bytes_eqb_refl in D; discriminate|split; reflexivity]. }
  destruct (bytes_eqb sch (str "key")) eqn:E2; [apply bytes_eqb_eq in E2 as ->|].
  { change (str "key" ++ cColon :: u) with (str "key:" ++ u). inv_bind H. apply Ok_inj in H as <-. eexists; split; [apply say_key; eauto|split; reflexivity]. }
  destruct (bytes_eqb sch (str "cert")) eqn:E3; [apply bytes_eqb_eq in E3 as ->|].
  { change (str "cert" ++ cColon :: u) with (str "cert:" ++ u). inv_bind H. apply Ok_inj in H as <-. eexists; split; [apply say_cert; eauto|split; reflexivity]. }
  destruct (bytes_eqb sch (str "hmac-sha256")) eqn:E4; [apply bytes_eqb_eq in E4 as ->|discriminate].
  change (str "hmac-sha256" ++ cColon :: u) with (str "hmac-sha256:" ++ u). inv_bind H. apply Ok_inj in H as <-. eexists; split; [eapply say_hmac; [eauto|apply hmac_nkey]|split; reflexivity].
Qed.
Lemma says_parse : forall f load s j, sg_says f load s j -> exists i, sg_parse f load s = Ok i /\ sg_same j i.
Proof.
  intros f load s j H. destruct H as [| |u n N U|u n U|u n U|u d n L K].
  - exists (mkSg SgNull nm_empty). split; [reflexivity|split; reflexivity].
  - rewrite parse_id, bytes_eqb_refl. eexists. split; [reflexivity|split; reflexivity].
  - rewrite parse_id. rewrite beq_neq by exact N. rewrite U. eexists. split; [reflexivity|split; reflexivity].
  - rewrite parse_key, U. eexists. split; [reflexivity|split; reflexivity].
  - rewrite parse_cert, U. eexists. split; [reflexivity|split; reflexivity].
  - rewrite parse_hmac, L. eexists. split; [reflexivity|]. split; [reflexivity|]. cbn [sg_name]. now rewrite hmac_nkey.
Qed.
Lemma parse_err : forall f load s x, sg_parse f load s = Err x -> x = EInvalidArg \/ x = ETlv \/ exists u, s = str "hmac-sha256:" ++ u /\ load u = Err x.
Proof.
  intros f load s x H. unfold sg_parse in H. destruct s as [|c s0]; [discriminate|]. revert H. generalize (c :: s0) as s. clear c s0. intros s H.
  assert (U : forall u g, (let! n := nm_fromUri u in Ok (g n)) = @Err sginfo x -> x = ETlv). { intros u g Q. pose proof (nm_fromUri_total u) as T. destruct (nm_fromUri u); cbn [bind] in Q; [discriminate|congruence]. }
  destruct (split_at cColon s) as [[sch u]|] eqn:E; [|left; congruence]. apply split_at_inv in E as [-> _].
  destruct (bytes_eqb sch (str "id")); [destruct (bytes_eqb u _); [discriminate|right; left; eauto]|]. destruct (bytes_eqb sch (str "key")); [right; left; eauto|]. destruct (bytes_eqb sch (str "cert")); [right; left; eauto|].
  destruct (bytes_eqb sch (str "hmac-sha256")) eqn:E4; [|left; congruence]. apply bytes_eqb_eq in E4 as ->. right; right. exists u. split; [reflexivity|]. destruct (load u); cbn [bind] in H; [discriminate|congruence].
Qed.
Definition uri_ok (f : uri_format) (n : name) : Prop := Forall valid_key (nkey n) /\ (f = ALTERNATE -> Forall alt_ok (nkey n)).
Lemma uri_back : forall f n, uri_ok f n -> exists m, nm_fromUri (nm_toUri f n) = Ok m /\ nkey m = nkey n.
Proof.
  intros f n [V A]. assert (Z : exists m, nm_fromUri ([] ++ nm_toUri f n) = Ok m /\ nm_equals m n = true).
  { destruct f; [apply canonical_round_trip; auto|apply alternate_round_trip; auto]. }
  destruct Z as (m & M & E). apply nm_equals_iff in E. eauto.
Qed.
Lemma digest_uri_ok : forall f, uri_ok f sg_digestName.
Proof.
  intro f. unfold uri_ok. rewrite digest_nkey. split; [|intros _].
  - repeat constructor; try (cbn; lia); cbn; intros [H|H]; discriminate.
  - repeat constructor; intros H1 H2; cbn in H1; repeat destruct H1 as [H1|H1]; discriminate.
Qed.
Lemma sg_round : forall f load i, uri_ok f (sg_name i) -> sg_kind i <> SgHmac -> (sg_kind i = SgId -> nkey (sg_name i) <> digest_key) -> (sg_kind i = SgNull \/ sg_kind i = SgSha256 -> nkey (sg_name i) = []) ->
  exists j, sg_parse f load (sg_print f i) = Ok j /\ sg_same i j.
Proof.
  intros f load [k n] U H D Z. cbn [sg_kind sg_name] in *. unfold sg_print. cbn [sg_kind sg_name]. destruct (uri_back f n U) as (m & M & K). destruct k.
  - exists (mkSg SgNull nm_empty). split; [reflexivity|]. split; [reflexivity|]. cbn [sg_name]. now rewrite Z by auto.
  - rewrite parse_id. rewrite beq_neq; [rewrite M; eexists; split; [reflexivity|split; [reflexivity|cbn; congruence]]|]. intro Q. destruct (uri_back f sg_digestName (digest_uri_ok f)) as (m' & M' & K'). elim D; [reflexivity|]. rewrite <- digest_nkey. congruence.
  - rewrite parse_key, M. eexists; split; [reflexivity|split; [reflexivity|cbn; congruence]].
  - rewrite parse_cert, M. eexists; split; [reflexivity|split; [reflexivity|cbn; congruence]].
  - rewrite parse_id, bytes_eqb_refl. eexists; split; [reflexivity|]. split; [reflexivity|]. cbn [sg_name]. now rewrite Z by auto.
  - congruence.
Qed.

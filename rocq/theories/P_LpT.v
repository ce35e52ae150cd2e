From Coq Require Import Lia ZifyBool ZifyNat ZifyN ZArith Sorted.
From Verif Require Import Base BaseLemmas M_Tlv P_Tlv S_Tlv P_Block M_Lp S_Lp P_Lp.

(* ---- field codecs ---- *)
Lemma u64_pos : forall z, (0 <= z < 2 ^ 31)%Z -> u64_of_int z = Z.to_N z /\ Z.to_N z < two64 /\ Z.to_N z < 2 ^ 31.
Proof. intros z H. unfold u64_of_int, two64. rewrite Z.mod_small by lia. splits; auto; lia. Qed.
Lemma readInt_nni : forall t z, (0 <= z < 2 ^ 31)%Z -> readInt (mkBlock t (encNNI (u64_of_int z))) = Ok z.
Proof.
  intros t z H. destruct (u64_pos z H) as (-> & L1 & L2). unfold readInt, readNNIBlockAs. rewrite (readNNIBlock_val (mkBlock t (encNNI (Z.to_N z))) (Z.to_N z) L1 eq_refl). cbn [bind].
  destruct (2 ^ 31 <=? Z.to_N z) eqn:E; [lia|]. cbn. f_equal. lia.
Qed.
Lemma parse_one : forall t v, 0 < t -> t < two32 -> nlen v < two64 -> parseValue (tlv_enc t v) = Ok [mkBlock t v].
Proof.
  intros t v H1 H2 H3. apply parseValue_ok_iff. split; [constructor; [now apply mkBlock_wf|constructor]|]. cbn [map concat]. now rewrite app_nil_r, mkBlock_wire.
Qed.
Lemma encNNI_small : forall n, nlen (encNNI n) < two64.
Proof. intro n. rewrite encNNI_len. pose proof (sizeOfNNI_cases n). unfold two64. lia. Qed.
Lemma nack_rt : forall z x, (0 <= z < 2 ^ 31)%Z -> nack_encode z = Ok x -> nack_decode x = Ok z.
Proof.
  intros z x H E. apply lp_block_ok in E as [-> _]. unfold nack_decode. cbn [e_type mkBlock negb N.eqb e_val].
  unfold tlv_nni. rewrite parse_one; [|reflexivity|reflexivity|apply encNNI_small]. cbn [bind e_type mkBlock]. rewrite N.eqb_refl.
  now apply readInt_nni.
Qed.
Lemma cp_rt : forall x, cp_encode 1 = Ok x -> cp_decode x = Ok 1%Z.
Proof.
  intros x E. unfold cp_encode in E. cbn [Z.eqb] in E. apply lp_block_ok in E as [-> _]. unfold cp_decode. cbn [e_type mkBlock negb N.eqb e_val].
  unfold tlv_nni. rewrite parse_one; [|reflexivity|reflexivity|apply encNNI_small]. cbn [bind e_type mkBlock]. rewrite N.eqb_refl.
  change (mkElem tCachePolicyType _ _) with (mkBlock tCachePolicyType (encNNI (u64_of_int 1))).
  rewrite readInt_nni by lia. reflexivity.
Qed.
Lemma lf_rt : forall f v x, lv_readable f v -> lf_encode f v = Ok x -> lf_decode f x = Ok v.
Proof.
  intros f v x [T R] E. unfold lf_decode. pose proof (lf_encode_wf _ _ _ E) as (_ & Tx & _). rewrite Tx, N.eqb_refl. cbn [negb]. clear Tx.
  unfold lv_typed in T. unfold lf_encode in E. destruct (lf_kind f) eqn:K; destruct v as [b|n|z| |d]; try (destruct T; fail).
  - apply lp_block_ok in E as [-> _]. cbn [e_val mkBlock]. destruct b as [|c b]; [now elim R|]. destruct (nlen (c :: b) =? 0) eqn:Z; [|reflexivity].
    rewrite nlen_cons in Z. lia.
  - apply lp_block_ok in E as [-> _]. rewrite (readNNIBlock_val (mkBlock (lf_type f) (encNNI n)) n T eq_refl). reflexivity.
  - apply lp_block_ok in E as [-> _]. cbn [e_val mkBlock]. rewrite be_enc_len. cbn [N.of_nat N.eqb negb Pos.of_succ_nat Pos.succ Pos.eqb].
    rewrite be_val_enc_small; auto.
  - assert (f = FNack) by (destruct f; discriminate K || reflexivity). subst f. rewrite (nack_rt z x); auto. cbn in R. lia.
  - assert (f = FCachePolicy) by (destruct f; discriminate K || reflexivity). subst f. cbn in R. subst z. rewrite (cp_rt x); auto.
  - apply lp_block_ok in E as [-> _]. reflexivity.
  - destruct R as [Td W]. apply lp_block_ok in E as [-> _]. apply blockFromWire_inv in W as [W _]. cbn [e_val mkBlock].
    assert (P : parseValue (e_wire d) = Ok [d]) by (apply parseValue_ok_iff; split; [constructor; auto|cbn; now rewrite app_nil_r]).
    rewrite P. cbn [bind List.find]. rewrite Td. reflexivity.
Qed.

(* ---- operations ---- *)
Definition same_fields (g : lpf) (p q : lpp) : Prop :=
  lp_count g q = lp_count g p /\ lp_has g q = lp_has g p /\ lp_list g q = lp_list g p /\ forall i, lp_get g i q = lp_get g i p.
Lemma fel_same_fields : forall g p q, fel (lf_type g) (lp_es q) = fel (lf_type g) (lp_es p) -> same_fields g p q.
Proof.
  intros g p q H. assert (C : lp_count g q = lp_count g p) by (rewrite !count_fel; now rewrite H).
  unfold same_fields, lp_has. rewrite C. splits; auto; [rewrite !list_fel; now rewrite H|]. intro i. rewrite !get_fel. now rewrite H.
Qed.
Lemma add_spec : forall f v p p', lp_inv p -> lp_add f v p = (p', None) ->
  exists x, lf_encode f v = Ok x /\ fel (lf_type f) (lp_es p') = fel (lf_type f) (lp_es p) ++ [x] /\
  (forall u, u <> lf_type f -> fel u (lp_es p') = fel u (lp_es p)) /\ (lf_repeatable f = true \/ lp_count f p = 0%nat).
Proof.
  intros f v p p' (W & (_ & S0) & _) H. unfold lp_add in H. destruct (negb (lf_repeatable f) && lp_has f p) eqn:R; [discriminate|].
  destruct (lf_encode f v) as [x|] eqn:E; [|discriminate]. injection H as <-. apply lf_encode_wf in E as (_ & T & _). exists x. cbn. splits; auto.
  - now apply insert_fel_same.
  - intros u D. apply insert_fel_other; congruence.
  - apply Bool.andb_false_iff in R as [R|R]; [left; now destruct (lf_repeatable f)|right]. unfold lp_has in R. apply Nat.ltb_ge in R. lia.
Qed.
Lemma neq_type : forall f g, f <> g -> lf_type g <> lf_type f.
Proof. intros f g D E. apply D. symmetry. now apply lf_type_inj. Qed.

Lemma set_get : forall f v p p', lp_inv p -> lv_readable f v -> lp_set f v p = (p', None) ->
  lp_get f 0 p' = Ok v /\ lp_list f p' = Ok [v] /\ lp_count f p' = 1%nat /\ forall g, g <> f -> same_fields g p p'.
Proof.
  intros f v p p' I R H. unfold lp_set in H. apply add_spec in H as (x & E & F & O & _); [|now apply inv_clear].
  rewrite clear_fel_same in F. cbn in F. pose proof (lf_rt f v x R E) as D.
  rewrite get_fel, list_fel, count_fel, F. cbn. rewrite D. splits; auto.
  intros g G. apply fel_same_fields. rewrite O by (apply neq_type; auto). apply clear_fel_other, neq_type. auto.
Qed.
Lemma add_get : forall f v p p', lp_inv p -> lv_readable f v -> lp_add f v p = (p', None) ->
  lp_count f p' = S (lp_count f p) /\ (forall i, (i < lp_count f p)%nat -> lp_get f i p' = lp_get f i p) /\ lp_get f (lp_count f p) p' = Ok v /\
  (forall l, lp_list f p = Ok l -> lp_list f p' = Ok (l ++ [v])) /\ forall g, g <> f -> same_fields g p p'.
Proof.
  intros f v p p' I R H. apply add_spec in H as (x & E & F & O & _); auto. pose proof (lf_rt f v x R E) as D.
  rewrite !count_fel, !get_fel, !list_fel, F. splits.
  - rewrite app_length. cbn. lia.
  - intros i L. rewrite !get_fel, F. rewrite nth_error_app1; auto.
  - rewrite nth_error_app2, Nat.sub_diag; auto.
  - intros l. generalize (fel (lf_type f) (lp_es p)). intro es. revert l. induction es as [|e es IH]; intros l L; cbn in *.
    + injection L as <-. now rewrite D.
    + destruct (lf_decode f e); [|discriminate]. cbn in *. destruct (map_res (lf_decode f) es) as [vs|]; [|discriminate]. injection L as <-.
      rewrite (IH vs eq_refl). reflexivity.
  - intros g G. apply fel_same_fields, O, neq_type. auto.
Qed.
Lemma add_cases : forall f v p p' e, lp_add f v p = (p', Some e) ->
  p' = p /\ ((lf_repeatable f = false /\ lp_has f p = true /\ e = EInvalidArg) \/ lf_encode f v = Err e).
Proof.
  intros f v p p' e H. unfold lp_add in H. destruct (negb (lf_repeatable f) && lp_has f p) eqn:R.
  - injection H as <- <-. split; auto. left. apply Bool.andb_true_iff in R as [R1 R2]. destruct (lf_repeatable f); try discriminate. auto.
  - destruct (lf_encode f v) eqn:E; [discriminate|]. injection H as <- <-. auto.
Qed.
Lemma remove_spec : forall f i p p', lp_remove f i p = (p', None) ->
  (i < lp_count f p)%nat /\ lp_count f p = S (lp_count f p') /\
  (forall j, (j < i)%nat -> lp_get f j p' = lp_get f j p) /\ (forall j, (i <= j)%nat -> lp_get f j p' = lp_get f (S j) p) /\ forall g, g <> f -> same_fields g p p'.
Proof.
  intros f i p p' H. unfold lp_remove in H. pose proof (remove_loop f (lp_es p) i 0 ltac:(lia)) as R.
  destruct (lp_remove_loop f i 0 (lp_es p)) as [r|]; [|discriminate]. injection H as <-. rewrite Nat.sub_0_r in R. destruct R as (L & F & O).
  set (l := fel (lf_type f) (lp_es p)) in *. rewrite !count_fel. cbn [lp_es]. fold l. rewrite F. splits; auto.
  - rewrite app_length, firstn_length, skipn_length. lia.
  - intros j Lj. rewrite !get_fel. cbn [lp_es]. fold l. rewrite F. rewrite nth_error_app1 by (rewrite firstn_length; lia).
    rewrite <- (firstn_skipn i l) at 2. rewrite nth_error_app1 by (rewrite firstn_length; lia). reflexivity.
  - intros j Lj. rewrite !get_fel. cbn [lp_es]. fold l. rewrite F. rewrite nth_error_app2 by (rewrite firstn_length; lia).
    rewrite firstn_length, Nat.min_l by lia. rewrite <- (firstn_skipn (S i) l) at 2. rewrite nth_error_app2 by (rewrite firstn_length; lia).
    rewrite firstn_length, Nat.min_l by lia. replace (S j - S i)%nat with (j - i)%nat by lia. reflexivity.
  - intros g G. apply fel_same_fields, O, neq_type. auto.
Qed.
Lemma remove_err : forall f i p p' e, lp_remove f i p = (p', Some e) -> p' = p /\ e = EOutOfRange /\ (lp_count f p <= i)%nat.
Proof.
  intros f i p p' e H. unfold lp_remove in H. pose proof (remove_loop f (lp_es p) i 0 ltac:(lia)) as R.
  destruct (lp_remove_loop f i 0 (lp_es p)); [discriminate|]. injection H as <- <-. rewrite Nat.sub_0_r in R. auto.
Qed.
Lemma clear_spec : forall f p, lp_count f (lp_clear f p) = 0%nat /\ lp_get f 0 (lp_clear f p) = Err EOutOfRange /\ lp_list f (lp_clear f p) = Ok [] /\ forall g, g <> f -> same_fields g p (lp_clear f p).
Proof.
  intros f p. rewrite count_fel, get_fel, list_fel, clear_fel_same. splits; auto. intros g G. apply fel_same_fields, clear_fel_other, neq_type. auto.
Qed.
Lemma get_range : forall f i p, (lp_count f p <= i)%nat <-> lp_get f i p = Err EOutOfRange.
Proof.
  intros f i p. rewrite count_fel, get_fel. split.
  - intro L. apply nth_error_None in L. now rewrite L.
  - intro H. apply nth_error_None. destruct (nth_error _ i) as [e|]; auto. exfalso. revert H. unfold lf_decode.
    assert (Bn : forall A B (m : res A) (k : A -> res B), m <> Err EOutOfRange -> (forall a, k a <> Err EOutOfRange) -> bind m k <> Err EOutOfRange) by (intros A B [|] k H1 H2; cbn; auto; congruence).
    assert (Rn : forall e, readNNIBlock e <> Err EOutOfRange) by (intro y; unfold readNNIBlock; apply Bn; [|discriminate]; intro Q; apply readNNI_err in Q; discriminate).
    assert (Pn : forall v, parseValue v <> Err EOutOfRange) by (intro v; unfold parseValue; destruct (parse_loop _ _) as [es []]; discriminate).
    assert (In_ : forall e, readInt e <> Err EOutOfRange).
    { intro y. unfold readInt, readNNIBlockAs. apply Bn; [apply Bn; auto|discriminate]. intro n. destruct (_ <=? n); discriminate. }
    destruct (negb _); [discriminate|]. destruct (lf_kind f).
    + destruct (_ =? 0); discriminate.
    + apply Bn; auto; discriminate.
    + destruct (negb _); discriminate.
    + apply Bn; [|discriminate]. unfold nack_decode. destruct (negb _); [discriminate|]. apply Bn; auto. intros [|x l]; [discriminate|]. destruct (_ =? _); [auto|discriminate].
    + apply Bn; [|discriminate]. unfold cp_decode. destruct (negb _); [discriminate|]. apply Bn; auto. intros [|x l]; [discriminate|]. destruct (_ =? _); [|discriminate].
      apply Bn; auto. intro z. destruct (_ =? _)%Z; discriminate.
    + destruct (negb _); discriminate.
    + apply Bn; auto. intro es. destruct (List.find _ es); cbn; discriminate.
Qed.

(* ---- decoding ---- *)
Lemma decode_iff : forall w p, elem_wf w -> e_type w = tLpPacket ->
  (forall p', lp_decode w p = (p', None) -> is_tlv_seq (lp_fields p') (e_val w) /\ lp_legal (map fst (lp_fields p'))) /\
  (forall l, is_tlv_seq l (e_val w) -> lp_legal (map fst l) -> exists p', lp_decode w p = (p', None) /\ lp_fields p' = l) /\
  (forall p' e, lp_decode w p = (p', Some e) -> p' = p /\ e = ETlv).
Proof.
  intros w p W T. unfold lp_decode. rewrite T. cbn [tLpPacket tInterest tData N.eqb Pos.eqb orb negb].
  assert (Fst : forall es, map fst (map (fun e => (e_type e, e_val e)) es) = map e_type es) by (intro es; rewrite map_map; reflexivity).
  splits.
  - intros p' H. destruct (parseValue (e_val w)) as [es|] eqn:P; [|discriminate]. destruct (lp_check None es) eqn:C; [|discriminate]. injection H as <-.
    unfold lp_fields. cbn. rewrite Fst. split; [|now apply check_none]. apply is_tlv_seq_elems. apply parseValue_ok_iff in P as [F E]. eauto.
  - intros l S0 L. apply is_tlv_seq_elems in S0 as (es & F & -> & E). rewrite Fst in L.
    assert (P : parseValue (e_val w) = Ok es) by (apply parseValue_ok_iff; auto). rewrite P. apply check_none in L. rewrite L. eexists. split; reflexivity.
  - intros p' e H. destruct (parseValue (e_val w)) as [es|e'] eqn:P.
    + destruct (lp_check None es); [discriminate|]. injection H as <- <-. auto.
    + injection H as <- <-. split; auto. unfold parseValue in P. pose proof (parse_loop_fuel (S (length (e_val w))) (e_val w) ltac:(lia)) as Q.
      destruct (parse_loop _ _) as [es []]; cbn in Q; congruence.
Qed.
Lemma decode_other : forall w p, e_type w <> tInterest -> e_type w <> tData -> e_type w <> tLpPacket -> lp_decode w p = (p, Some ETlv).
Proof.
  intros w p A B C. unfold lp_decode. apply N.eqb_neq in A, B, C. rewrite A, B, C. reflexivity.
Qed.
Lemma decode_bare : forall w p, e_type w = tInterest \/ e_type w = tData -> nlen (e_wire w) < 2 ^ 62 ->
  exists p', lp_decode w p = (p', None) /\ lp_fields p' = [(80, e_wire w)].
Proof.
  intros w p T L. unfold lp_decode. assert (E : (e_type w =? tInterest) || (e_type w =? tData) = true) by lia. rewrite E.
  unfold lp_add. cbn [lf_repeatable negb andb lp_has lp_count lp_es lp_default filter length Nat.ltb Nat.leb lf_encode lf_kind lf_type].
  unfold lp_block, alloc. destruct (MAX_BUFFER <? nlen (tlv_enc 80 (e_wire w))) eqn:M.
  - exfalso. rewrite tlv_enc_len in M. unfold MAX_BUFFER in M. pose proof (sizeOfVarNumber_cases (nlen (e_wire w))). change (sizeOfVarNumber 80) with 1 in M. lia.
  - cbn. eexists. split; reflexivity.
Qed.
Lemma known_filter_legal : forall g ts, lp_legal ts -> lp_legal (filter g ts).
Proof.
  intros g ts. rewrite !legal_iff. intros [F S0]. split.
  - rewrite Forall_forall in *. intros t Ht. apply filter_In in Ht as [Ht _]. auto.
  - clear F. induction ts as [|t ts IH]; cbn; [constructor|]. apply StronglySorted_inv in S0 as [S0 F]. destruct (g t); auto. constructor; auto.
    rewrite Forall_forall in *. intros y Hy. apply filter_In in Hy as [Hy _]. auto.
Qed.
(* fields are what matters *)
Lemma decode_ext : forall f e e', e_type e = e_type e' -> e_val e = e_val e' -> lf_decode f e = lf_decode f e'.
Proof.
  intros f e e' T V. unfold lf_decode, nack_decode, cp_decode, readNNIBlock. now rewrite T, V.
Qed.
Lemma fields_fel : forall t p q, filter (fun x => fst x =? t) (lp_fields p) = filter (fun x => fst x =? t) (lp_fields q) ->
  Forall2 (fun a b => e_type a = e_type b /\ e_val a = e_val b) (fel t (lp_es p)) (fel t (lp_es q)).
Proof.
  intros t p q H.
  assert (A : forall es, filter (fun x : N * bytes => fst x =? t) (map (fun e => (e_type e, e_val e)) es) = map (fun e => (e_type e, e_val e)) (fel t es)).
  { induction es as [|e es IH]; auto. cbn. destruct (e_type e =? t); cbn; now rewrite IH. }
  unfold lp_fields in H. rewrite !A in H. revert H. generalize (fel t (lp_es p)) (fel t (lp_es q)). induction l as [|a l IH]; intros [|b m] H; cbn in H; try discriminate; constructor.
  - split; congruence.
  - apply IH. congruence.
Qed.
Lemma same_by_fields : forall f p q, filter (fun x => fst x =? lf_type f) (lp_fields p) = filter (fun x => fst x =? lf_type f) (lp_fields q) -> same_fields f q p.
Proof.
  intros f p q H. apply fields_fel in H. assert (C : lp_count f p = lp_count f q) by (rewrite !count_fel; clear - H; induction H; cbn; congruence).
  unfold same_fields, lp_has. rewrite C. splits; auto.
  - rewrite !list_fel. induction H as [|a b l m [T V] _ IH]; auto. cbn. rewrite (decode_ext f a b T V). now rewrite IH.
  - intro i. rewrite !get_fel. clear C. revert i. induction H as [|a b l m [T V] _ IH]; intros [|i]; cbn; auto. now apply decode_ext.
Qed.
Lemma ignored_spec : forall w w2 p p' p2, elem_wf w -> e_type w = tLpPacket -> elem_wf w2 -> e_type w2 = tLpPacket ->
  lp_decode w p = (p', None) -> lp_decode w2 p = (p2, None) ->
  lp_fields p2 = filter (fun x => existsb (N.eqb (fst x)) [80; 81; 82; 83; 98; 800; 812; 816; 820; 832; 836; 840; 844; 848]) (lp_fields p') ->
  forall f, same_fields f p' p2.
Proof.
  intros w w2 p p' p2 W T W2 T2 D D2 E f. apply same_by_fields. rewrite E. clear.
  induction (lp_fields p') as [|x l IH]; auto. cbn [filter]. destruct (existsb _ _) eqn:K; cbn [filter]; [now rewrite IH|]. rewrite IH.
  destruct (N.eqb_spec (fst x) (lf_type f)) as [Q|Q]; auto. exfalso. rewrite Q in K. destruct f; discriminate K.
Qed.

(* ---- round trip ---- *)
Lemma encode_rt : forall p w p' q, lp_inv p -> lp_encode p = (Ok w, p') -> ~ (exists v, lp_fields p = [(80, v)]) ->
  elem_wf w /\ e_type w = tLpPacket /\ exists p2, lp_decode w q = (p2, None) /\ lp_fields p2 = lp_fields p.
Proof.
  intros p w p' q (W & L & Wi) H NB.
  assert (H' : match lp_wire p with
    | Some w => (Ok w, p)
    | None => match lp_block tLpPacket (concat (map e_wire (map (fun e => mkBlock (e_type e) (e_val e)) (lp_es p)))) with
        | Ok w => (Ok w, mkLp (map (fun e => mkBlock (e_type e) (e_val e)) (lp_es p)) (Some w))
        | Err e => (Err e, p)
        end
    end = (Ok w, p')).
  { unfold lp_encode in H. destruct (lp_es p) as [|x [|y l]] eqn:Ee; auto. destruct (N.eqb_spec (e_type x) 80) as [T|T]; auto. exfalso. apply NB.
    exists (e_val x). unfold lp_fields. rewrite Ee. cbn. now rewrite T. }
  clear H. assert (Q : elem_wf w /\ e_type w = tLpPacket /\ is_tlv_seq (lp_fields p) (e_val w)).
  { destruct (lp_wire p) as [w0|] eqn:E.
    - injection H' as <- _. destruct (Wi w0 eq_refl) as (A & B & C). splits; auto. apply is_tlv_seq_elems. exists (lp_es p). auto.
    - destruct (lp_block _ _) as [w0|] eqn:Eb; [|discriminate]. injection H' as <- _. apply lp_block_wf in Eb as (A & B & C). splits; auto. apply is_tlv_seq_elems.
      exists (map (fun e => mkBlock (e_type e) (e_val e)) (lp_es p)). splits; auto; [now apply rehead_wf|]. unfold lp_fields. rewrite map_map. reflexivity. }
  destruct Q as (A & B & C). splits; auto. destruct (decode_iff w q A B) as (_ & D & _). apply D; auto. apply legal_iff.
  unfold lp_fields. rewrite map_map. exact L.
Qed.
Lemma encode_bare : forall p v t c q, lp_inv p -> lp_fields p = [(80, v)] -> (t = tInterest \/ t = tData) -> is_tlv t c v -> nlen v < 2 ^ 62 ->
  exists w p2, lp_encode p = (Ok w, p) /\ elem_wf w /\ e_wire w = v /\ lp_decode w q = (p2, None) /\ lp_fields p2 = lp_fields p.
Proof.
  intros p v t c q I F T V L. unfold lp_encode. unfold lp_fields in F. destruct (lp_es p) as [|x [|y l]] eqn:Ee; try discriminate. cbn in F. injection F as T80 <-.
  rewrite T80. cbn [N.eqb Pos.eqb]. apply is_tlv_elem in V as (e & We & Te & _ & E).
  assert (P : parseValue (e_val x) = Ok [e]) by (apply parseValue_ok_iff; split; [constructor; auto|cbn; rewrite app_nil_r; congruence]).
  rewrite P. destruct (decode_bare e q) as (p2 & D & F2); [rewrite Te; auto|rewrite E; auto|]. exists e, p2. splits; auto. rewrite F2. unfold lp_fields. rewrite Ee. cbn. now rewrite T80, E.
Qed.

From Coq Require Import Lia ZifyBool ZifyNat ZifyN ZArith Sorted.
From Verif Require Import Base BaseLemmas M_Tlv P_Tlv S_Tlv M_Lp S_Lp.

Lemma known_find : forall t, lp_known t <-> exists f, List.find (fun f => lf_type f =? t) FieldSet = Some f.
Proof.
  intro t. unfold lp_known. split.
  - intro H. cbn [In] in H. repeat destruct H as [<- |H]; try (eexists; vm_compute; reflexivity). destruct H.
  - intros [f H]. apply find_some in H as [_ H]. apply N.eqb_eq in H. subst t. destruct f; cbn; auto 20.
Qed.
Lemma find_type : forall t f, List.find (fun f => lf_type f =? t) FieldSet = Some f -> lf_type f = t.
Proof. intros t f H. apply find_some in H as [_ H]. now apply N.eqb_eq. Qed.
Lemma find_lf : forall f, List.find (fun g => lf_type g =? lf_type f) FieldSet = Some f.
Proof. destruct f; vm_compute; reflexivity. Qed.
Lemma lf_type_inj : forall f g, lf_type f = lf_type g -> f = g.
Proof. intros f g H. pose proof (find_lf f) as A. pose proof (find_lf g) as B. rewrite H in A. congruence. Qed.

Lemma land3 : forall t, (N.land t 3 =? 0) = (t mod 4 =? 0).
Proof. intro t. change 3 with (N.ones 2). rewrite N.land_ones. reflexivity. Qed.
Lemma info_type : forall t, fi_type (FieldInfo t) = t.
Proof. intro t. unfold FieldInfo. destruct (List.find _ _); reflexivity. Qed.
Lemma info_loc : forall t, fi_loc (FieldInfo t) = if t =? 80 then 2 else 1.
Proof.
  intro t. unfold FieldInfo. destruct (List.find _ _) as [f|] eqn:E.
  - apply find_type in E. subst t. destruct f; reflexivity.
  - cbn [fi_loc]. destruct (N.eqb_spec t 80) as [-> |]; [discriminate E|reflexivity].
Qed.
Lemma info_repeat : forall t, fi_repeat (FieldInfo t) = (t =? 836).
Proof.
  intro t. unfold FieldInfo. destruct (List.find _ _) as [f|] eqn:E.
  - apply find_type in E. subst t. destruct f; reflexivity.
  - cbn [fi_repeat]. destruct (N.eqb_spec t 836) as [-> |]; [discriminate E|reflexivity].
Qed.
Lemma info_legal : forall t, (fi_recognized (FieldInfo t) || fi_ignore (FieldInfo t)) = true <-> lp_known t \/ lp_ignorable t.
Proof.
  intro t. unfold lp_ignorable. rewrite known_find. unfold FieldInfo. destruct (List.find _ _) as [f|] eqn:E; cbn [fi_recognized fi_ignore orb].
  - split; auto. intros _. left. eauto.
  - rewrite land3. unfold HEADER3_MIN, HEADER3_MAX. rewrite !Bool.andb_true_iff, !N.leb_le, N.eqb_eq. split.
    + intro H. right. split; [intros [f H']; congruence|]. tauto.
    + intros [[f H]|H]; [congruence|tauto].
Qed.

(* the order of elements: keys are pairs (location, type) *)
Definition tlt (a b : N) : bool := cmpField (FieldInfo a) (FieldInfo b).
Definition tle (a b : N) : Prop := tlt a b = true \/ a = b /\ a = 836.
Lemma tlt_spec : forall a b, tlt a b = true <-> (a <> 80 /\ b = 80) \/ (a <> 80 /\ b <> 80 /\ a < b).
Proof.
  intros a b. unfold tlt, cmpField. rewrite !info_loc, !info_type. destruct (N.eqb_spec a 80), (N.eqb_spec b 80); subst; cbn; lia.
Qed.
Lemma tle_trans : forall a b c, tle a b -> tle b c -> tle a c.
Proof. unfold tle. intros a b c. rewrite !tlt_spec. lia. Qed.

Definition legal' (ts : list N) : Prop := Forall (fun t => lp_known t \/ lp_ignorable t) ts /\ StronglySorted tle ts.
Lemma order_iff : forall ts, lp_order ts <-> StronglySorted tle ts.
Proof.
  assert (A : forall hs, ~ In 80 hs -> StronglySorted (fun a b => a < b \/ a = b /\ a = 836) hs <-> StronglySorted tle hs).
  { induction hs as [|h hs IH]; intro N8; [split; constructor|]. cbn in N8.
    assert (T : ~ In 80 hs) by tauto. specialize (IH T).
    split; intro H; apply StronglySorted_inv in H as [H F]; (constructor; [now apply IH|]); rewrite Forall_forall in *; intros x Hx; specialize (F x Hx);
    assert (x <> 80) by (intro; subst; auto); unfold tle in *; rewrite tlt_spec in *; lia. }
  intro ts. split.
  - intros (hs & H & N8 & [-> | ->]); [now apply A|]. apply (A hs N8) in H. clear A. induction hs as [|h hs IH]; cbn; [repeat constructor|].
    apply StronglySorted_inv in H as [H F]. cbn in N8. constructor; [apply IH; auto|]. apply Forall_app. split; auto.
    constructor; auto. left. rewrite tlt_spec. lia.
  - intro H. induction ts as [|t ts IH].
    + exists []. splits; auto. constructor.
    + apply StronglySorted_inv in H as [H F]. destruct (IH H) as (hs & Hs & N8 & E). clear IH.
      destruct (N.eq_dec t 80) as [-> |D].
      * assert (ts = []). { destruct ts as [|y ts]; auto. apply Forall_cons_iff in F as [F _]. unfold tle in F. rewrite tlt_spec in F. lia. }
        subst ts. exists []. splits; auto. constructor.
      * exists (t :: hs). splits.
        -- apply A; [cbn; intuition|]. constructor; [now apply A|]. destruct E as [-> | ->]; auto. now apply Forall_app in F.
        -- cbn. intuition.
        -- destruct E as [-> | ->]; auto.
Qed.
Lemma legal_iff : forall ts, lp_legal ts <-> legal' ts.
Proof. intro ts. unfold lp_legal, legal'. now rewrite order_iff. Qed.

Lemma check_iff : forall es prev, lp_check (option_map FieldInfo prev) es = true <->
  Forall (fun t => lp_known t \/ lp_ignorable t) (map e_type es) /\
  StronglySorted tle (match prev with None => [] | Some t => [t] end ++ map e_type es).
Proof.
  induction es as [|e es IH]; intro prev.
  - cbn. split; auto. intros _. split; [constructor|]. destruct prev; cbn; repeat constructor.
  - cbn [lp_check map]. rewrite !Bool.andb_true_iff, info_legal. specialize (IH (Some (e_type e))). cbn [option_map] in IH. rewrite IH.
    rewrite Forall_cons_iff. destruct prev as [p|]; cbn [option_map app].
    + rewrite !info_type, info_repeat. fold (tlt p (e_type e)). split.
      * intros [[L C] [F S0]]. splits; auto. constructor; auto.
        assert (T : tle p (e_type e)). { destruct (N.eqb_spec (e_type e) p); [right; lia|left; exact C]. }
        constructor; auto. apply StronglySorted_inv in S0 as [_ S0]. rewrite Forall_forall in *. intros x Hx. eapply tle_trans; eauto.
      * intros [[L F] S0]. apply StronglySorted_inv in S0 as [S0 S1]. splits; auto. apply Forall_cons_iff in S1 as [S1 _].
        destruct (N.eqb_spec (e_type e) p) as [E|E]; destruct S1 as [S1|S1]; try lia; auto. rewrite tlt_spec in S1. lia.
    + split; intros; tauto.
Qed.
Lemma check_none : forall es, lp_check None es = true <-> lp_legal (map e_type es).
Proof. intro es. rewrite legal_iff. apply (check_iff es None). Qed.

(* insertion *)
Lemma insert_types : forall t x es, e_type x = t -> StronglySorted tle (map e_type es) -> (t = 836 \/ ~ In t (map e_type es)) ->
  StronglySorted tle (map e_type (lp_insert t x es)).
Proof.
  induction es as [|e es IH]; intros E S0 R; cbn; [repeat constructor|]. fold (tlt t (e_type e)). cbn in S0. apply StronglySorted_inv in S0 as [S0 F].
  destruct (tlt t (e_type e)) eqn:C; cbn [map]; rewrite ?E.
  - constructor; [now constructor|]. constructor; [now left|]. rewrite Forall_forall in *. intros y Hy. eapply tle_trans; [left; exact C|auto].
  - constructor; [apply IH; auto; cbn in R; tauto|].
    assert (T : tle (e_type e) t).
    { pose proof (proj2 (tlt_spec t (e_type e))) as Q. rewrite C in Q.
      assert (NQ : ~ ((t <> 80 /\ e_type e = 80) \/ (t <> 80 /\ e_type e <> 80 /\ t < e_type e))) by (intro H; discriminate (Q H)).
      assert (U : t = 836 \/ t <> e_type e) by (cbn in R; intuition). unfold tle. rewrite tlt_spec. clear - NQ U. lia. }
    apply Forall_forall. intros y Hy. apply in_map_iff in Hy as (z & <- & Hz).
    assert (z = x \/ In z es). { clear - Hz. induction es as [|w es IH]; cbn in *; [intuition|]. destruct (cmpField _ _); cbn in *; intuition. }
    destruct H as [-> |H]; [now rewrite E|]. rewrite Forall_forall in F. apply F. now apply in_map.
Qed.
Lemma insert_in_lp : forall t x es y, In y (lp_insert t x es) <-> y = x \/ In y es.
Proof. induction es as [|e es IH]; intro y; cbn; [intuition|]. destruct (cmpField _ _); cbn; [intuition|]. rewrite IH. intuition. Qed.
Lemma insert_forall : forall (P : elem -> Prop) t x es, P x -> Forall P es -> Forall P (lp_insert t x es).
Proof. intros P t x es Hx F. apply Forall_forall. intros y Hy. apply insert_in_lp in Hy as [-> |Hy]; auto. rewrite Forall_forall in F. auto. Qed.

(* elements of one type *)
Definition fel (t : N) (es : list elem) : list elem := filter (fun e => e_type e =? t) es.
Lemma insert_fel_other : forall t x es u, e_type x = t -> u <> t -> fel u (lp_insert t x es) = fel u es.
Proof.
  induction es as [|e es IH]; intros u E D; cbn.
  - destruct (N.eqb_spec (e_type x) u); [lia|reflexivity].
  - destruct (cmpField _ _); cbn.
    + destruct (N.eqb_spec (e_type x) u); [lia|reflexivity].
    + unfold fel in IH. rewrite IH; auto.
Qed.
Lemma insert_fel_same : forall t x es, e_type x = t -> StronglySorted tle (map e_type es) -> fel t (lp_insert t x es) = fel t es ++ [x].
Proof.
  induction es as [|e es IH]; intros E S0; cbn.
  - rewrite E, N.eqb_refl. reflexivity.
  - fold (tlt t (e_type e)). cbn in S0. apply StronglySorted_inv in S0 as [S0 F]. destruct (tlt t (e_type e)) eqn:C; cbn.
    + rewrite E, N.eqb_refl. assert (Z : fel t (e :: es) = []).
      { unfold fel. destruct (filter (fun y => e_type y =? t) (e :: es)) as [|y l] eqn:Q; auto. exfalso.
        assert (I : In y (e :: es) /\ (e_type y =? t) = true) by (apply (filter_In (fun y => e_type y =? t)); rewrite Q; now left). destruct I as [I T]. apply N.eqb_eq in T.
        rewrite tlt_spec in C. destruct I as [<- |I]; [lia|]. rewrite Forall_forall in F. specialize (F (e_type y) (in_map _ _ _ I)). unfold tle in F. rewrite tlt_spec in F. lia. }
      unfold fel in Z. cbn in Z. rewrite Z. reflexivity.
    + unfold fel in IH. rewrite IH; auto. destruct (e_type e =? t); reflexivity.
Qed.
Lemma clear_fel_other : forall f p u, u <> lf_type f -> fel u (lp_es (lp_clear f p)) = fel u (lp_es p).
Proof.
  intros f p u D. cbn. unfold fel. induction (lp_es p) as [|e es IH]; cbn; auto.
  destruct (N.eqb_spec (e_type e) (lf_type f)); cbn; rewrite IH; auto. destruct (N.eqb_spec (e_type e) u); [lia|reflexivity].
Qed.
Lemma clear_fel_same : forall f p, fel (lf_type f) (lp_es (lp_clear f p)) = [].
Proof.
  intros f p. cbn. unfold fel. induction (lp_es p) as [|e es IH]; cbn; auto. destruct (e_type e =? lf_type f) eqn:E; cbn; auto. now rewrite E.
Qed.

Lemma get_loop_fel : forall f es i c, (c <= i)%nat -> lp_get_loop f i c es = match nth_error (fel (lf_type f) es) (i - c) with Some e => lf_decode f e | None => Err EOutOfRange end.
Proof.
  induction es as [|e es IH]; intros i c L; cbn.
  - now destruct (i - c)%nat.
  - destruct (e_type e =? lf_type f); cbn; [|now apply IH]. destruct (Nat.eqb_spec c i).
    + subst. rewrite Nat.sub_diag. reflexivity.
    + rewrite IH by lia. replace (i - c)%nat with (S (i - S c)) by lia. reflexivity.
Qed.
Lemma get_fel : forall f i p, lp_get f i p = match nth_error (fel (lf_type f) (lp_es p)) i with Some e => lf_decode f e | None => Err EOutOfRange end.
Proof. intros. unfold lp_get. rewrite get_loop_fel by lia. now rewrite Nat.sub_0_r. Qed.
Lemma list_fel : forall f p, lp_list f p = map_res (lf_decode f) (fel (lf_type f) (lp_es p)).
Proof.
  intros f p. unfold lp_list, fel. induction (lp_es p) as [|e es IH]; cbn; auto. destruct (e_type e =? lf_type f); cbn; auto. now rewrite IH.
Qed.
Lemma count_fel : forall f p, lp_count f p = length (fel (lf_type f) (lp_es p)).
Proof. reflexivity. Qed.
Lemma remove_loop : forall f es i c, (c <= i)%nat ->
  match lp_remove_loop f i c es with
  | Some r => (i - c < length (fel (lf_type f) es))%nat /\ fel (lf_type f) r = firstn (i - c) (fel (lf_type f) es) ++ skipn (S (i - c)) (fel (lf_type f) es) /\
              (forall u, u <> lf_type f -> fel u r = fel u es)
  | None => (length (fel (lf_type f) es) <= i - c)%nat
  end.
Proof.
  induction es as [|e es IH]; intros i c L; cbn [lp_remove_loop].
  - cbn. lia.
  - unfold fel in *. cbn [filter]. destruct (e_type e =? lf_type f) eqn:E.
    + destruct (Nat.eqb_spec c i).
      * subst. rewrite Nat.sub_diag. cbn. splits; [lia|reflexivity|]. intros u D. destruct (N.eqb_spec (e_type e) u); [lia|reflexivity].
      * specialize (IH i (S c) ltac:(lia)). destruct (lp_remove_loop f i (S c) es) as [r|].
        -- destruct IH as (A & B & C). replace (i - c)%nat with (S (i - S c)) by lia. cbn [length filter firstn skipn app]. rewrite E. splits; [lia| |].
           ++ cbn [app]. f_equal. exact B.
           ++ intros u D. rewrite C by auto. reflexivity.
        -- cbn. lia.
    + specialize (IH i c L). destruct (lp_remove_loop f i c es) as [r|]; [|exact IH]. destruct IH as (A & B & C). cbn [filter]. rewrite E. splits; auto.
      intros u D. rewrite C by auto. reflexivity.
Qed.
Lemma remove_sub : forall f es i c r, lp_remove_loop f i c es = Some r -> exists a x b, es = a ++ x :: b /\ r = a ++ b.
Proof.
  induction es as [|e es IH]; intros i c r H; cbn in H; [discriminate|]. destruct (e_type e =? lf_type f); [destruct (Nat.eqb c i)|].
  - injection H as <-. exists [], e, es. auto.
  - destruct (lp_remove_loop f i (S c) es) as [r'|] eqn:E; [|discriminate]. injection H as <-. apply IH in E as (a & x & b & -> & ->). exists (e :: a), x, b. auto.
  - destruct (lp_remove_loop f i c es) as [r'|] eqn:E; [|discriminate]. injection H as <-. apply IH in E as (a & x & b & -> & ->). exists (e :: a), x, b. auto.
Qed.

(* values *)
Lemma lp_block_ok : forall t v x, lp_block t v = Ok x -> x = mkBlock t v /\ nlen (tlv_enc t v) <= MAX_BUFFER.
Proof. intros t v x. unfold lp_block, alloc. destruct (MAX_BUFFER <? _) eqn:E; [discriminate|]. cbn. intros [= <-]. split; auto. lia. Qed.
Lemma lf_encode_block : forall f v x, lf_encode f v = Ok x -> exists b, x = mkBlock (lf_type f) b /\ nlen (tlv_enc (lf_type f) b) <= MAX_BUFFER.
Proof.
  intros f v x H. destruct f, v; cbn in H; try discriminate; try (apply lp_block_ok in H as [-> L]; eexists; split; [reflexivity|exact L]).
  unfold cp_encode in H. destruct (z =? 0)%Z; [discriminate|]. apply lp_block_ok in H as [-> L]. eexists. split; [reflexivity|exact L].
Qed.
Lemma tlv_len_val : forall t v, nlen v <= nlen (tlv_enc t v).
Proof. intros. unfold tlv_enc. rewrite !nlen_app. lia. Qed.
Lemma lf_type_bounds : forall f, 0 < lf_type f /\ lf_type f < two32.
Proof. destruct f; vm_compute; auto. Qed.
Lemma lf_encode_wf : forall f v x, lf_encode f v = Ok x -> elem_wf x /\ e_type x = lf_type f /\ x = mkBlock (e_type x) (e_val x).
Proof.
  intros f v x H. apply lf_encode_block in H as (b & -> & L). split; [|split; reflexivity].
  pose proof (tlv_len_val (lf_type f) b). unfold MAX_BUFFER in L. destruct (lf_type_bounds f). apply mkBlock_wf; auto; unfold two64; lia.
Qed.

(* the invariant of packets *)
Definition lp_inv (p : lpp) : Prop :=
  Forall elem_wf (lp_es p) /\ legal' (map e_type (lp_es p)) /\
  (forall w, lp_wire p = Some w -> elem_wf w /\ e_type w = tLpPacket /\ e_val w = concat (map e_wire (lp_es p))).

Lemma legal_sub : forall a x b, legal' (a ++ x :: b) -> legal' (a ++ b).
Proof.
  intros a x b [F S0]. split.
  - apply Forall_app in F as [F1 F2]. apply Forall_cons_iff in F2 as [_ F2]. apply Forall_app. auto.
  - clear F. induction a as [|y a IH]; cbn in *; apply StronglySorted_inv in S0 as [S0 F]; auto. constructor; auto.
    apply Forall_app in F as [F1 F2]. apply Forall_cons_iff in F2 as [_ F2]. apply Forall_app. auto.
Qed.
Lemma legal_filter : forall (g : elem -> bool) es, legal' (map e_type es) -> legal' (map e_type (filter g es)).
Proof.
  intros g es [F S0]. split.
  - rewrite Forall_forall in *. intros t Ht. apply in_map_iff in Ht as (e & <- & He). apply filter_In in He as [He _]. apply F. now apply in_map.
  - clear F. induction es as [|e es IH]; cbn in *; [constructor|]. apply StronglySorted_inv in S0 as [S0 F]. destruct (g e); cbn; auto. constructor; auto.
    rewrite Forall_forall in *. intros t Ht. apply in_map_iff in Ht as (y & <- & Hy). apply filter_In in Hy as [Hy _]. apply F. now apply in_map.
Qed.
Lemma known_lf : forall f, lp_known (lf_type f).
Proof. intro f. apply known_find. exists f. apply find_lf. Qed.
Lemma inv_default : lp_inv lp_default.
Proof. unfold lp_inv, legal'. cbn. splits; try constructor; discriminate. Qed.
Lemma inv_clear : forall f p, lp_inv p -> lp_inv (lp_clear f p).
Proof.
  intros f p (W & L & _). unfold lp_inv. cbn. splits; [|now apply legal_filter|discriminate].
  rewrite Forall_forall in *. intros e He. apply filter_In in He as [He _]. auto.
Qed.
Lemma count_zero : forall f p, lp_has f p = false -> ~ In (lf_type f) (map e_type (lp_es p)).
Proof.
  intros f p H I. unfold lp_has in H. apply Nat.ltb_ge in H. unfold lp_count in H. apply in_map_iff in I as (e & E & I).
  assert (In e (filter (fun e => e_type e =? lf_type f) (lp_es p))) by (apply filter_In; split; auto; now apply N.eqb_eq).
  destruct (filter _ _); [destruct H0|cbn in H; lia].
Qed.
Lemma inv_add : forall f v p, lp_inv p -> lp_inv (fst (lp_add f v p)).
Proof.
  intros f v p I. unfold lp_add. destruct (negb (lf_repeatable f) && lp_has f p) eqn:R; [exact I|]. destruct (lf_encode f v) as [x|] eqn:E; [|exact I].
  destruct I as (W & (F & S0) & _). apply lf_encode_wf in E as (Wx & Tx & _). unfold lp_inv. cbn. splits; [now apply insert_forall| |discriminate].
  split.
  - rewrite Forall_forall in *. intros t Ht. apply in_map_iff in Ht as (y & <- & Hy). apply insert_in_lp in Hy as [-> |Hy]; [left; rewrite Tx; apply known_lf|].
    apply F. now apply in_map.
  - apply insert_types; auto. apply Bool.andb_false_iff in R as [R|R]; [left; destruct f; try discriminate R; reflexivity|right; now apply count_zero].
Qed.
Lemma inv_remove : forall f i p, lp_inv p -> lp_inv (fst (lp_remove f i p)).
Proof.
  intros f i p I. unfold lp_remove. destruct (lp_remove_loop f i 0 (lp_es p)) as [r|] eqn:E; [|exact I].
  destruct I as (W & L & _). apply remove_sub in E as (a & x & b & E & ->). rewrite E in *. unfold lp_inv. cbn. splits; [| |discriminate].
  - apply Forall_app in W as [W1 W2]. apply Forall_cons_iff in W2 as [_ W2]. apply Forall_app. auto.
  - rewrite map_app in *. cbn in L. now apply legal_sub in L.
Qed.
Lemma rehead_types : forall es, map e_type (map (fun e => mkBlock (e_type e) (e_val e)) es) = map e_type es.
Proof. intro es. rewrite map_map. apply map_ext. reflexivity. Qed.
Lemma rehead_wf : forall es, Forall elem_wf es -> Forall elem_wf (map (fun e => mkBlock (e_type e) (e_val e)) es).
Proof.
  intros es F. rewrite Forall_forall in *. intros x Hx. apply in_map_iff in Hx as (e & <- & He). specialize (F e He).
  destruct F as (? & ? & ?). apply mkBlock_wf; auto; tauto.
Qed.
Lemma lp_block_wf : forall v w, lp_block tLpPacket v = Ok w -> elem_wf w /\ e_type w = tLpPacket /\ e_val w = v.
Proof.
  intros v w H. apply lp_block_ok in H as [-> L]. splits; try reflexivity. pose proof (tlv_len_val tLpPacket v). unfold MAX_BUFFER in L.
  apply mkBlock_wf; unfold tLpPacket, two32, two64; lia.
Qed.
Lemma encode_state : forall p, snd (lp_encode p) = p \/
  (exists w, lp_wire p = None /\ lp_block tLpPacket (concat (map e_wire (map (fun e => mkBlock (e_type e) (e_val e)) (lp_es p)))) = Ok w /\
     snd (lp_encode p) = mkLp (map (fun e => mkBlock (e_type e) (e_val e)) (lp_es p)) (Some w)).
Proof.
  intro p. unfold lp_encode.
  assert (G : forall r, r = match lp_wire p with
    | Some w => (Ok w, p)
    | None => match lp_block tLpPacket (concat (map e_wire (map (fun e => mkBlock (e_type e) (e_val e)) (lp_es p)))) with
        | Ok w => (Ok w, mkLp (map (fun e => mkBlock (e_type e) (e_val e)) (lp_es p)) (Some w))
        | Err e => (Err e, p)
        end
    end -> snd r = p \/ exists w, lp_wire p = None /\ lp_block tLpPacket (concat (map e_wire (map (fun e => mkBlock (e_type e) (e_val e)) (lp_es p)))) = Ok w /\
     snd r = mkLp (map (fun e => mkBlock (e_type e) (e_val e)) (lp_es p)) (Some w)).
  { intros r ->. destruct (lp_wire p); [now left|]. destruct (lp_block _ _) as [w|]; [|now left]. right. exists w. auto. }
  destruct (lp_es p) as [|x [|y l]] eqn:Ee; try (apply G; reflexivity).
  destruct (e_type x =? 80); [now left|]. apply G. reflexivity.
Qed.
Lemma inv_encode : forall p, lp_inv p -> lp_inv (snd (lp_encode p)).
Proof.
  intros p I. destruct (encode_state p) as [-> |(w & _ & Bw & ->)]; auto. destruct I as (W & L & _). unfold lp_inv. cbn. rewrite rehead_types. splits; auto.
  - now apply rehead_wf.
  - intros w' [= <-]. apply lp_block_wf in Bw. exact Bw.
Qed.
Lemma inv_decode : forall w p, elem_wf w -> lp_inv p -> lp_inv (fst (lp_decode w p)).
Proof.
  intros w p Ww I. unfold lp_decode. destruct ((e_type w =? tInterest) || (e_type w =? tData)); [apply inv_add, inv_default|].
  destruct (N.eqb_spec (e_type w) tLpPacket) as [T|T]; cbn [negb]; [|exact I]. destruct (parseValue (e_val w)) as [es|] eqn:P; [|exact I].
  destruct (lp_check None es) eqn:C; [|exact I]. apply check_none in C. apply legal_iff in C. apply parseValue_ok_iff in P as [F E].
  unfold lp_inv. cbn. splits; auto. intros w' [= <-]. auto.
Qed.
Lemma reach_inv : forall p, lp_reach p -> lp_inv p.
Proof.
  intros p (ops & <- & F). pose proof inv_default as I. revert F I. generalize lp_default. induction ops as [|o ops IH]; intros p F I; [exact I|].
  apply Forall_cons_iff in F as [H F]. cbn. apply IH; auto. destruct o; cbn.
  - unfold lp_set. apply inv_add, inv_clear, I.
  - apply inv_add, I.
  - apply inv_remove, I.
  - apply inv_clear, I.
  - apply inv_encode, I.
  - apply inv_decode; auto. apply blockFromWire_inv in H. tauto.
Qed.

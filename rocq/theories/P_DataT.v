(* Proofs of C20-C24: decoding domain, signed portion, histories. *)
From Coq Require Import Lia ZifyBool ZifyNat ZifyN Sorted.
From Verif Require Import Base BaseLemmas M_Tlv P_Tlv S_Tlv P_Block M_Str M_Name S_Name P_Name P_NameUri M_Packet S_Packet P_Packet P_Data.

Definition ekey (e : elem) : key := (e_type e, e_val e).

Lemma parse_keys : forall v es, parseValue v = Ok es -> is_tlv_seq (map ekey es) v.
Proof. intros v es P. apply parseValue_ok_iff in P as [W ->]. apply is_tlv_seq_elems. exists es. auto. Qed.

Lemma filter_map : forall A B (f : A -> B) (p : B -> bool) l, filter p (map f l) = map f (filter (fun x => p (f x)) l).
Proof. induction l as [|x l IH]; cbn; auto. destruct (p (f x)); cbn; now rewrite IH. Qed.

(* ---- C21 ---- *)
Lemma sorted_app : forall (A : list N) x B y C, StronglySorted N.lt (A ++ x :: B ++ y :: C) -> x < y.
Proof.
  induction A as [|a A IH]; intros x B y C H; cbn in H.
  - inversion H as [|? ? _ F]; subst. rewrite Forall_forall in F. apply F. apply in_app_iff. right. left. auto.
  - inversion H; subst. eauto.
Qed.

Lemma layout_sorted : forall mi c si sv es, da_layout mi c si sv es ->
  StronglySorted N.lt (map fst (filter (fun k => da_recognised (fst k)) (map ekey es))).
Proof.
  intros mi c si sv es (F & _ & T1 & T2 & T3 & T4).
  rewrite filter_map, map_map. cbn [ekey fst]. rewrite F. unfold ekey. cbn [fst].
  assert (S2 : StronglySorted N.lt [22; 23]) by (repeat constructor).
  assert (F1 : forall t, t < 22 -> Forall (N.lt t) [22; 23]) by (intros; repeat constructor; lia).
  destruct mi as [x|], c as [y|]; cbn [opt_list app map];
    try rewrite (T1 _ eq_refl); try rewrite (T2 _ eq_refl); rewrite T3, T4;
    repeat (constructor; try exact S2; try (apply F1; lia)).
Qed.

Lemma da_rejects : forall e d l, is_tlv_seq l (e_val e) -> da_malformed l -> snd (da_decode e d) <> None.
Proof.
  intros e d l S M H. destruct (da_decode e d) as [d' o] eqn:D. cbn in H. subst o.
  apply da_decode_iff in D as (n & es & mi & c & si & sv & nm & m & s & (T & P & Dn & Ly & Dm & Ds) & _).
  pose proof (is_tlv_seq_unique _ _ _ S (parse_keys _ _ P)) as El. cbn [map] in El.
  apply nm_decode_keys in Dn as (Tn & _).
  pose proof (layout_sorted _ _ _ _ _ Ly) as So.
  destruct Ly as (F & NC & T1 & T2 & T3 & T4).
  assert (In' : forall x, In x [si; sv] -> In x es).
  { intros x Hx. assert (In x (filter (fun e => da_recognised (e_type e)) es)) as G.
    { rewrite F. rewrite !in_app_iff. auto. }
    apply filter_In in G. tauto. }
  assert (In22 : In 22 (map fst (map ekey es))).
  { rewrite map_map. apply in_map_iff. exists si. cbn. split; auto. apply In'. cbn. auto. }
  assert (In23 : In 23 (map fst (map ekey es))).
  { rewrite map_map. apply in_map_iff. exists sv. cbn. split; auto. apply In'. cbn. auto. }
  destruct M as [|t v l Ht|k l N|k l N|k a x b y c0 Rx Ry Le|k a x b Rx Cx].
  - discriminate.
  - injection El as Et _ _. congruence.
  - injection El as _ ->. auto.
  - injection El as _ ->. auto.
  - injection El as _ El. rewrite <- El in So.
    rewrite !filter_app in So. cbn [filter] in So. rewrite Rx, !filter_app in So. cbn [filter] in So. rewrite Ry in So.
    rewrite map_app in So. cbn [map] in So. rewrite map_app in So. cbn [map] in So.
    apply sorted_app in So. lia.
  - injection El as _ El. assert (Ix : In x (map ekey es)).
    { rewrite <- El. apply in_app_iff. right. left. auto. }
    apply in_map_iff in Ix as (z & <- & Iz). rewrite Forall_forall in NC. apply (NC z Iz); auto.
Qed.

Lemma layout_insert : forall mi c si sv a x b, da_recognised (e_type x) = false -> ~ critical (e_type x) ->
  (da_layout mi c si sv (a ++ x :: b) <-> da_layout mi c si sv (a ++ b)).
Proof.
  intros mi c si sv a x b R NC. unfold da_layout.
  rewrite !filter_app. cbn [filter]. rewrite R. rewrite !Forall_app. 
  split; intros (F & (Fa & Fb) & T); splits; auto; try apply T.
  - now inversion Fb.
Qed.

Lemma option_ext : forall A (a b : option A), (forall x, a = Some x <-> b = Some x) -> a = b.
Proof.
  intros A [x|] [y|] H; auto.
  - now apply H.
  - specialize (H x). destruct H as [H _]. now specialize (H eq_refl).
  - specialize (H y). destruct H as [_ H]. now specialize (H eq_refl).
Qed.

Lemma da_reads_iff : forall w v, da_reads w = Some v <->
  exists n es mi c si sv nm m s, da_parts (mkBlock tData w) n es mi c si sv nm m s /\
    v = mkDV (nkey nm) (mi_fields m) (ckey (blk_of c)) (si_fields s) (ekey sv).
Proof.
  intros w v. unfold da_reads. split.
  - destruct (da_decode (mkBlock tData w) da_empty) as [d [x|]] eqn:D; [discriminate|].
    intros [= <-]. apply da_decode_iff in D as (n & es & mi & c & si & sv & nm & m & s & P & ->).
    exists n, es, mi, c, si, sv, nm, m, s. split; auto.
  - intros (n & es & mi & c & si & sv & nm & m & s & P & ->).
    assert (D : da_decode (mkBlock tData w) da_empty = (mkData nm m (blk_of c) s (comp_of_elem sv) (Some (mkBlock tData w)) nm_empty, None)).
    { apply da_decode_iff. exists n, es, mi, c, si, sv, nm, m, s. split; auto. }
    rewrite D. reflexivity.
Qed.

Lemma parse_app : forall w1 es1 w2 es2, parseValue w1 = Ok es1 -> parseValue w2 = Ok es2 ->
  parseValue (w1 ++ w2) = Ok (es1 ++ es2).
Proof.
  intros w1 es1 w2 es2 P1 P2. apply parseValue_ok_iff in P1 as [W1 ->], P2 as [W2 ->].
  apply parseValue_ok_iff. rewrite map_app, concat_app, Forall_app. auto.
Qed.
Lemma seq_parse : forall l w, is_tlv_seq l w -> exists es, parseValue w = Ok es /\ map ekey es = l.
Proof.
  intros l w H. apply is_tlv_seq_elems in H as (es & W & -> & ->). exists es. split; auto.
  now apply parseValue_ok_iff.
Qed.

Lemma da_insert : forall l1 w1 l2 w2 t v x, l1 <> [] -> is_tlv_seq l1 w1 -> is_tlv_seq l2 w2 -> is_tlv t v x ->
  da_recognised t = false -> ~ critical t -> da_reads (w1 ++ x ++ w2) = da_reads (w1 ++ w2).
Proof.
  intros l1 w1 l2 w2 t v x NE S1 S2 Sx R NC.
  apply seq_parse in S1 as (es1 & P1 & K1). apply seq_parse in S2 as (es2 & P2 & K2).
  apply is_tlv_elem in Sx as (ex & Wx & Tx & _ & <-).
  assert (Px : parseValue (e_wire ex) = Ok [ex]).
  { apply parseValue_ok_iff. cbn. rewrite app_nil_r. auto. }
  destruct es1 as [|n a]; [now subst l1|].
  pose proof (parse_app _ _ _ _ P1 P2) as Pa.
  pose proof (parse_app _ _ _ _ P1 (parse_app _ _ _ _ Px P2)) as Pb. cbn [app] in Pa, Pb.
  apply option_ext. intro dv. rewrite !da_reads_iff.
  split; intros (n' & es & mi & c & si & sv & nm & m & s & (T & P & Dn & Ly & Dm & Ds) & ->);
    exists n; cbn [e_val mkBlock] in P.
  - assert (Ee : n' :: es = n :: a ++ ex :: es2) by congruence. injection Ee as -> ->.
    exists (a ++ es2), mi, c, si, sv, nm, m, s. split; auto. unfold da_parts. splits; auto.
    rewrite <- Tx in *. now apply layout_insert in Ly.
  - assert (Ee : n' :: es = n :: a ++ es2) by congruence. injection Ee as -> ->.
    exists (a ++ ex :: es2), mi, c, si, sv, nm, m, s. split; auto. unfold da_parts. splits; auto.
    rewrite <- Tx in *. now apply layout_insert.
Qed.

(* ---- C22 ---- *)
Lemma elems_of_ok : forall e es, parseValue (e_val e) = Ok es -> elems_of e = es.
Proof.
  intros e es P. unfold parseValue in P. unfold elems_of.
  destruct (parse_loop (S (length (e_val e))) (e_val e)) as [x []]; try discriminate. now apply Ok_inj in P.
Qed.

Lemma split_type_spec : forall t es a b, split_type t es = (a, b) ->
  es = a ++ b /\ Forall (fun e => e_type e <> t) a /\ match b with [] => True | x :: _ => e_type x = t end.
Proof.
  induction es as [|e es IH]; intros a b H; cbn in H.
  - injection H as <- <-. auto.
  - destruct (e_type e =? t) eqn:E.
    + injection H as <- <-. splits; auto. lia.
    + destruct (split_type t es) as [a' b'] eqn:Sp. injection H as <- <-.
      destruct (IH _ _ eq_refl) as (-> & F & T). splits; auto. constructor; auto. lia.
Qed.

Lemma app_unique : forall A (P : A -> Prop) X Y y z Z, Forall P X -> Forall P Y -> ~ P y -> ~ P z ->
  X ++ y :: Z = Y ++ [z] -> X = Y /\ y = z /\ Z = [].
Proof.
  induction X as [|x X IH]; intros Y y z Z FX FY Ny Nz H; destruct Y as [|w Y]; cbn in H.
  - injection H as -> ->. auto.
  - injection H as -> H. apply Forall_cons_iff in FY as [C _]. contradiction.
  - injection H as -> H. destruct X; discriminate.
  - injection H as -> H. apply Forall_cons_iff in FX as [_ FX]. apply Forall_cons_iff in FY as [_ FY].
    destruct (IH _ _ _ _ FX FY Ny Nz H) as (-> & ? & ?). auto.
Qed.

Lemma layout_split : forall mi c si sv es a b, da_layout mi c si sv es -> split_type tSignatureValue es = (a, b) ->
  filter recd a = opt_list mi ++ opt_list c ++ [si] /\ exists b', b = sv :: b'.
Proof.
  intros mi c si sv es a b (F & NC & T1 & T2 & T3 & T4) Sp. unfold recd. apply split_type_spec in Sp as (-> & Fa & Tb).
  rewrite filter_app in F. destruct b as [|y b].
  { exfalso. cbn in F. rewrite app_nil_r in F.
    assert (In sv (filter (fun e => da_recognised (e_type e)) a)) by (rewrite F, !in_app_iff; cbn; auto).
    apply filter_In in H as [H _]. rewrite Forall_forall in Fa. apply (Fa sv); auto. }
  cbn [filter] in F. rewrite Tb in F. change (da_recognised tSignatureValue) with true in F. cbv iota in F.
  change [si; sv] with ([si] ++ [sv]) in F. rewrite !app_assoc in F. rewrite <- (app_assoc (opt_list mi)) in F.
  apply (app_unique _ (fun e => e_type e <> 23)) in F.
  - destruct F as (F & -> & _). split; eauto.
  - apply Forall_filter_. exact Fa.
  - apply Forall_app. split; [|apply Forall_app; split].
    + destruct mi; constructor; auto. rewrite (T1 _ eq_refl). lia.
    + destruct c; constructor; auto. rewrite (T2 _ eq_refl). lia.
    + constructor; auto. lia.
  - intro C. apply C. exact Tb.
  - auto.
Qed.

(* the signed range of a decoded packet *)
Lemma da_range_decoded : forall e d d' n es mi c si sv nm m s, da_parts e n es mi c si sv nm m s ->
  d' = mkData nm m (blk_of c) s (comp_of_elem sv) (Some e) d ->
  da_signedRange d' = (d', Ok (concat (map e_wire (n :: fst (split_type 23 es))))).
Proof.
  intros e d d' n es mi c si sv nm m s (T & P & Dn & _) ->. unfold da_signedRange, da_encode. cbn [d_wire].
  rewrite (elems_of_ok _ _ P). cbn [split_type]. apply nm_decode_keys in Dn as (Tn & _).
  unfold tSignatureValue. destruct (e_type n =? 23) eqn:E; [lia|].
  destruct (split_type 23 es) as [a b]. cbn [fst]. reflexivity.
Qed.

Lemma opt_app_inj : forall mi c si mi' c' si',
  (forall e, mi = Some e -> e_type e = 20) -> (forall e, c = Some e -> e_type e = 21) -> e_type si = 22 ->
  (forall e, mi' = Some e -> e_type e = 20) -> (forall e, c' = Some e -> e_type e = 21) -> e_type si' = 22 ->
  opt_list mi ++ opt_list c ++ [si] = opt_list mi' ++ opt_list c' ++ [si'] -> mi = mi' /\ c = c' /\ si = si'.
Proof.
  intros mi c si mi' c' si' A1 A2 A3 B1 B2 B3 H.
  destruct mi as [x|], c as [y|], mi' as [x'|], c' as [y'|]; cbn in H; injection H; intros; subst; auto;
   try (specialize (A1 _ eq_refl)); try (specialize (A2 _ eq_refl)); try (specialize (B1 _ eq_refl));
   try (specialize (B2 _ eq_refl)); try congruence.
Qed.

Definition signed_view (d : data) := (nkey (d_name d), mi_fields (d_meta d), ckey (d_content d), si_fields (d_sinfo d)).

Lemma da_range_inj : forall e1 e2 d1 d2 r, da_decode e1 da_empty = (d1, None) -> da_decode e2 da_empty = (d2, None) ->
  snd (da_signedRange d1) = Ok r -> snd (da_signedRange d2) = Ok r -> signed_view d1 = signed_view d2.
Proof.
  intros e1 e2 d1 d2 r D1 D2 R1 R2.
  apply da_decode_iff in D1 as (n1 & es1 & mi1 & c1 & si1 & sv1 & nm1 & m1 & s1 & P1 & X1).
  apply da_decode_iff in D2 as (n2 & es2 & mi2 & c2 & si2 & sv2 & nm2 & m2 & s2 & P2 & X2).
  rewrite (da_range_decoded _ _ _ _ _ _ _ _ _ _ _ _ P1 X1) in R1. rewrite (da_range_decoded _ _ _ _ _ _ _ _ _ _ _ _ P2 X2) in R2.
  cbn [snd] in R1, R2. apply Ok_inj in R1, R2. rewrite <- R2 in R1. clear R2.
  destruct P1 as (_ & P1 & Dn1 & L1 & Dm1 & Ds1), P2 as (_ & P2 & Dn2 & L2 & Dm2 & Ds2).
  destruct (split_type 23 es1) as [a1 b1] eqn:S1. destruct (split_type 23 es2) as [a2 b2] eqn:S2. cbn [fst] in R1.
  destruct (layout_split _ _ _ _ _ _ _ L1 S1) as (F1 & _). destruct (layout_split _ _ _ _ _ _ _ L2 S2) as (F2 & _).
  apply parseValue_ok_iff in P1 as [W1 _], P2 as [W2 _].
  apply split_type_spec in S1 as (-> & _), S2 as (-> & _).
  apply concat_wire_inj in R1.
  - injection R1 as <- <-. rewrite F1 in F2.
    destruct L1 as (_ & _ & A1 & A2 & A3 & _), L2 as (_ & _ & B1 & B2 & B3 & _).
    apply opt_app_inj in F2; auto. destruct F2 as (-> & -> & ->).
    subst d1 d2. unfold signed_view. cbn [d_name d_meta d_content d_sinfo].
    destruct mi2 as [x|]; congruence.
  - apply Forall_cons_iff in W1 as [? W1]. apply Forall_app in W1 as [? _]. constructor; auto.
  - apply Forall_cons_iff in W2 as [? W2]. apply Forall_app in W2 as [? _]. constructor; auto.
Qed.

Lemma da_unsigned_inj : forall d1 d2 u, da_ok d1 -> da_ok d2 -> nlen u < two64 ->
  da_unsigned d1 = Ok u -> da_unsigned d2 = Ok u -> signed_view d1 = signed_view d2.
Proof.
  intros d1 d2 u O1 O2 L U1 U2.
  destruct (da_unsigned_elems d1 u O1 U1 L) as (n & nm & mie & m' & sie & s' & siv & Wn & Tn & Dn & Kn & Wm & Tm & Dm & Fm & Ws & Ts & Ds & Fs & _ & _ & Wc & Tc & E & _).
  destruct (da_unsigned_elems d2 u O2 U2 L) as (n2 & nm2 & mie2 & m2 & sie2 & s2 & siv2 & Wn2 & Tn2 & Dn2 & Kn2 & Wm2 & Tm2 & Dm2 & Fm2 & Ws2 & Ts2 & Ds2 & Fs2 & _ & _ & Wc2 & Tc2 & E2 & _).
  rewrite E in E2. apply concat_wire_inj in E2.
  - injection E2 as <- <- E2. unfold signed_view.
    assert (Kc : ckey (d_content d1) = ckey (d_content d2) /\ sie = sie2).
    { destruct O1 as (_ & _ & C1 & _), O2 as (_ & _ & C2 & _). unfold da_hasContent in *.
      destruct (blk_isValid (d_content d1)) eqn:V1, (blk_isValid (d_content d2)) eqn:V2; cbn [app] in E2.
      - pose proof (f_equal (hd sie) E2) as B. pose proof (f_equal (fun l => hd sie (tl l)) E2) as B2. cbn [hd tl] in B, B2.
        split; auto. rewrite <- (blk_elem_key (d_content d1)), <- (blk_elem_key (d_content d2)). now f_equal; f_equal.
      - exfalso. discriminate.
      - exfalso. discriminate.
      - injection E2 as ->. split; auto. destruct C1 as [->|[_ C1]], C2 as [->|[_ C2]]; auto;
          try (apply blk_isValid_ok in C1; congruence); try (apply blk_isValid_ok in C2; congruence). }
    destruct Kc as [-> ->]. congruence.
  - constructor; auto. constructor; auto. apply Forall_app. auto.
  - constructor; auto. constructor; auto. apply Forall_app. auto.
Qed.

Lemma da_sign_range : forall signer s d d' e, da_ok d -> si_ok s -> da_sign signer s d = (d', Ok e) ->
  exists u so, si_octets SiData s = Ok so /\
    u = nm_octets (d_name d) ++ mi_octets (d_meta d) ++
        (if da_hasContent d then blk_octets (d_content d) else []) ++ so /\
    da_signedRange d' = (d', Ok u) /\
    e_val e = u ++ tlv_enc tSignatureValue (signer u) /\
    ckey (d_sval d') = (23, signer u) /\ d_wire d' = Some e /\ 
    signed_view d' = (nkey (d_name d), mi_fields (d_meta d), ckey (d_content d), si_fields s) /\
    forall d0, da_decode e d0 = (d', None).
Proof.
  intros signer s d d' e O Os H. unfold da_sign in H.
  destruct (da_unsigned (da_setSignatureInfo s d)) as [u|] eqn:U; [|discriminate].
  pose proof U as U'. unfold da_unsigned in U'. inv_bind U'. apply Ok_inj in U'.
  unfold da_setSignatureInfo, da_hasContent, da_set in E, U'. cbn [d_sinfo d_name d_meta d_content] in E, U'.
  unfold da_finish in H. destruct (alloc (e_wire (mkBlock tData (u ++ tlv_enc tSignatureValue (signer u))))) eqn:A; [|discriminate].
  rewrite mkBlock_wire in A. apply alloc_ok in A as [_ A].
  destruct (da_decode (mkBlock tData (u ++ tlv_enc tSignatureValue (signer u))) (da_setSignatureInfo s d)) as [d2 [x|]] eqn:D; [discriminate|].
  injection H as <- <-.
  set (d1 := da_setSignatureInfo s d) in *.
  set (dv := mkData (d_name d) (d_meta d) (d_content d) s (mkComp 23 None (signer u)) None nm_empty).
  assert (Lu : nlen (u ++ tlv_enc tSignatureValue (signer u)) < two64) by (rewrite tlv_enc_len in A; lia).
  assert (Ls : nlen (signer u) < two64) by (rewrite nlen_app, tlv_enc_len in Lu; lia).
  assert (Ov : da_ok dv).
  { destruct O as (O1 & O2 & O3 & O4 & O5). unfold da_ok, dv. cbn. splits; auto. right. split; auto. apply blk_ok_bare; auto; reflexivity. }
  assert (V : da_value dv = Ok (u ++ tlv_enc tSignatureValue (signer u))).
  { assert (Uv : da_unsigned dv = Ok u) by exact U. unfold da_value. rewrite Uv. unfold dv. cbn [d_sinfo d_sval].
    unfold si_octets, si_value in E. destruct (si_type s); [reflexivity|discriminate]. }
  assert (Sv : blk_isValid (d_sval dv) = true) by reflexivity.
  destruct (da_decode_encoded dv _ (mkBlock tData (u ++ tlv_enc tSignatureValue (signer u))) d1 Ov V Lu Sv eq_refl eq_refl)
    as (d3 & D3 & F & Wd & Fl & O3).
  assert (d3 = d2) by congruence. subst d3.
  pose proof (f_equal v_sval F) as Fv. cbn [v_sval da_fields] in Fv.
  exists u, a. splits; auto.
  - (* range *)
    destruct (da_unsigned_elems dv u Ov U) as (n & nm & mie & m' & sie & s' & siv & Wn & Tn & Dn & Kn & Wm & Tm & Dm & Fm & Ws & Ts & Ds & Fs & _ & _ & Wc & Tc & Eu & _).
    { rewrite nlen_app in Lu. lia. }
    pose proof D as D'. apply da_decode_iff in D as (n1 & es1 & mi1 & c1 & si1 & sv1 & nm1 & m1 & s1 & P1 & X1).
    rewrite (da_range_decoded _ _ _ _ _ _ _ _ _ _ _ _ P1 X1). f_equal. f_equal.
    destruct P1 as (_ & P & Dn1 & Ly & _). cbn [e_val mkBlock] in P.
    apply parseValue_ok_iff in P as [W P].
    set (cs := if da_hasContent dv then [blk_elem (d_content dv)] else []) in *.
    assert (P' : concat (map e_wire ((n :: mie :: cs ++ [sie]) ++ [mkBlock tSignatureValue (signer u)])) = concat (map e_wire (n1 :: es1))).
    { rewrite <- P, map_app, concat_app, <- Eu. cbn [map concat]. now rewrite app_nil_r, mkBlock_wire. }
    apply concat_wire_inj in P'; auto.
    + injection P' as <- <-. rewrite Eu at 2.
      assert (Sp : split_type 23 ((mie :: cs ++ [sie]) ++ [mkBlock tSignatureValue (signer u)]) = (mie :: cs ++ [sie], [mkBlock tSignatureValue (signer u)])).
      { clear - Tm Tc Ts. assert (Forall (fun e => e_type e <> 23) (mie :: cs ++ [sie])) as F.
        { constructor; [lia|]. apply Forall_app. split; [|constructor; auto; lia]. eapply Forall_impl; [|exact Tc]. cbn. lia. }
        induction F as [|x l Hx F IH]; [reflexivity|]. cbn [app split_type]. destruct (e_type x =? 23) eqn:E; [lia|]. now rewrite IH. }
      cbn [app] in *. rewrite Sp. reflexivity.
    + apply Forall_app. split.
      * constructor; auto. constructor; auto. apply Forall_app. auto.
      * constructor; auto. apply mkBlock_wf; auto; reflexivity.
  - unfold signed_view. pose proof (f_equal v_name F). pose proof (f_equal v_meta F). pose proof (f_equal v_content F). pose proof (f_equal v_sinfo F).
    unfold dv in *. cbn [v_name v_meta v_content v_sinfo da_fields d_name d_meta d_content d_sinfo] in *. congruence.
  - intro d0. apply da_decode_iff. now apply da_decode_iff in D.
Qed.

(* ---- C23: MetaInfo ---- *)
Definition mi_inv (m : metainfo) : Prop := mi_ok m /\
  forall e, mi_wire m = Some e -> elem_wf e /\ e_type e = 20 /\
    exists m', mi_decode e mi_empty = (m', None) /\ mi_fields m' = mi_fields m.

Lemma mi_encode_inv : forall m e m', mi_inv m -> mi_encode m = Ok (e, m') ->
  mi_inv m' /\ mi_fields m' = mi_fields m /\ mi_wire m' = Some e.
Proof.
  intros m e m' [O I] H. unfold mi_encode in H. destruct (mi_wire m) as [w|] eqn:W.
  - apply Ok_inj in H. injection H as <- <-. split; [|split]; auto. split; auto. intros x Hx. rewrite W in Hx. now apply I.
  - inv_bind H. apply Ok_inj in H. assert (He : mkBlock tMetaInfo (mi_value m) = e) by congruence.
    assert (Hm : mi_setWire (Some (mkBlock tMetaInfo (mi_value m))) m = m') by congruence. clear H.
    apply alloc_ok in E as [_ L]. unfold mi_octets in L. rewrite tlv_enc_len in L.
    rewrite He in Hm. split; [|split]; try (subst m'; reflexivity). split; [subst m'; exact O|].
    intros x Hx. assert (x = e) by (subst m'; cbn in Hx; congruence). subst x. clear Hx.
    destruct (mi_round_trip m e O) as (m2 & D & F & _).
    { lia. } { now rewrite <- He. }
    splits.
    + rewrite <- He. apply mkBlock_wf; try reflexivity. lia.
    + now rewrite <- He.
    + exists m2. split; auto. subst m'. exact F.
Qed.

Lemma mi_app_ok : forall b, blk_ok b -> app_type_ok b = true -> blk_ok b /\ c_type b <> 24 /\ c_type b <> 25 /\ c_type b <> 26.
Proof. unfold app_type_ok. intros b B T. splits; auto; lia. Qed.

Lemma remove_first_spec : forall t l, match remove_first t l with
  | Some r => exists a k c, l = a ++ k :: c /\ c_type k = t /\ ~ In t (map c_type a) /\ r = a ++ c
  | None => ~ In t (map c_type l) end.
Proof.
  induction l as [|b l IH]; cbn; auto. destruct (c_type b =? t) eqn:E.
  - exists [], b, l. splits; auto. lia.
  - destruct (remove_first t l) as [r|].
    + destruct IH as (a & k & c & -> & T & N & ->). exists (b :: a), k, c. splits; auto. cbn. intros [C|C]; auto; lia.
    + intros [C|C]; auto; lia.
Qed.
Lemma map_fst_ckey : forall l, map fst (map ckey l) = map c_type l.
Proof. intro l. rewrite map_map. reflexivity. Qed.

Lemma mi_step_inv : forall op m, mi_inv m -> mi_op_ok op ->
  mi_inv (mi_step op m) /\ mi_effect op (mi_fields m) (mi_fields (mi_step op m)).
Proof.
  intros op m I A. pose proof I as [(O1 & O2 & O3 & O4) W].
  assert (K : forall t f c l, t < 2 ^ 32 -> f < 2 ^ 64 -> (forall x, c = Some x -> valid_key (ckey x)) ->
     Forall (fun b => blk_ok b /\ c_type b <> 24 /\ c_type b <> 25 /\ c_type b <> 26) l -> mi_inv (mkMI t f c l None)).
  { intros. split; [unfold mi_ok; cbn; splits; auto|]. cbn. discriminate. }
  destruct op as [t|f|c|l|b|t|]; unfold mi_fields; cbn [mi_step mi_effect mi_op_ok] in *.
  - split; [apply K; auto|reflexivity].
  - unfold mi_setFreshnessPeriod, MAX_MS in *. destruct (f <? 0)%Z eqn:E; cbn [fst]. { split; auto. } split; [|reflexivity]. apply K; auto; lia.
  - split; [apply K; auto|reflexivity]. intros x ->. exact A.
  - unfold mi_setAppMetaInfo. change (forallb (fun b : comp => (128 <=? c_type b) && (c_type b <=? 252)) l) with (forallb app_type_ok l).
    destruct (forallb app_type_ok l) eqn:E; cbn [fst]; (split; [|try reflexivity]); auto. apply K; auto.
    rewrite forallb_forall in E. rewrite Forall_forall in *. intros b Hb. apply mi_app_ok; auto.
  - unfold mi_addAppMetaInfo. change ((128 <=? c_type b) && (c_type b <=? 252)) with (app_type_ok b).
    destruct (app_type_ok b) eqn:E; cbn [fst]; (split; [|try reflexivity]); auto.
    + apply K; auto. apply Forall_app. split; auto. constructor; auto. now apply mi_app_ok.
    + unfold mi_fields. cbn. now rewrite map_app.
  - unfold mi_removeAppMetaInfo. pose proof (remove_first_spec t (mi_app m)) as R.
    destruct (remove_first t (mi_app m)) as [r|]; cbn [fst].
    + destruct R as (a & k & c & El & T & N & ->). rewrite El in *.
      apply Forall_app in O4 as [Fa Fc]. apply Forall_cons_iff in Fc as [_ Fc].
      split; [apply K; auto; apply Forall_app; auto|].
      left. exists (map ckey a), (ckey k), (map ckey c). splits; auto.
      * now rewrite map_app.
      * now rewrite map_fst_ckey.
      * unfold mi_fields. cbn. now rewrite map_app.
    + split; auto. right. split; auto. now rewrite map_fst_ckey.
  - destruct (mi_encode m) as [[e m']|] eqn:E; cbn [snd]; [|split; auto].
    apply mi_encode_inv in E; auto. destruct E as (I' & F & _). split; auto.
Qed.

Lemma mi_run_inv : forall ops m, mi_inv m -> Forall mi_op_ok ops -> mi_inv (mi_run ops m).
Proof.
  induction ops as [|op ops IH]; intros m I F; [exact I|]. apply Forall_cons_iff in F as [A F]. 
  unfold mi_run. cbn [fold_left]. apply IH; auto. now apply mi_step_inv.
Qed.
Lemma mi_empty_inv : mi_inv mi_empty.
Proof. split; [|discriminate]. unfold mi_ok. cbn. splits; auto; try lia; discriminate. Qed.

(* ---- SignatureInfo ---- *)
Definition si_inv (k : si_kind) (s : siginfo) : Prop := si_ok s /\
  forall e, si_wire s = Some e -> elem_wf e /\ e_type e = si_tlv k /\
    exists s', si_decode k e = (s', None) /\ si_fields s' = si_fields s.

Lemma si_tlv_range : forall k, 0 < si_tlv k /\ si_tlv k < two32.
Proof. intros []; split; reflexivity. Qed.

Lemma si_encode_inv : forall k s e s', si_inv k s -> si_encode k s = Ok (e, s') ->
  si_inv k s' /\ si_fields s' = si_fields s /\ si_wire s' = Some e.
Proof.
  intros k s e s' [O I] H. unfold si_encode in H. destruct (si_wire s) as [w|] eqn:W.
  - apply Ok_inj in H. injection H as <- <-. split; [|split]; auto. split; auto. intros x Hx. rewrite W in Hx. now apply I.
  - inv_bind H. inv_bind H. apply Ok_inj in H. assert (He : mkBlock (si_tlv k) a = e) by congruence.
    assert (Hm : si_setWire (Some (mkBlock (si_tlv k) a)) s = s') by congruence. clear H.
    apply alloc_ok in E0 as [_ L]. rewrite tlv_enc_len in L.
    rewrite He in Hm. split; [|split]; try (subst s'; reflexivity). split; [subst s'; exact O|].
    intros x Hx. assert (x = e) by (subst s'; cbn in Hx; congruence). subst x. clear Hx.
    destruct (si_round_trip k s a e O E) as (s2 & D & F & _).
    { lia. } { now rewrite <- He. } { now rewrite <- He. }
    splits.
    + rewrite <- He. apply mkBlock_wf; try apply si_tlv_range. lia.
    + now rewrite <- He.
    + exists s2. split; auto. subst s'. exact F.
Qed.

Lemma replace_first_spec : forall b l, match replace_first b l with
  | Some (r, ch) => put_first (ckey b) (map ckey l) (map ckey r) /\ (ch = false -> r = l) /\
                    (forall P : blk -> Prop, P b -> Forall P l -> Forall P r)
  | None => ~ In (c_type b) (map c_type l) end.
Proof.
  induction l as [|x l IH]; cbn [replace_first]; auto. destruct (c_type x =? c_type b) eqn:E.
  - destruct (comp_eqb x b) eqn:Q.
    + apply comp_eqb_eq in Q. splits; auto. left. exists [], (ckey b), (map ckey l). cbn. rewrite Q. splits; auto.
    + splits; try discriminate.
      * left. exists [], (ckey x), (map ckey l). cbn. splits; auto. lia.
      * intros P Pb F. apply Forall_cons_iff in F as [_ F]. auto.
  - destruct (replace_first b l) as [[r ch]|].
    + destruct IH as (Pf & H & Q). splits.
      * destruct Pf as [(a & y & c & El & T & N & Er)|[N Er]].
        { left. exists (ckey x :: a), y, c. cbn. rewrite El, Er. splits; auto. cbn. intros [C|C]; auto; lia. }
        { right. cbn. rewrite Er. split; auto. cbn. intros [C|C]; auto; lia. }
      * intro C. now rewrite (H C).
      * intros P Pb F. apply Forall_cons_iff in F as [? F]. constructor; auto.
    + cbn. intros [C|C]; auto; lia.
Qed.

Lemma si_add_inv : forall k b s, si_inv k s -> si_other_ok b -> si_inv k (si_addCustomTlv b s) /\
  exists l', put_first (ckey b) (map ckey (si_other s)) l' /\
    si_fields (si_addCustomTlv b s) = (si_type s, option_map kl_fields (si_key s), l').
Proof.
  intros k b s I B. pose proof I as [(O1 & O2 & O3) W]. unfold si_addCustomTlv.
  pose proof (replace_first_spec b (si_other s)) as R.
  destruct (replace_first b (si_other s)) as [[r ch]|].
  - destruct R as (Pf & H & Q). destruct ch.
    + split; [split; [unfold si_ok; cbn; splits; auto|discriminate]|]. exists (map ckey r). split; auto.
    + rewrite H in Pf by auto. split; auto. exists (map ckey (si_other s)). split; auto.
  - split; [split; [unfold si_ok; cbn; splits; auto|discriminate]|].
    + apply Forall_app. auto.
    + exists (map ckey (si_other s ++ [b])). split; auto. right. rewrite map_fst_ckey, map_app. auto.
Qed.

Lemma si_remove_inv : forall k t s, si_inv k s -> si_inv k (si_removeCustomTlv t s) /\
  si_fields (si_removeCustomTlv t s) = (si_type s, option_map kl_fields (si_key s), drop_type t (map ckey (si_other s))).
Proof.
  intros k t s I. pose proof I as [(O1 & O2 & O3) W]. unfold si_removeCustomTlv, drop_type. rewrite filter_map. cbn [ckey fst].
  destruct (existsb (fun b => c_type b =? t) (si_other s)) eqn:E.
  - split; [|reflexivity]. split; [unfold si_ok; cbn; splits; auto|discriminate]. now apply Forall_filter_.
  - split; auto. unfold si_fields. f_equal. f_equal. revert E. generalize (si_other s).
    induction l as [|x l IH]; cbn; auto. intro E. apply Bool.orb_false_iff in E as [-> E]. cbn. now rewrite <- IH.
Qed.

Lemma si_step_inv : forall k op s, si_inv k s -> si_op_ok op ->
  si_inv k (si_step k op s) /\ si_effect op (si_fields s) (si_fields (si_step k op s)).
Proof.
  intros k op s I A. pose proof I as [(O1 & O2 & O3) W].
  destruct op as [t|kl|n|t n|b|t|]; unfold si_fields; cbn [si_step si_effect si_op_ok] in *.
  - assert (R : si_inv k (mkSI (Some t) (si_key s) (si_other s) None)).
    { split; [unfold si_ok; cbn; splits; auto|discriminate]. intros ? [= <-]. exact A. }
    unfold si_setSignatureType, si_fields. destruct (si_type s) as [u|] eqn:E; [|split; auto].
    destruct (t =? u) eqn:Q; split; auto. rewrite E. f_equal. f_equal. f_equal. lia.
  - unfold si_setKeyLocator. destruct (optkl_eqb kl (si_key s)) eqn:E.
    + apply optkl_eqb_eq in E. rewrite E. split; auto.
    + split; [|reflexivity]. split; [unfold si_ok; cbn; splits; auto|discriminate]. intros ? ->. exact A.
  - destruct n as [v|]; cbn [si_setNonce].
    + destruct A as [Ne L]. apply (si_add_inv k (comp_of_elem (mkBlock tSignatureNonce v)) s I).
      unfold si_other_ok. splits; auto.
      * apply blk_ok_mk; auto; reflexivity.
      * left. cbn. intros [C|C]; [|discriminate]. unfold tSignatureNonce in C. lia.
    + now apply si_remove_inv.
  - destruct n as [v|]; cbn [si_setNumber].
    + destruct A as [T L]. destruct (si_add_inv k (comp_of_elem (mkNNIBlock t v)) s I) as [I' (l' & Pf & F)].
      { unfold si_other_ok. splits.
        - apply blk_ok_mk; try apply encNNI_small; destruct T as [-> | ->]; reflexivity.
        - left. cbn. intros [C|C]; destruct T as [-> | ->]; try discriminate; lia.
        - cbn. intros C. destruct T; lia. }
      split; auto. exists l', (encNNI v). splits; auto. now apply encNNI_shortest.
    + now apply si_remove_inv.
  - now apply si_add_inv.
  - now apply si_remove_inv.
  - destruct (si_encode k s) as [[e s']|] eqn:E; cbn [snd]; [|split; auto].
    apply si_encode_inv in E; auto. destruct E as (I' & F & _). split; auto.
Qed.
Lemma si_run_inv : forall k ops s, si_inv k s -> Forall si_op_ok ops -> si_inv k (si_run k ops s).
Proof.
  induction ops as [|op ops IH]; intros s I F; [exact I|]. apply Forall_cons_iff in F as [A F]. 
  unfold si_run. cbn [fold_left]. apply IH; auto. now apply si_step_inv.
Qed.
Lemma si_empty_inv : forall k, si_inv k si_empty.
Proof. split; [|discriminate]. unfold si_ok. cbn. splits; auto; discriminate. Qed.

(* ---- C24 ---- *)
Lemma ekeys_blk : forall l, map ekey (map blk_elem l) = map ckey l.
Proof. intro l. rewrite map_map. reflexivity. Qed.

Lemma mi_wire_format : forall m, mi_ok m -> nlen (mi_value m) < two64 ->
  exists l, is_tlv_seq l (mi_value m) /\ mi_layout (mi_fields m) l.
Proof.
  intros m O L. pose proof (mi_elems_wf m O L) as W. destruct O as (O1 & O2 & O3 & O4).
  exists (map ekey (mi_elems m)). split.
  { apply is_tlv_seq_elems. exists (mi_elems m). split; auto. split; [reflexivity|apply mi_value_elems]. }
  unfold mi_layout, mi_fields, mi_elems. rewrite !map_app, ekeys_blk.
  eexists _, _, _. split; [reflexivity|]. splits.
  - destruct (mi_type m =? 0) eqn:E; [left|right]; (split; [lia|]); [reflexivity|].
    exists (encNNI (mi_type m)). split; [apply encNNI_shortest; lia|reflexivity].
  - destruct (mi_fresh m =? 0) eqn:E; [left|right]; (split; [lia|]); [reflexivity|].
    exists (encNNI (mi_fresh m)). split; [apply encNNI_shortest; lia|reflexivity].
  - destruct (mi_final m) as [c|] eqn:E; cbn [option_map]; [|reflexivity].
    exists (comp_octets c). split; [|reflexivity]. specialize (O3 c eq_refl). destruct O3 as (V1 & V2 & _).
    pose proof (final_len m c E). pose proof (comp_val_len c).
    unfold ckey in *. cbn [fst snd] in *. apply tlv_enc_is; unfold two32; lia.
Qed.

Lemma kl_wire_format : forall k v, kl_ok k -> kl_value k = Ok v -> nlen v < two64 -> kl_layout (kl_fields k) v.
Proof.
  intros [l w] v O V L. unfold kl_value, kl_ok, kl_fields, kl_layout in *. cbn [kl_loc] in *.
  destruct l as [|n|b|t]; [..|discriminate]; apply Ok_inj in V.
  - auto.
  - subst v. now apply nm_octets_is.
  - destruct O as [T O]. split; [exact T|]. unfold ckey. cbn [snd]. rewrite <- V. unfold blk_ok in O. now rewrite T in O.
Qed.

Lemma si_wire_format : forall s v, si_ok s -> si_value s = Ok v -> nlen v < two64 ->
  exists l, is_tlv_seq l v /\ si_layout (si_fields s) l.
Proof.
  intros s v (O1 & O2 & O3) V L. apply si_value_inv in V as (t & klv & T & K & ->).
  specialize (O1 t T). set (el := si_elems t s klv) in *.
  assert (Lk : forall kv, klv = Some kv -> nlen kv < two64).
  { intros kv ->. unfold el, si_elems in L. cbn [map concat app] in L.
    rewrite nlen_app, mkBlock_wire, nlen_app, tlv_enc_len in L. lia. }
  assert (W : Forall elem_wf el).
  { unfold el, si_elems. constructor; [apply mkNNI_wf; reflexivity|]. apply Forall_app. split.
    - destruct klv as [kv|]; constructor; auto. apply mkBlock_wf; try reflexivity. now apply Lk.
    - apply blk_elems_wf. eapply Forall_impl; [|exact O3]. intros b (B & _). exact B. }
  exists (map ekey el). split.
  { apply is_tlv_seq_elems. exists el. auto. }
  unfold si_layout, si_fields. exists t, (encNNI t), (map ekey (match klv with Some v => [mkBlock tKeyLocator v] | None => [] end)).
  splits; auto.
  - apply encNNI_shortest. lia.
  - unfold el, si_elems. cbn [map]. now rewrite map_app, ekeys_blk.
  - destruct (si_key s) as [k|] eqn:Ek; cbn [option_map].
    + destruct K as (kv & Kv & ->). exists kv. split; [|reflexivity]. apply kl_wire_format; auto.
    + subst klv. reflexivity.
Qed.

Lemma mi_total : forall m, mi_ok m -> mi_wire m = None -> nlen (mi_octets m) <= MAX_BUFFER ->
  exists e m1 m', mi_encode m = Ok (e, m1) /\ mi_fields m1 = mi_fields m /\ 
    is_tlv 20 (e_val e) (e_wire e) /\ (exists l, is_tlv_seq l (e_val e) /\ mi_layout (mi_fields m) l) /\
    mi_decode e mi_empty = (m', None) /\ mi_fields m' = mi_fields m.
Proof.
  intros m O W L. unfold mi_encode, alloc. rewrite W. destruct (MAX_BUFFER <? nlen (mi_octets m)) eqn:E; [lia|].
  cbn [bind]. unfold mi_octets in L. rewrite tlv_enc_len in L.
  assert (Lv : nlen (mi_value m) < two64) by (unfold MAX_BUFFER, two64 in *; lia).
  destruct (mi_round_trip m (mkBlock tMetaInfo (mi_value m)) O Lv eq_refl) as (m' & D & F & _).
  exists (mkBlock tMetaInfo (mi_value m)), (mi_setWire (Some (mkBlock tMetaInfo (mi_value m))) m), m'.
  splits; auto.
  - apply (elem_wf_iff (mkBlock tMetaInfo (mi_value m))). apply mkBlock_wf; auto; reflexivity.
  - now apply mi_wire_format.
Qed.

Lemma kl_total : forall k, kl_ok k -> kl_wire k = None -> (forall t, kl_loc k <> KlOther t) ->
  (forall v, kl_value k = Ok v -> nlen (tlv_enc tKeyLocator v) <= MAX_BUFFER) ->
  exists e k1 k', kl_encode k = Ok (e, k1) /\ kl_fields k1 = kl_fields k /\
    is_tlv 28 (e_val e) (e_wire e) /\ kl_layout (kl_fields k) (e_val e) /\
    kl_decode e = Ok k' /\ kl_fields k' = kl_fields k.
Proof.
  intros k O W N L. unfold kl_encode. rewrite W.
  assert (exists v, kl_value k = Ok v) as [v V].
  { unfold kl_value. destruct (kl_loc k) eqn:E; eauto. exfalso. eapply N. eauto. }
  rewrite V. cbn [bind]. specialize (L v V). unfold alloc.
  destruct (MAX_BUFFER <? nlen (tlv_enc tKeyLocator v)) eqn:E; [lia|]. cbn [bind]. rewrite tlv_enc_len in L.
  assert (Lv : nlen v < two64) by (unfold MAX_BUFFER, two64 in *; lia).
  destruct (kl_round_trip k v (mkBlock tKeyLocator v) O V Lv eq_refl eq_refl) as (k' & D & F).
  exists (mkBlock tKeyLocator v), (mkKL (kl_loc k) (Some (mkBlock tKeyLocator v))), k'. splits; auto.
  - apply (elem_wf_iff (mkBlock tKeyLocator v)). apply mkBlock_wf; auto; reflexivity.
  - now apply kl_wire_format.
Qed.

Lemma si_total : forall k s, si_ok s -> si_wire s = None -> si_type s <> None ->
  (forall x t, si_key s = Some x -> kl_loc x <> KlOther t) ->
  (forall v, si_value s = Ok v -> nlen (tlv_enc (si_tlv k) v) <= MAX_BUFFER) ->
  exists e s1 s', si_encode k s = Ok (e, s1) /\ si_fields s1 = si_fields s /\
    is_tlv (si_tlv k) (e_val e) (e_wire e) /\ (exists l, is_tlv_seq l (e_val e) /\ si_layout (si_fields s) l) /\
    si_decode k e = (s', None) /\ si_fields s' = si_fields s.
Proof.
  intros k s O W T N L. unfold si_encode. rewrite W.
  assert (exists v, si_value s = Ok v) as [v V].
  { unfold si_value. destruct (si_type s); [|congruence].
    destruct (si_key s) as [x|] eqn:Ek; [|cbn; eauto]. unfold kl_value.
    specialize (fun t => N x t eq_refl). destruct (kl_loc x) eqn:El; cbn [bind]; eauto. exfalso. eapply N; eauto. }
  rewrite V. cbn [bind]. specialize (L v V). unfold alloc.
  destruct (MAX_BUFFER <? nlen (tlv_enc (si_tlv k) v)) eqn:E; [lia|]. cbn [bind]. rewrite tlv_enc_len in L.
  assert (Lv : nlen v < two64) by (unfold MAX_BUFFER, two64 in *; lia).
  destruct (si_round_trip k s v (mkBlock (si_tlv k) v) O V Lv eq_refl eq_refl) as (s' & D & F & _).
  exists (mkBlock (si_tlv k) v), (si_setWire (Some (mkBlock (si_tlv k) v)) s), s'. splits; auto.
  - apply (elem_wf_iff (mkBlock (si_tlv k) v)). apply mkBlock_wf; auto; apply si_tlv_range.
  - now apply si_wire_format.
Qed.

Lemma mi_history : forall ops m, Forall mi_op_ok ops -> m = mi_run ops mi_empty ->
  (forall e m', mi_encode m = Ok (e, m') -> is_tlv 20 (e_val e) (e_wire e) /\ mi_fields m' = mi_fields m /\
     exists m2, mi_decode e mi_empty = (m2, None) /\ mi_fields m2 = mi_fields m) /\
  (forall op, mi_op_ok op -> mi_effect op (mi_fields m) (mi_fields (mi_step op m))).
Proof.
  intros ops m F ->. pose proof (mi_run_inv ops _ mi_empty_inv F) as I. split.
  - intros e m' H. apply mi_encode_inv in H; auto. destruct H as ([O W] & Fm & We).
    destruct (W e We) as (Wf & T & m2 & D & F2). splits; auto.
    + rewrite <- T. now apply elem_wf_iff.
    + exists m2. split; auto. congruence.
  - intros op A. now apply mi_step_inv.
Qed.
Lemma si_history : forall k ops s, Forall si_op_ok ops -> s = si_run k ops si_empty ->
  (forall e s', si_encode k s = Ok (e, s') -> is_tlv (si_tlv k) (e_val e) (e_wire e) /\ si_fields s' = si_fields s /\
     exists s2, si_decode k e = (s2, None) /\ si_fields s2 = si_fields s) /\
  (forall op, si_op_ok op -> si_effect op (si_fields s) (si_fields (si_step k op s))).
Proof.
  intros k ops s F ->. pose proof (si_run_inv k ops _ (si_empty_inv k) F) as I. split.
  - intros e s' H. apply si_encode_inv in H; auto. destruct H as ([O W] & Fm & We).
    destruct (W e We) as (Wf & T & s2 & D & F2). splits; auto.
    + rewrite <- T. now apply elem_wf_iff.
    + exists s2. split; auto. congruence.
  - intros op A. now apply si_step_inv.
Qed.

(* ---- C20 ---- *)
Lemma da_round_trip : forall d, da_ok d -> d_wire d = None -> si_type (d_sinfo d) <> None ->
  (forall k t, si_key (d_sinfo d) = Some k -> kl_loc k <> KlOther t) -> blk_isValid (d_sval d) = true ->
  (forall v, da_value d = Ok v -> nlen (tlv_enc tData v) <= MAX_BUFFER) ->
  exists d1 e, da_encode d = (d1, Ok e) /\ is_tlv 6 (e_val e) (e_wire e) /\ da_fields d1 = da_fields d /\
    blockFromWire (e_wire e) = Ok e /\
    forall d0, exists d2, da_decode e d0 = (d2, None) /\ da_fields d2 = da_fields d /\ da_encode d2 = (d2, Ok e).
Proof.
  intros d O W T K Sv L. destruct (da_encode_total d O W T K Sv L) as (d1 & e & E).
  destruct (da_encode_fresh d d1 e O W E) as (F & Wd & _ & _ & We & Te & V & D).
  exists d1, e. splits; auto.
  - rewrite <- Te. now apply elem_wf_iff.
  - now apply blockFromWire_wf.
  - intro d0. exists d1. splits; auto. unfold da_encode. now rewrite Wd.
Qed.
Lemma da_reencode : forall e d0 d, da_decode e d0 = (d, None) -> da_encode d = (d, Ok e).
Proof.
  intros e d0 d H. apply da_decode_iff in H as (n & es & mi & c & si & sv & nm & m & s & _ & ->). reflexivity.
Qed.

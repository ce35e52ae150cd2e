(* Proofs of C23 for Data objects. *)
From Coq Require Import Lia ZifyBool ZifyNat ZifyN.
From Verif Require Import Base BaseLemmas M_Tlv P_Tlv S_Tlv P_Block M_Str M_Name S_Name P_Name P_NameUri M_Packet S_Packet P_Packet P_Data P_DataT.

Section Hist.
Variable sha256 : bytes -> bytes.
Hypothesis sha_len : forall b, nlen (sha256 b) = 32.

Definition wire_ok (d : data) : Prop :=
  match d_wire d with
  | None => n_comps (d_full d) = []
  | Some e => elem_wf e /\ e_type e = 6 /\
      (forall d0, exists d1, da_decode e d0 = (d1, None) /\ da_fields d1 = da_fields d) /\
      (n_comps (d_full d) = [] \/ nkey (d_full d) = nkey (d_name d) ++ [(1, sha256 (e_wire e))])
  end.
Definition da_inv (d : data) : Prop := da_ok d /\ wire_ok d.

Lemma da_decoded_inv : forall e d0 d, elem_wf e -> da_decode e d0 = (d, None) -> mi_ok (d_meta d) ->
  da_inv d /\ d_wire d = Some e /\ d_full d = nm_empty.
Proof.
  intros e d0 d W D M. pose proof D as D'.
  apply da_decode_iff in D as (n & es & mi & c & si & sv & nm & m & s & P & ->).
  destruct P as (T & P & Dn & Ly & Dm & Ds). cbn [d_meta] in M.
  pose proof Ly as (F & NC & T1 & T2 & T3 & T4).
  apply parseValue_ok_iff in P as [Wes _]. apply Forall_cons_iff in Wes as [Wn Wes].
  assert (In' : forall x, In x (opt_list mi ++ opt_list c ++ [si; sv]) -> elem_wf x).
  { intros x Hx. rewrite <- F in Hx. apply filter_In in Hx as [Hx _]. rewrite Forall_forall in Wes. auto. }
  split; [|split; reflexivity]. split.
  - unfold da_ok. cbn [d_name d_meta d_content d_sinfo d_sval]. splits; auto.
    + now apply nm_decode_ok in Dn.
    + destruct c as [x|]; [right|left; reflexivity]. cbn. split; auto. apply blk_ok_elem, In'. rewrite !in_app_iff. cbn. auto.
    + apply si_decode_ok in Ds as [Ds _]. exact Ds.
    + right. cbn. split; auto. apply blk_ok_elem, In'. rewrite !in_app_iff. cbn. auto.
  - unfold wire_ok. cbn [d_wire d_full]. splits; auto.
    intro d1. exists (mkData nm m (blk_of c) s (comp_of_elem sv) (Some e) nm_empty). split; auto.
    apply da_decode_iff. apply da_decode_iff in D'. exact D'.
Qed.

Lemma da_encode_inv : forall d d' e, da_inv d -> da_encode d = (d', Ok e) ->
  da_inv d' /\ da_fields d' = da_fields d /\ d_wire d' = Some e.
Proof.
  intros d d' e [O W] H. destruct (d_wire d) as [w|] eqn:E.
  - unfold da_encode in H. rewrite E in H. injection H as <- <-. splits; auto. split; auto.
  - destruct (da_encode_fresh d d' e O E H) as (F & Wd & Fl & O' & We & Te & V & D). splits; auto. split; auto.
    unfold wire_ok. rewrite Wd. splits; auto.
    + intro d0. exists d'. auto.
    + left. now rewrite Fl.
Qed.

Lemma da_range_wire : forall d d' r, da_signedRange d = (d', r) -> (exists e, da_encode d = (d', Ok e)) \/ (exists x, da_encode d = (d', Err x) /\ r = Err x).
Proof.
  intros d d' r H. unfold da_signedRange in H. destruct (da_encode d) as [d1 [e|x]] eqn:E.
  - destruct (fst (split_type tSignatureValue (elems_of e))); injection H as <- _; eauto.
  - injection H as <- <-. eauto.
Qed.

Lemma comp_sha' : forall b, exists c, comp_ofBuffer tImplicitSha256DigestComponent (sha256 b) = Ok c /\ ckey c = (1, sha256 b).
Proof.
  intro b. exists (mkComp 1 None (sha256 b)). split; [|reflexivity].
  unfold comp_ofBuffer, ensureValid, comp_valid. cbn [c_type c_val]. rewrite sha_len. reflexivity.
Qed.

Lemma full_ok : forall d d' r, da_inv d -> da_getFullName sha256 d = (d', r) ->
  da_inv d' /\ da_fields d' = da_fields d /\ d_wire d' = d_wire d /\
  forall n, r = Ok n -> exists e, d_wire d = Some e /\ nkey n = nkey (d_name d) ++ [(1, sha256 (e_wire e))].
Proof.
  intros d d' r [O W] H. unfold da_getFullName in H. pose proof W as W'. unfold wire_ok in W'.
  destruct (n_comps (d_full d)) as [|c0 cs] eqn:Ef.
  - destruct (d_wire d) as [e|] eqn:Ew.
    + destruct (comp_sha' (e_wire e)) as (c & Ec & Kc). rewrite Ec in H. injection H as <- <-.
      destruct W' as (We & Te & D & _).
      assert (Kn : nkey (nm_append c (d_name d)) = nkey (d_name d) ++ [(1, sha256 (e_wire e))]).
      { unfold nkey, nm_append. cbn [n_comps]. rewrite map_app. cbn. now rewrite Kc. }
      splits; auto.
      * split; [exact O|]. unfold wire_ok. cbn [d_wire d_full d_name]. splits; auto.
      * intros n [= <-]. exists e. split; auto.
    + injection H as <- <-. splits; auto. { split; auto. } discriminate.
  - injection H as <- <-. splits; auto. { split; auto. }
    intros n [= <-]. destruct (d_wire d) as [e|]; [|discriminate].
    destruct W' as (_ & _ & _ & [C|K]); [discriminate|]. exists e. auto.
Qed.

Lemma da_set_inv : forall n m c s v, da_ok (mkData n m c s v None nm_empty) -> da_inv (da_set n m c s v).
Proof. intros. split; auto. reflexivity. Qed.

Lemma da_sign_inv : forall signer s d d' e, da_ok d -> si_ok s -> da_sign signer s d = (d', Ok e) -> da_inv d'.
Proof.
  intros signer s d d' e O Os H.
  destruct (da_sign_range _ _ _ _ _ O Os H) as (u & so & _ & _ & _ & V & _ & Wd & Sv & D).
  unfold da_sign in H. destruct (da_unsigned (da_setSignatureInfo s d)) as [u'|] eqn:U; [|discriminate].
  unfold da_finish in H.
  set (e' := mkBlock tData (u' ++ tlv_enc tSignatureValue (signer u'))) in *.
  destruct (alloc (e_wire e')) eqn:A; [|discriminate].
  unfold e' in A. rewrite mkBlock_wire in A. apply alloc_ok in A as [_ A].
  destruct (da_decode e' (da_setSignatureInfo s d)) as [d2 [x|]] eqn:D2; [discriminate|].
  assert (He : e' = e) by congruence. assert (d2 = d') by congruence. subst d2.
  assert (We : elem_wf e).
  { rewrite <- He. apply mkBlock_wf; try reflexivity. rewrite tlv_enc_len in A. lia. }
  eapply da_decoded_inv in D2 as (I & _); eauto. { now rewrite He. }
  destruct O as (_ & Om & _).
  pose proof D as D3. specialize (D3 da_empty). apply da_decode_iff in D3 as (n1 & es1 & mi1 & c1 & si1 & sv1 & nm1 & m1 & s1 & P1 & X1).
  destruct P1 as (_ & P & _ & Ly & Dm & _). subst d'. cbn [d_meta].
  unfold signed_view in Sv. cbn [d_name d_meta d_content d_sinfo] in Sv.
  assert (Fm : mi_fields m1 = mi_fields (d_meta d)) by congruence.
  destruct mi1 as [x|].
  - eapply mi_ok_types; eauto.
    + apply parseValue_ok_iff in P as [Wes _]. apply Forall_cons_iff in Wes as [_ Wes]. destruct Ly as (F & _).
      assert (In x (filter (fun e => da_recognised (e_type e)) es1)) as Hx by (rewrite F; cbn; auto).
      apply filter_In in Hx as [Hx _]. rewrite Forall_forall in Wes. auto.
    + unfold mi_fields in Fm. congruence.
  - subst m1. apply mi_empty_inv.
Qed.

Lemma da_reads_decode : forall e d d', da_decode e d = (d', None) -> da_reads (e_val e) = Some (da_fields d').
Proof.
  intros e d d' D. apply da_decode_iff in D as (n & es & mi & c & si & sv & nm & m & s & P & ->).
  apply da_reads_iff. exists n, es, mi, c, si, sv, nm, m, s. split; auto.
  destruct P as (T & P & R). split; auto.
Qed.

Lemma da_step_inv : forall op d d', da_inv d -> da_op_ok op -> da_step sha256 op d = (d', None) ->
  da_inv d' /\ da_effect op (da_fields d) (da_fields d').
Proof.
  intros op d d' I A H. pose proof I as [(O1 & O2 & O3 & O4 & O5) W].
  destruct op as [n|m|b|v|v| |s|v|v|t|f|c| | | |signer s|e]; cbn [da_step da_op_ok] in *;
    unfold da_fields at 1; cbn [da_effect]; unfold mi_fields; cbv beta iota zeta.
  - injection H as <-. unfold da_setName. destruct (nm_equals n (d_name d)) eqn:E.
    + split; auto. apply nm_equals_iff in E. rewrite E. reflexivity.
    + split; [|reflexivity]. apply da_set_inv. unfold da_ok; cbn; splits; auto.
  - injection H as <-. split; [|reflexivity]. apply da_set_inv. unfold da_ok; cbn; splits; auto.
  - unfold da_setContentBlock in H. destruct A as [B L]. rewrite blk_isValid_ok in H by exact B. cbn [negb] in H.
    injection H as <-. change (c_type b =? tContent) with (c_type b =? 21). destruct (c_type b =? 21) eqn:E.
    + split.
      * apply da_set_inv. unfold da_ok; cbn [d_name d_meta d_content d_sinfo d_sval]; splits; auto. right.
        unfold blk_encode. destruct (c_hdr b) eqn:Eh; [split; auto; lia|]. cbn. split; [lia|].
        assert (c_type b = 21) as -> by lia. apply blk_ok_mk; try reflexivity.
        unfold blk_octets in L; rewrite Eh in L; rewrite tlv_enc_len in L; unfold two64; lia.
      * unfold da_fields. cbn. unfold blk_encode. f_equal. destruct (c_hdr b); unfold ckey; cbn; f_equal; lia.
    + split; [|reflexivity]. apply da_set_inv. unfold da_ok; cbn [d_name d_meta d_content d_sinfo d_sval]; splits; auto. right.
      split; auto. apply blk_ok_mk; auto; reflexivity.
  - injection H as <-. split; [|reflexivity]. apply da_set_inv. unfold da_ok; cbn [d_name d_meta d_content d_sinfo d_sval]; splits; auto. right.
    split; auto. apply blk_ok_mk; auto; reflexivity.
  - injection H as <-. split; [|reflexivity]. apply da_set_inv. unfold da_ok; cbn [d_name d_meta d_content d_sinfo d_sval]; splits; auto. right.
    split; auto. apply blk_ok_bare; auto; reflexivity.
  - injection H as <-. unfold da_unsetContent. destruct (blk_isValid (d_content d)) eqn:E.
    + split; [|reflexivity]. apply da_set_inv. unfold da_ok; cbn; splits; auto. left. reflexivity.
    + split; auto. destruct O3 as [Oc|[_ Oc]]; [|apply blk_isValid_ok in Oc; congruence]. unfold da_fields. rewrite Oc. reflexivity.
  - injection H as <-. split; [|reflexivity]. apply da_set_inv. unfold da_ok; cbn; splits; auto.
  - injection H as <-. split; [|reflexivity]. apply da_set_inv. unfold da_ok; cbn [d_name d_meta d_content d_sinfo d_sval]; splits; auto. right.
    split; auto. apply blk_ok_mk; auto; reflexivity.
  - injection H as <-. split; [|reflexivity]. apply da_set_inv. unfold da_ok; cbn [d_name d_meta d_content d_sinfo d_sval]; splits; auto. right.
    split; auto. apply blk_ok_bare; auto; reflexivity.
  - injection H as <-. unfold da_setContentType. destruct (t =? mi_type (d_meta d)) eqn:E.
    + split; auto. assert (t = mi_type (d_meta d)) as -> by lia. reflexivity.
    + split; [|reflexivity]. apply da_set_inv. destruct O2 as (M1 & M2 & M3 & M4). unfold da_ok, mi_ok; cbn; splits; auto.
  - unfold da_setFreshnessPeriod in H. destruct (f =? mi_getFreshnessPeriod (d_meta d))%Z eqn:E.
    + injection H as <-. split; auto. exists (mi_fresh (d_meta d)). unfold mi_getFreshnessPeriod, MAX_MS in E.
      splits; auto; destruct (9223372036854775807 <? Z.of_N (mi_fresh (d_meta d)))%Z eqn:Q; lia.
    + unfold mi_setFreshnessPeriod in H. destruct (f <? 0)%Z eqn:Q; [discriminate|]. injection H as <-.
      unfold MAX_MS in A. split.
      * apply da_set_inv. destruct O2 as (M1 & M2 & M3 & M4). unfold da_ok, mi_ok; cbn; splits; auto. lia.
      * exists (Z.to_N f). splits; try reflexivity; lia.
  - injection H as <-. unfold da_setFinalBlock. destruct (optcomp_eqb c (mi_final (d_meta d))) eqn:E.
    + split; auto. assert (option_map ckey c = option_map ckey (mi_final (d_meta d))) as ->; [|reflexivity].
      destruct c as [x|], (mi_final (d_meta d)) as [y|]; cbn in E |- *; try discriminate; auto.
      apply comp_eqb_eq in E. now rewrite E.
    + split; [|reflexivity]. apply da_set_inv. destruct O2 as (M1 & M2 & M3 & M4). unfold da_ok, mi_ok; cbn; splits; auto.
      intros x ->. exact A.
  - destruct (da_encode d) as [d1 [e|x]] eqn:E; [|discriminate]. injection H as <-.
    apply da_encode_inv in E; auto. destruct E as (I' & F & _). split; auto.
  - destruct (da_getFullName sha256 d) as [d1 r] eqn:E. injection H as <- _.
    apply full_ok in E; auto. destruct E as (I' & F & _). split; auto.
  - destruct (da_signedRange d) as [d1 r] eqn:E. injection H as <- Hr.
    apply da_range_wire in E as [[e E]|(x & E & Er)].
    + apply da_encode_inv in E; auto. destruct E as (I' & F & _). split; auto.
    + rewrite Er in Hr. discriminate.
  - destruct (da_sign signer s d) as [d1 [e|x]] eqn:E; [|discriminate]. injection H as <-.
    assert (O : da_ok d) by (unfold da_ok; splits; auto).
    split; [now apply da_sign_inv in E|].
    destruct (da_sign_range _ _ _ _ _ O A E) as (u & so & _ & _ & _ & _ & Ks & _ & Sv & _). exists u.
    unfold signed_view in Sv. unfold da_fields. unfold mi_fields in *. cbn [v_meta]. rewrite Ks. congruence.
  - destruct A as [Te Mo]. apply elem_wf_iff in Te. split.
    + assert (D0 : da_decode e da_empty = (d', None)) by (apply da_decode_iff; now apply da_decode_iff in H).
      apply Mo in D0. now apply da_decoded_inv in H.
    + now apply da_reads_decode in H.
Qed.

Lemma da_run_inv : forall ops d, da_inv d -> Forall da_op_ok ops -> clean sha256 ops d -> da_inv (da_run sha256 ops d).
Proof.
  induction ops as [|op ops IH]; intros d I F C; [exact I|]. apply Forall_cons_iff in F as [A F].
  destruct C as [C1 C2]. unfold da_run. cbn [fold_left]. apply IH; auto.
  destruct (da_step sha256 op d) as [d' [x|]] eqn:E; cbn [fst snd] in *.
  - destruct C1 as [C1|C1]; [discriminate|]. now rewrite C1.
  - now apply da_step_inv in E.
Qed.

Lemma da_of_inv : forall n, Forall ctype_ok (n_comps n) -> da_inv (da_of n).
Proof.
  intros n F. split; [|reflexivity]. unfold da_ok. cbn [d_name d_meta d_content d_sinfo d_sval da_of]. splits; auto.
  - apply mi_empty_inv.
  - left. reflexivity.
  - apply (si_empty_inv SiData).
  - left. reflexivity.
Qed.

Lemma da_history : forall ops n d, Forall ctype_ok (n_comps n) -> Forall da_op_ok ops -> clean sha256 ops (da_of n) ->
  d = da_run sha256 ops (da_of n) ->
  (forall d' e, da_encode d = (d', Ok e) -> is_tlv 6 (e_val e) (e_wire e) /\ da_fields d' = da_fields d /\
     forall d0, exists d1, da_decode e d0 = (d1, None) /\ da_fields d1 = da_fields d) /\
  (forall d' nm, da_getFullName sha256 d = (d', Ok nm) -> exists e, da_encode d = (d, Ok e) /\
     nkey nm = nkey (d_name d) ++ [(1, sha256 (e_wire e))]) /\
  (forall op d', da_op_ok op -> da_step sha256 op d = (d', None) -> da_effect op (da_fields d) (da_fields d')).
Proof.
  intros ops n d F A C ->. pose proof (da_run_inv ops _ (da_of_inv n F) A C) as I. set (d := da_run sha256 ops (da_of n)) in *.
  splits.
  - intros d' e H. apply da_encode_inv in H; auto. destruct H as ([O W] & Fd & Wd). unfold wire_ok in W. rewrite Wd in W.
    destruct W as (We & Te & D & _). splits; auto.
    + rewrite <- Te. now apply elem_wf_iff.
    + now rewrite <- Fd.
  - intros d' nm H. apply full_ok in H; auto. destruct H as (_ & _ & _ & H). destruct (H nm eq_refl) as (e & Ew & K).
    exists e. split; auto. unfold da_encode. now rewrite Ew.
  - intros op d' Ao H. now apply da_step_inv in H.
Qed.
End Hist.

(* Interests reached by setters only. *)
From Coq Require Import Lia ZifyBool ZifyNat ZifyN.
From Verif Require Import Base BaseLemmas M_Tlv P_Tlv S_Tlv P_Block M_Str M_Name S_Name P_Name P_NameUri M_Packet S_Packet P_Packet P_Data P_DataT.
From Verif Require Import M_Interest S_Interest P_Interest P_InterestD P_InterestT P_InterestH.

Section WithSha.
Variable sha256 : bytes -> bytes.
Hypothesis sha_len : forall b, nlen (sha256 b) = 32.
Notation dok := (digest_ok sha256).

Definition weak (i : interest) : Prop := in_ok i /\ (length (digests (nkey (i_name i))) <= 1)%nat /\ i_wire i = None.

Lemma weak_refresh : forall i p, weak i -> params_ok p -> p <> [] -> weak (fst (in_refreshDigest sha256 (in_setP p i))).
Proof.
  intros i p (O & D & W) Pp NP.
  destruct (refresh_spec sha256 sha_len (in_setP p i)) as (n' & R & _ & C & Dd); auto; [apply O|].
  rewrite R. cbn [fst]. destruct O as (O1 & O2 & O3 & O4 & O5). unfold weak, in_ok.
  cbn [in_setW in_setN in_setP i_name i_fh i_nonce i_life i_params i_wire] in *. splits; auto.
  unfold digest_ok in Dd. rewrite Dd. destruct p; cbn; lia.
Qed.
Lemma weak_upd : forall i cbp mbf fh nonce life hop, weak i ->
  Forall (fun n => Forall ctype_ok (n_comps n)) fh -> (forall x, nonce = Some x -> nlen x = 4) -> life < two64 ->
  weak (mkInt (i_name i) cbp mbf fh nonce life hop (i_params i) None).
Proof.
  intros i cbp mbf fh nonce life hop ((O1 & O2 & O3 & O4 & O5) & D1 & _) Hf Hn Hl. unfold weak, in_ok. cbn. splits; auto.
Qed.
Lemma weak_params : forall p i, weak i -> elem_ok p -> e_type p = 36 -> weak (fst (in_setParamsInternal sha256 p i)).
Proof.
  intros p i H Wp Tp. pose proof H as ((_ & _ & _ & _ & Pp) & _). unfold in_setParamsInternal.
  destruct (i_params i) as [|q r] eqn:P.
  - apply weak_refresh; auto; [cbn; splits; auto|discriminate].
  - destruct (negb _); [exact H|]. apply weak_refresh; auto; [|discriminate]. destruct Pp as (_ & _ & F). cbn. splits; auto.
Qed.

Lemma weak_step : forall op i, weak i -> in_op_ok op -> in_setter op = true -> weak (fst (in_step sha256 op i)).
Proof.
  intros op i H O S0. pose proof H as ((O1 & O2 & O3 & O4 & O5) & D1 & W).
  destruct op as [n|b|b|l|r|x|rs|t|h|b|v| |s|v|r|r|e]; cbn [in_step in_op_ok in_setter fst] in *; try discriminate.
  - unfold in_setName. pose proof (digestIndex_spec n) as D.
    assert (Dn : digestIndex n = DMany \/ (length (digests (nkey n)) <= 1)%nat).
    { destruct (digestIndex n); auto; right; [rewrite D; cbn; lia|]. destruct D as (? & ? & ? & _ & _ & _ & _ & _ & ->). cbn; lia. }
    assert (G : (length (digests (nkey n)) <= 1)%nat -> weak (fst (if nm_equals n (i_name i) then (i, None) else let i1 := in_setN n i in if in_hasParams i1 then in_refreshDigest sha256 i1 else (in_setW None i1, None)))).
    { intro Dl. destruct (nm_equals n (i_name i)); [exact H|]. cbv zeta. destruct (in_hasParams (in_setN n i)) eqn:P.
      - assert (Ep : in_setN n i = in_setP (i_params i) (in_setN n i)) by (destruct i; reflexivity). rewrite Ep. apply weak_refresh; auto.
        + unfold weak, in_ok. cbn. splits; auto.
        + intro Z. unfold in_hasParams in P. cbn in P. rewrite Z in P. discriminate.
      - unfold weak, in_ok. cbn. splits; auto. }
    clear D. destruct (digestIndex n); [apply G|exact H|apply G]; destruct Dn; auto; discriminate.
  - unfold in_setCanBePrefix. destruct (Bool.eqb b (i_cbp i)); auto. apply weak_upd; auto.
  - unfold in_setMustBeFresh. destruct (Bool.eqb b (i_mbf i)); auto. apply weak_upd; auto.
  - apply weak_upd; auto.
  - unfold in_getNonce. destruct (i_nonce i) eqn:E; cbn [fst]; auto. apply weak_upd; auto. intros x [= <-]; auto.
  - unfold in_setNonce. destruct (optbytes_eqb x (i_nonce i)); auto. apply weak_upd; auto.
  - unfold in_refreshNonce. destruct (i_nonce i) as [o|] eqn:E; auto.
    destruct (List.find _ rs) as [r|] eqn:Fi; auto.
    apply List.find_some in Fi as [Ir Nr]. rewrite Forall_forall in O. apply weak_upd; auto. intros x [= <-]. auto.
  - unfold in_setLifetime. destruct (t <? 0)%Z eqn:Lt; auto. destruct (N.eqb_spec (Z.to_N t) (i_life i)); auto.
    apply weak_upd; auto; unfold MAX_MS, two64 in *; lia.
  - unfold in_setHopLimit. destruct (optbyte_eqb h (i_hop i)); auto. apply weak_upd; auto.
  - destruct O as [Ob Lb]. unfold in_setParamsBlock. rewrite blk_isValid_ok by exact Ob. cbn [negb].
    destruct (N.eqb_spec (c_type b) tApplicationParameters) as [E|E].
    + apply weak_params; auto.
      * unfold elem_ok. unfold blk_ok in Ob. destruct b as [ty [hh|] vv]; [exact Ob|].
        change (is_tlv ty vv (e_wire (mkBlock ty vv))). rewrite mkBlock_wire. exact Ob.
      * destruct b as [ty [hh|] vv]; cbn in *; auto.
    + apply weak_params; auto. apply elem_wf_iff, mkBlock_wf; auto; reflexivity.
  - apply weak_params; auto. apply elem_wf_iff, mkBlock_wf; auto; reflexivity.
  - unfold in_unsetParams. pose proof (digestIndex_spec (i_name i)) as D.
    destruct (digestIndex (i_name i)) as [| |k]; [|lia|destruct D as (a & c & b & E & -> & Dc & Da & Db & Dn)].
    + unfold weak, in_ok. cbn. splits; auto.
    + unfold nm_erase. rewrite nm_index_nat by (rewrite E, app_length; cbn; lia).
      rewrite E in *. rewrite firstn_app, Nat.sub_diag, firstn_O, app_nil_r, firstn_all.
      assert (Sk : skipn (S (length a)) (a ++ c :: b) = b).
      { rewrite skipn_app. rewrite skipn_all2 by lia. replace (S (length a) - length a)%nat with 1%nat by lia. reflexivity. }
      rewrite Sk. apply Forall_app in O1 as [Oa Ob]. apply Forall_cons_iff in Ob as [_ Ob].
      unfold weak, in_ok. cbn [fst in_setW in_setN in_setP i_name i_fh i_nonce i_life i_params i_wire n_comps].
      splits; auto; [apply Forall_app; auto|].
      unfold nkey. cbn [n_comps]. rewrite map_app, digests_app, Da, Db. cbn. lia.
  - unfold in_setSigInfo.
    set (i1 := match i_params i with [] => in_setP [mkEmptyBlock tApplicationParameters] i | _ => i end) in *.
    assert (Q : weak i1 /\ i_params i1 <> []).
    { unfold i1. destruct (i_params i) eqn:P; [|split; [exact H|now rewrite P]]. split; [|discriminate].
      unfold weak, in_ok. cbn [in_setP i_name i_fh i_nonce i_life i_params i_wire]. splits; auto.
      cbn. splits; auto. apply elem_wf_iff, mkBlock_wf; reflexivity. }
    destruct Q as [H1 NE]. pose proof H1 as ((_ & _ & _ & _ & P1) & _). clearbody i1.
    destruct (si_encode SiInterest s) as [[e s']|] eqn:Es; [|exact H1].
    apply (si_encode_for sha256) in Es as (We & Te & _); auto.
    assert (Nc : ~ critical (e_type e)) by (rewrite Te; apply nc44).
    destruct (split_type tInterestSignatureInfo (i_params i1)) as [a [|x b]] eqn:Sp.
    + destruct (split_type tInterestSignatureValue (i_params i1)) as [a' b'] eqn:Sv.
      apply split_params in Sv as (Eb & Nb & Tb).
      assert (NEa : a' <> []).
      { intro Z. subst a'. cbn in Eb. destruct b' as [|y b']; [congruence|]. rewrite Eb in P1. destruct P1 as (_ & T' & _). rewrite T' in Tb. discriminate. }
      apply weak_refresh; auto; [|now destruct a']. apply params_put; auto; rewrite ?Te; try lia. now rewrite <- Eb.
    + apply split_params in Sp as (Ea & Na & Tx). destruct (elem_eqb x e); [exact H1|].
      apply weak_refresh; auto; [|now destruct a].
      apply params_repl with x; auto; rewrite ?Te; try lia; [now rewrite <- Ea|].
      eapply not_head; [rewrite <- Ea; exact P1|exact Tx|discriminate].
  - unfold in_setSigValue. set (e := mkBlock tInterestSignatureValue v) in *.
    assert (We : elem_ok e) by (apply elem_wf_iff, mkBlock_wf; auto; reflexivity).
    assert (Te : e_type e = 46) by reflexivity.
    assert (Nc : ~ critical (e_type e)) by (rewrite Te; apply nc46).
    destruct (split_type tInterestSignatureInfo (i_params i)) as [a [|x b]] eqn:Sp; [exact H|].
    apply split_params in Sp as (Ea & Na & Tx).
    destruct (split_type tInterestSignatureValue (i_params i)) as [c [|y d]] eqn:Sv.
    + apply weak_refresh; auto; [|now destruct a].
      replace (a ++ x :: e :: b) with ((a ++ [x]) ++ e :: b) by (now rewrite <- app_assoc).
      apply params_put; auto; rewrite ?Te; try lia; [|now destruct a]. rewrite <- app_assoc. cbn. now rewrite <- Ea.
    + apply split_params in Sv as (Ec & Nv & Ty). destruct (elem_eqb y e); [exact H|].
      apply weak_refresh; auto; [|now destruct c].
      apply params_repl with y; auto; rewrite ?Te; try lia; [now rewrite <- Ec|].
      eapply not_head; [rewrite <- Ec; exact O5|exact Ty|discriminate].
Qed.
Lemma weak_run : forall ops i, weak i -> Forall in_op_ok ops -> forallb in_setter ops = true -> weak (in_run sha256 ops i).
Proof.
  induction ops as [|op ops IH]; intros i H F S0; [exact H|]. apply Forall_cons_iff in F as [Fo F]. cbn in S0. apply andb_prop in S0 as [So S0].
  cbn [in_run fold_left]. apply IH; auto. apply weak_step; auto.
Qed.
Lemma weak_default : weak in_default.
Proof. unfold weak, in_ok. cbn. splits; auto; try discriminate; try constructor. Qed.

Lemma encode_fresh : forall r i i' e, weak i -> nlen r = 4 -> in_encode sha256 true r i = (i', Ok e) ->
  is_tlv 5 (e_val e) (e_wire e) /\
  (in_fields i' = in_fields i \/ i_nonce i = None /\ in_fields i' = in_fields (set_nonce r i)) /\
  forall i0, in_decode sha256 true e i0 = (i', None).
Proof.
  intros r i i' e (Ok' & D1 & W) Lr H.
  assert (D : dok (nkey (i_name i)) (i_params i)).
  { unfold in_encode in H. rewrite W in H. destruct (in_check i) as [u|] eqn:C; [|discriminate].
    destruct (in_getNonce r i) as [i1 x] eqn:G.
    destruct (alloc (tlv_enc tInterest (in_value x i1))) as [w|] eqn:A; [|discriminate]. apply alloc_ok in A as [_ A].
    destruct (in_decode sha256 true (mkBlock tInterest (in_value x i1)) i1) as [i2 [y|]] eqn:Dd; [discriminate|].
    apply in_decode_iff in Dd as [M Dm]. specialize (Dm eq_refl).
    assert (L : nlen (in_value x i1) < two64) by (rewrite tlv_enc_len in A; lia).
    assert (G1 : nlen x = 4 /\ in_ok i1 /\ i_name i1 = i_name i /\ i_params i1 = i_params i).
    { unfold in_getNonce in G. destruct (i_nonce i) as [z|] eqn:En; injection G as <- <-.
      - splits; auto. now apply Ok'.
      - splits; auto. destruct Ok' as (O1 & O2 & O3 & O4 & O5). unfold in_ok. cbn. splits; auto. congruence. }
    destruct G1 as (Lx & Ok1 & En & Ep).
    assert (Nc : n_comps (i_name i) <> []).
    { intro Z. apply means_loop in M as (n & es & _ & P & Dn & Nc & _). cbn [e_val mkBlock] in P.
      destruct Ok1 as (O1 & _). destruct (nm_decode_octets (i_name i1) O1) as (ne & nm & Wn & _ & Hn & Dn' & Kn).
      { unfold in_value in L. rewrite nlen_app in L. lia. }
      apply parseValue_ok_iff in P as [Wp Hp]. unfold in_value in Hp. cbn [map concat] in Hp. rewrite <- Hn in Hp.
      apply Forall_cons_iff in Wp as [Wn' _].
      pose proof (fromBuffer_wf _ (concat (map e_wire es)) Wn') as F1. rewrite <- Hp in F1. rewrite fromBuffer_wf in F1 by auto.
      assert (ne = n) by congruence. subst ne. rewrite Dn in Dn'. injection Dn' as Dn'. apply Nc. rewrite En in Kn. unfold nkey in Kn.
      rewrite Z in Kn. rewrite <- Dn' in Kn. destruct (n_comps (i_name i2)); [reflexivity|discriminate]. }
    destruct (encoded_means sha256 i1 x (mkBlock tInterest (in_value x i1)) Ok1 Lx) as (j & Mj & Fj & _); auto; try (rewrite En; auto; fail).
    assert (Ej : j = i2).
    { apply means_loop in M as (n & es & _ & P & Dn & _ & _ & Lp). apply means_loop in Mj as (n' & es' & _ & P' & Dn' & _ & _ & Lp').
      rewrite P in P'. injection P' as <- <-. rewrite Dn in Dn'. injection Dn' as Dn'. rewrite Dn' in Lp. congruence. }
    subst j. unfold in_fields, set_nonce in Fj. cbn in Fj.
    assert (E1 : nkey (i_name i2) = nkey (i_name i)) by congruence. assert (E2 : i_params i2 = i_params i) by congruence.
    now rewrite <- E1, <- E2. }
  assert (I : in_inv sha256 i) by (unfold in_inv; rewrite W; splits; auto).
  apply encode_inv in H as (Hi & Hw & We & Hf & M & D' & _); auto. splits; auto.
  - apply elem_wf_iff in We. destruct M as (? & ? & ? & ? & ? & ? & ? & ? & ? & ? & T & _). now rewrite T in We.
  - intro i0. apply in_decode_iff. auto.
Qed.
Lemma encode_fresh_total : forall r i, weak i -> nlen r = 4 -> nkey (i_name i) <> [] -> dok (nkey (i_name i)) (i_params i) ->
  nlen (tlv_enc 5 (in_value (match i_nonce i with Some x => x | None => r end) i)) <= MAX_BUFFER ->
  exists i' e, in_encode sha256 true r i = (i', Ok e).
Proof.
  intros r i (O & D1 & W) Lr Nc D L. apply encode_total; auto; [unfold in_inv; rewrite W; splits; auto|].
  intro Z. apply Nc. unfold nkey. now rewrite Z.
Qed.
End WithSha.

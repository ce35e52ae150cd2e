(* Histories of an Interest. *)
From Coq Require Import Lia ZifyBool ZifyNat ZifyN.
From Verif Require Import Base BaseLemmas M_Tlv P_Tlv S_Tlv P_Block M_Str M_Name S_Name P_Name P_NameUri M_Packet S_Packet P_Packet P_Data P_DataT.
From Verif Require Import M_Interest S_Interest P_Interest P_InterestD P_InterestT.

Lemma hint_ok : forall es ns, hint_reads es ns -> Forall (fun n => Forall ctype_ok (n_comps n)) ns.
Proof. induction 1; auto; constructor; auto; eapply nm_decode_ok; eauto. Qed.
Lemma Forall_opt_app : forall A (P : A -> Prop) o l, Forall P (opt_list o ++ l) -> (forall x, o = Some x -> P x) /\ Forall P l.
Proof. intros A P o l H. apply Forall_app in H as [H1 H2]. split; auto. intros x ->. now apply Forall_cons_iff in H1. Qed.
Lemma means_ok : forall e i, in_means e i -> in_ok i.
Proof.
  intros e i (n & es & cbp & mbf & fh & nonce & life & hops & ap & post & T & P & [(pre & Ep & _ & _) _ _ _ Tn _ _ Tap Nap Cp] & Dn & Nc & D1 & E2 & E3 & E4 & E5 & E6 & E7 & E8 & E9).
  apply parseValue_ok_iff in P as [W _]. apply Forall_cons_iff in W as [_ W]. rewrite Ep in W. apply Forall_app in W as [_ W].
  apply Forall_opt_app in W as [Wa Wp].
  unfold in_ok. splits.
  - eapply nm_decode_ok; eauto.
  - destruct fh as [x|]; [destruct E4 as (sub & _ & R); eapply hint_ok; eauto|rewrite E4; constructor].
  - intros x Hx. rewrite E5 in Hx. destruct nonce as [y|]; [|discriminate]. injection Hx as <-. now apply Tn.
  - destruct life as [x|]; [|rewrite E6; reflexivity]. apply (readNNIBlock_iff x) in E6. now apply readNNIBlock_lt in E6.
  - rewrite E8. destruct ap as [a|]; [|rewrite (Nap eq_refl); exact I]. cbn [opt_list app params_ok].
    splits; auto; [apply elem_wf_iff; auto|].
    apply Forall_forall. intros y Hy. apply filter_In in Hy as [Iy Fy]. rewrite Forall_forall in Wp, Cp.
    splits; auto; [apply elem_wf_iff; auto|lia|lia].
Qed.

Section WithSha.
Variable sha256 : bytes -> bytes.
Hypothesis sha_len : forall b, nlen (sha256 b) = 32.
Notation dok := (digest_ok sha256).

Definition in_inv (i : interest) : Prop :=
  in_ok i /\ (length (digests (nkey (i_name i))) <= 1)%nat /\ (i_params i <> [] -> dok (nkey (i_name i)) (i_params i)) /\
  match i_wire i with
  | None => True
  | Some e => elem_wf e /\ in_means e i /\ dok (nkey (i_name i)) (i_params i)
  end.

Lemma decoded_inv : forall e i, elem_wf e -> in_means e i -> dok (nkey (i_name i)) (i_params i) -> in_inv i.
Proof.
  intros e i W M D. unfold in_inv. splits; [eapply means_ok; eauto| |auto|].
  - destruct M as (n & es & cbp & mbf & fh & nonce & life & hops & ap & post & H). apply H.
  - assert (i_wire i = Some e) as -> by (destruct M as (n & es & cbp & mbf & fh & nonce & life & hops & ap & post & H); apply H).
    auto.
Qed.

Lemma in_check_ok : forall i, (length (digests (nkey (i_name i))) <= 1)%nat -> (i_params i <> [] -> dok (nkey (i_name i)) (i_params i)) ->
  (in_check i = Ok tt <-> dok (nkey (i_name i)) (i_params i)).
Proof.
  intros i D1 D2. unfold in_check, in_hasParams. pose proof (digestIndex_spec (i_name i)) as D.
  destruct (digestIndex (i_name i)); [| |destruct D as (a & c & b & E & _ & Dc & _ & _ & Dn)].
  - unfold digest_ok in *. rewrite D in *. destruct (i_params i); [split; auto|]. split; [discriminate|intro; discriminate].
  - lia.
  - destruct (i_params i) eqn:P.
    + split; [discriminate|]. unfold digest_ok. rewrite Dn. discriminate.
    + split; auto. intros _. apply D2. discriminate.
Qed.

Lemma encode_inv : forall r i i' e, in_inv i -> nlen r = 4 -> in_encode sha256 true r i = (i', Ok e) ->
  in_inv i' /\ i_wire i' = Some e /\ elem_wf e /\
  (in_fields i' = in_fields i \/ i_nonce i = None /\ in_fields i' = in_fields (set_nonce r i)) /\
  in_means e i' /\ dok (nkey (i_name i')) (i_params i') /\
  (i_wire i = None -> exists n pre, parseValue (e_val e) = Ok (n :: pre ++ i_params i) /\ e_wire n = nm_octets (i_name i) /\
      Forall (fun y => e_type y <> 36) (n :: pre)).
Proof.
  intros r i i' e I Lr H. pose proof I as (Ok' & D1 & D2 & W). unfold in_encode in H.
  destruct (i_wire i) as [e0|] eqn:Ew.
  - injection H as <- <-. destruct W as (W & M & D). rewrite Ew. splits; auto. discriminate.
  - destruct (in_check i) as [u|] eqn:C; [|discriminate].
    assert (D : dok (nkey (i_name i)) (i_params i)) by (apply in_check_ok; auto; now destruct u).
    destruct (in_getNonce r i) as [i1 x] eqn:G.
    destruct (alloc (tlv_enc tInterest (in_value x i1))) as [w|] eqn:A; [|discriminate]. apply alloc_ok in A as [_ A].
    destruct (in_decode sha256 true (mkBlock tInterest (in_value x i1)) i1) as [i2 [y|]] eqn:Dd; [discriminate|].
    injection H as <- <-. apply in_decode_iff in Dd as [M Dm]. specialize (Dm eq_refl).
    assert (L : nlen (in_value x i1) < two64) by (rewrite tlv_enc_len in A; lia).
    assert (We : elem_wf (mkBlock tInterest (in_value x i1))) by (apply mkBlock_wf; auto; reflexivity).
    assert (G1 : nlen x = 4 /\ in_ok i1 /\ i_name i1 = i_name i /\ in_fields (set_nonce x i1) = in_fields (set_nonce x i) /\
                 (i_nonce i = None /\ x = r \/ i_nonce i = Some x)).
    { unfold in_getNonce in G. destruct (i_nonce i) as [z|] eqn:En; injection G as <- <-.
      - splits; auto. now apply Ok'.
      - splits; auto. destruct Ok' as (O1 & O2 & O3 & O4 & O5). unfold in_ok. cbn. splits; auto. congruence. }
    destruct G1 as (Lx & Ok1 & En & Ef & Ex).
    assert (Nc : n_comps (i_name i) <> []).
    { intro Z. apply means_loop in M as (n & es & _ & P & Dn & Nc & _). cbn [e_val mkBlock] in P.
      destruct Ok1 as (O1 & _). destruct (nm_decode_octets (i_name i1) O1) as (ne & nm & Wn & _ & Hn & Dn' & Kn).
      { unfold in_value in L. rewrite nlen_app in L. lia. }
      apply parseValue_ok_iff in P as [Wp Hp]. unfold in_value in Hp. cbn [map concat] in Hp. rewrite <- Hn in Hp.
      apply Forall_cons_iff in Wp as [Wn' _].
      pose proof (fromBuffer_wf _ (concat (map e_wire es)) Wn') as F1. rewrite <- Hp in F1. rewrite fromBuffer_wf in F1 by auto.
      assert (ne = n) by congruence. subst ne. rewrite Dn in Dn'. injection Dn' as Dn'. apply Nc. rewrite En in Kn. unfold nkey in Kn.
      rewrite Z in Kn. rewrite <- Dn' in Kn. destruct (n_comps (i_name i2)); [reflexivity|discriminate]. }
    destruct (encoded_means sha256 i1 x (mkBlock tInterest (in_value x i1)) Ok1 Lx) as (j & Mj & Fj & Pj); auto; try (rewrite En; auto; fail).
    assert (Ej : j = i2).
    { apply means_loop in M as (n & es & _ & P & Dn & _ & _ & Lp). apply means_loop in Mj as (n' & es' & _ & P' & Dn' & _ & _ & Lp').
      rewrite P in P'. injection P' as <- <-. rewrite Dn in Dn'. injection Dn' as Dn'. rewrite Dn' in Lp. congruence. }
    subst j. rewrite Ef in Fj.
    assert (Wi2 : i_wire i2 = Some (mkBlock tInterest (in_value x i1))).
    { destruct M as (n & es & cbp & mbf & fh & nonce & life & hops & ap & post & Q). apply Q. }
    splits; auto.
    + now apply decoded_inv with (mkBlock tInterest (in_value x i1)).
    + destruct Ex as [[En' ->]|En']; [right; auto|left]. rewrite Fj. unfold in_fields, set_nonce. cbn. now rewrite En'.
    + intros _. rewrite En in Pj. assert (Ep : i_params i1 = i_params i) by (unfold in_getNonce in G; destruct (i_nonce i); injection G as <- <-; reflexivity).
      rewrite Ep in Pj. exact Pj.
Qed.

Lemma encode_total : forall r i, in_inv i -> nlen r = 4 -> n_comps (i_name i) <> [] -> dok (nkey (i_name i)) (i_params i) ->
  nlen (tlv_enc 5 (in_value (match i_nonce i with Some x => x | None => r end) i)) <= MAX_BUFFER ->
  exists i' e, in_encode sha256 true r i = (i', Ok e).
Proof.
  intros r i I Lr Nc D L. pose proof I as (Ok' & D1 & D2 & W). unfold in_encode.
  destruct (i_wire i) as [e0|] eqn:Ew; [eauto|].
  assert (C : in_check i = Ok tt) by (apply in_check_ok; auto). rewrite C.
  set (x := match i_nonce i with Some x => x | None => r end) in *.
  assert (G : exists i1, in_getNonce r i = (i1, x) /\ in_ok i1 /\ i_name i1 = i_name i /\ i_params i1 = i_params i /\ in_value x i1 = in_value x i).
  { unfold in_getNonce, x. destruct (i_nonce i) as [z|] eqn:En; eexists; split; try reflexivity; splits; auto.
    destruct Ok' as (O1 & O2 & O3 & O4 & O5). unfold in_ok. cbn. splits; auto. congruence. }
  destruct G as (i1 & G & Ok1 & En & Ep & Ev). rewrite G. change tInterest with 5. rewrite Ev. unfold alloc.
  destruct (MAX_BUFFER <? nlen (tlv_enc 5 (in_value x i))) eqn:A; [lia|].
  assert (Lx : nlen x = 4) by (unfold x; destruct (i_nonce i) eqn:E; auto; now apply Ok').
  assert (Lv : nlen (in_value x i) < two64) by (rewrite tlv_enc_len in A; unfold MAX_BUFFER, two64 in *; lia).
  destruct (encoded_means sha256 i1 x (mkBlock 5 (in_value x i)) Ok1 Lx) as (j & Mj & Fj & Pj); auto; try (rewrite En; auto; fail); [now rewrite Ev|].
  assert (Dj : in_decode sha256 true (mkBlock 5 (in_value x i)) i1 = (j, None)).
  { apply in_decode_iff. split; auto. intros _. unfold in_fields, set_nonce in Fj. cbn in Fj.
    assert (F1 : nkey (i_name j) = nkey (i_name i1)) by congruence. assert (F2 : i_params j = i_params i1) by congruence.
    now rewrite F1, F2, En, Ep. }
  rewrite Dj. eauto.
Qed.

Lemma inv_upd : forall i cbp mbf fh nonce life hop, in_inv i ->
  Forall (fun n => Forall ctype_ok (n_comps n)) fh -> (forall x, nonce = Some x -> nlen x = 4) -> life < two64 ->
  in_inv (mkInt (i_name i) cbp mbf fh nonce life hop (i_params i) None).
Proof.
  intros i cbp mbf fh nonce life hop ((O1 & O2 & O3 & O4 & O5) & D1 & D2 & _) Hf Hn Hl.
  unfold in_inv, in_ok. cbn. splits; auto.
Qed.

Lemma digests_app : forall a b, digests (a ++ b) = digests a ++ digests b.
Proof. intros. unfold digests. apply filter_app. Qed.
Lemma digests_sha : forall b l, digests ((2, sha256 b) :: l) = (2, sha256 b) :: digests l.
Proof. intros. unfold digests. cbn [filter fst snd]. rewrite sha_len. reflexivity. Qed.

Lemma refresh_spec : forall i, Forall ctype_ok (n_comps (i_name i)) -> (length (digests (nkey (i_name i))) <= 1)%nat -> i_params i <> [] ->
  exists n', in_refreshDigest sha256 i = (in_setW None (in_setN n' i), None) /\
    with_digest sha256 (nkey (i_name i)) (i_params i) (nkey n') /\ Forall ctype_ok (n_comps n') /\ dok (nkey n') (i_params i).
Proof.
  intros i Ct D1 NP. unfold in_refreshDigest, in_withDigest, in_addDigest.
  assert (Hc : comp_ofBuffer tParametersSha256DigestComponent (in_digest sha256 i) = Ok (mkComp 2 None (in_digest sha256 i))).
  { unfold comp_ofBuffer, ensureValid. cbn [c_type c_val]. unfold comp_valid. unfold in_digest. rewrite sha_len. reflexivity. }
  rewrite Hc. cbn [bind].
  assert (Dp : in_digest sha256 i = sha256 (octets_of (i_params i))) by reflexivity.
  assert (Cc : ctype_ok (mkComp 2 None (in_digest sha256 i))) by (split; reflexivity).
  pose proof (digestIndex_spec (i_name i)) as D. destruct (digestIndex (i_name i)) as [| |k]; [| |destruct D as (a & c & b & E & -> & Dc & Da & Db & Dn)].
  - eexists. split; [reflexivity|]. unfold nm_append, nkey. cbn [n_comps]. rewrite map_app. cbn [map ckey c_type c_val].
    unfold with_digest, digest_ok. destruct (i_params i) as [|p ps]; [congruence|]. rewrite Dp.
    splits.
    + left. split; auto.
    + apply Forall_app. split; auto.
    + rewrite digests_app. fold (nkey (i_name i)). rewrite D. unfold ckey. cbn [c_type c_val app]. rewrite digests_sha. reflexivity.
  - lia.
  - unfold nm_set. rewrite nm_index_nat by (rewrite E, app_length; cbn; lia).
    eexists. split; [reflexivity|]. cbn [n_comps nkey]. unfold nkey in *. cbn [n_comps]. rewrite E in *.
    rewrite firstn_app, Nat.sub_diag, firstn_O, app_nil_r, firstn_all.
    assert (Sk : skipn (S (length a)) (a ++ c :: b) = b).
    { rewrite skipn_app. rewrite skipn_all2 by lia. replace (S (length a) - length a)%nat with 1%nat by lia. reflexivity. }
    rewrite Sk, !map_app in *. cbn [map] in *.
    unfold with_digest, digest_ok. destruct (i_params i) as [|p ps]; [congruence|]. rewrite Dp.
    splits.
    + right. exists (map ckey a), (ckey c), (map ckey b). splits; auto.
    + apply Forall_app in Ct as [C1 C2]. apply Forall_cons_iff in C2 as [_ C2]. apply Forall_app. split; auto.
    + rewrite digests_app, Da. cbn [app]. unfold ckey at 1. cbn [c_type c_val]. rewrite digests_sha, Db. reflexivity.
Qed.

Lemma refresh_inv : forall i p i', in_ok i -> (length (digests (nkey (i_name i))) <= 1)%nat -> params_ok p -> p <> [] ->
  in_refreshDigest sha256 (in_setP p i) = (i', None) -> in_inv i' /\ wn sha256 (nkey (i_name i)) p (in_fields i) (in_fields i').
Proof.
  intros i p i' (O1 & O2 & O3 & O4 & O5) D1 Pp NP H.
  destruct (refresh_spec (in_setP p i)) as (n' & R & Wd & C & D); auto. rewrite R in H. injection H as <-.
  cbn [in_setP i_name i_params] in *. split.
  - unfold in_inv, in_ok. cbn. splits; auto. unfold digest_ok in D. rewrite D. destruct p; cbn; lia.
  - exists (nkey n'). split; auto.
Qed.

Lemma split_params : forall t p a b, split_type t p = (a, b) ->
  p = a ++ b /\ ~ In t (map e_type a) /\ match b with [] => True | x :: _ => e_type x = t end.
Proof.
  intros t p a b H. apply split_type_spec in H as (E & F & T). splits; auto.
  intro I. apply in_map_iff in I as (y & Ey & Iy). rewrite Forall_forall in F. now apply F in Iy.
Qed.

Lemma params_put : forall e a b, params_ok (a ++ b) -> a <> [] -> elem_ok e -> ~ critical (e_type e) -> e_type e <> 34 -> e_type e <> 36 ->
  params_ok (a ++ e :: b).
Proof.
  intros e [|x a] b Hp NE We C H1 H2; [congruence|]. destruct Hp as (W & T & F). cbn [app params_ok]. splits; auto.
  apply Forall_app in F as [Fa Fb]. apply Forall_app. split; auto.
Qed.
Lemma params_repl : forall e a x b, params_ok (a ++ x :: b) -> a <> [] -> elem_ok e -> ~ critical (e_type e) -> e_type e <> 34 -> e_type e <> 36 ->
  params_ok (a ++ e :: b).
Proof.
  intros e [|y a] x b Hp NE We C H1 H2; [congruence|]. destruct Hp as (W & T & F). cbn [app params_ok]. splits; auto.
  apply Forall_app in F as [Fa Fb]. apply Forall_cons_iff in Fb as [_ Fb]. apply Forall_app. split; auto.
Qed.
Lemma not_head : forall t a x b, params_ok (a ++ x :: b) -> e_type x = t -> t <> 36 -> a <> [].
Proof. intros t [|y a] x b Hp E N; [destruct Hp as (W & T & F); cbn in T; congruence|discriminate]. Qed.
Lemma nc44 : ~ critical 44. Proof. intros [|]; [lia|discriminate]. Qed.
Lemma nc46 : ~ critical 46. Proof. intros [|]; [lia|discriminate]. Qed.

Lemma si_encode_for : forall s e s', si_for_interest s -> si_encode SiInterest s = Ok (e, s') ->
  elem_ok e /\ e_type e = 44 /\ (si_wire s = Some e \/ si_wire s = None /\ si_value s = Ok (e_val e)).
Proof.
  intros s e s' [O W] H. unfold si_encode in H. destruct (si_wire s) as [w|] eqn:Ew.
  - injection H as <- <-. destruct (W w eq_refl). auto.
  - inv_bind H. inv_bind H. apply Ok_inj in H. assert (He : e = mkBlock 44 a) by (symmetry; exact (f_equal fst H)). subst e. change (si_tlv SiInterest) with 44 in E0.
    apply alloc_ok in E0 as [_ L]. rewrite tlv_enc_len in L. splits; auto.
    apply elem_wf_iff, mkBlock_wf; try reflexivity. lia.
Qed.

Lemma setParams_inv : forall p i i', in_inv i -> elem_ok p -> e_type p = 36 -> in_setParamsInternal sha256 p i = (i', None) ->
  in_inv i' /\ wn sha256 (nkey (i_name i)) (p :: tl (i_params i)) (in_fields i) (in_fields i').
Proof.
  intros p i i' (O & D1 & D2 & _) Wp Tp H. unfold in_setParamsInternal in H. pose proof O as (_ & _ & _ & _ & Pp).
  destruct (i_params i) as [|q r] eqn:P.
  - refine (refresh_inv i [p] i' O D1 _ _ H); [|discriminate]. cbn. splits; auto.
  - destruct (negb _); [discriminate|]. refine (refresh_inv i (p :: r) i' O D1 _ _ H); [|discriminate].
    destruct Pp as (_ & _ & F). cbn. splits; auto.
Qed.

Lemma nlen4 : forall A (l : list A), nlen l = 4 -> True. Proof. auto. Qed.
Lemma optbytes_eqb_eq : forall a b, optbytes_eqb a b = true <-> a = b.
Proof.
  intros [a|] [b|]; cbn; try (split; congruence). rewrite bytes_eqb_eq. split; congruence.
Qed.
Lemma optbyte_eqb_eq : forall a b, optbyte_eqb a b = true <-> a = b.
Proof. intros [a|] [b|]; cbn; try (split; congruence). rewrite beqb_eq. split; congruence. Qed.

Lemma filter_nodig : forall l : list key, digests l = [] -> filter (fun k : key => negb ((fst k =? 2) && (nlen (snd k) =? 32))) l = l.
Proof.
  unfold digests. unfold key, bytes in *. induction l as [|k l IH]; auto. cbn [filter].
  destruct ((fst k =? 2) && (nlen (snd k) =? 32)); cbn [negb]; intro H; [discriminate H|]. now rewrite IH.
Qed.

Lemma in_step_inv : forall op i i', in_inv i -> in_op_ok op -> in_step sha256 op i = (i', None) ->
  in_inv i' /\ in_effect sha256 op (in_fields i) (in_fields i').
Proof.
  intros op i i' I O H. pose proof I as ((O1 & O2 & O3 & O4 & O5) & D1 & D2 & W).
  destruct op as [n|b|b|l|r|x|rs|t|h|b|v| |s|v|r|r|e]; cbn [in_step in_op_ok] in *.
  - (* setName *)
    unfold in_setName in H. pose proof (digestIndex_spec n) as D.
    assert (Dn : (length (digests (nkey n)) <= 1)%nat /\
      (if nm_equals n (i_name i) then (i, None) else let i1 := in_setN n i in if in_hasParams i1 then in_refreshDigest sha256 i1 else (in_setW None i1, None)) = (i', None)).
    { destruct (digestIndex n); try discriminate; split; auto; [rewrite D; cbn; lia|]. destruct D as (? & ? & ? & _ & _ & _ & _ & _ & ->). cbn; lia. }
    clear H D. destruct Dn as [Dn H]. destruct (nm_equals n (i_name i)) eqn:E.
    + injection H as <-. apply nm_equals_iff in E. split; auto. unfold in_fields, in_effect. left. auto.
    + cbv zeta in H. destruct (in_hasParams (in_setN n i)) eqn:P.
      * assert (Ep : in_setN n i = in_setP (i_params i) (in_setN n i)) by (destruct i; reflexivity). rewrite Ep in H.
        apply refresh_inv in H; auto.
        -- destruct H as [Hi Hw]. split; auto. unfold in_effect, in_fields at 1. right. exact Hw.
        -- unfold in_ok. cbn. splits; auto.
        -- intro Z. unfold in_hasParams in P. cbn in P. rewrite Z in P. discriminate.
      * injection H as <-. assert (Z : i_params i = []) by (unfold in_hasParams in P; cbn in P; destruct (i_params i); [auto|discriminate]).
        split.
        -- unfold in_inv, in_ok. cbn. splits; auto. congruence.
        -- unfold in_effect, in_fields. cbn. right. exists (nkey n). rewrite Z. split; reflexivity.
  - injection H as <-. unfold in_setCanBePrefix. destruct (Bool.eqb b (i_cbp i)) eqn:E.
    + apply Bool.eqb_prop in E. subst b. split; auto. reflexivity.
    + split; [apply inv_upd; auto|reflexivity].
  - injection H as <-. unfold in_setMustBeFresh. destruct (Bool.eqb b (i_mbf i)) eqn:E.
    + apply Bool.eqb_prop in E. subst b. split; auto. reflexivity.
    + split; [apply inv_upd; auto|reflexivity].
  - injection H as <-. split; [apply inv_upd; auto|reflexivity].
  - injection H as <-. unfold in_getNonce. destruct (i_nonce i) eqn:E; cbn [fst].
    + split; auto. left. reflexivity.
    + split; [apply inv_upd; auto; intros x [= <-]; auto|]. right. auto.
  - injection H as <-. unfold in_setNonce. destruct (optbytes_eqb x (i_nonce i)) eqn:E.
    + apply optbytes_eqb_eq in E. subst x. split; auto. reflexivity.
    + split; [apply inv_upd; auto|reflexivity].
  - unfold in_refreshNonce in H. destruct (i_nonce i) as [o|] eqn:E.
    + destruct (List.find _ rs) as [r|] eqn:Fi; [|discriminate]. injection H as <-.
      apply List.find_some in Fi as [Ir Nr]. rewrite Forall_forall in O. split.
      * apply inv_upd; auto. intros x [= <-]. auto.
      * unfold in_effect, in_fields. cbn. right. exists o, r. splits; auto. intro Z. subst. 
        assert (bytes_eqb o o = true) by now apply bytes_eqb_eq. rewrite H in Nr. discriminate.
    + injection H as <-. split; auto. left. auto.
  - unfold in_setLifetime in H. destruct (t <? 0)%Z eqn:Lt; [discriminate|].
    destruct (N.eqb_spec (Z.to_N t) (i_life i)) as [E|E]; injection H as <-.
    + split; auto. unfold in_effect, in_fields. split; [lia|]. now rewrite E.
    + split; [apply inv_upd; auto; unfold MAX_MS, two64 in *; lia|]. split; [lia|reflexivity].
  - injection H as <-. unfold in_setHopLimit. destruct (optbyte_eqb h (i_hop i)) eqn:E.
    + apply optbyte_eqb_eq in E. subst h. split; auto. reflexivity.
    + split; [apply inv_upd; auto|reflexivity].
  - (* setApplicationParameters(Block) *)
    destruct O as [Ob Lb]. unfold in_setParamsBlock in H. rewrite blk_isValid_ok in H by exact Ob. cbn [negb] in H.
    destruct (N.eqb_spec (c_type b) tApplicationParameters) as [E|E].
    + assert (We : elem_ok (elem_of_blk b)).
      { unfold elem_ok. unfold blk_ok in Ob. destruct b as [ty [hh|] vv]; [exact Ob|].
        change (is_tlv ty vv (e_wire (mkBlock ty vv))). rewrite mkBlock_wire. exact Ob. }
      assert (Te : e_type (elem_of_blk b) = 36 /\ e_val (elem_of_blk b) = c_val b) by (destruct b as [tt [hh|] vv]; cbn in *; auto).
      destruct Te as [Te Ve]. apply setParams_inv in H as [Hi Hw]; auto. split; auto.
      unfold in_effect, in_fields at 1. exists (elem_of_blk b). splits; auto. rewrite Ve, E. reflexivity.
    + assert (We : elem_ok (mkBlock tApplicationParameters (blk_octets b))) by (apply elem_wf_iff, mkBlock_wf; auto; reflexivity).
      apply setParams_inv in H as [Hi Hw]; auto. split; auto.
      unfold in_effect, in_fields at 1. exists (mkBlock tApplicationParameters (blk_octets b)). splits; auto.
      unfold tApplicationParameters in *. destruct (N.eqb_spec (c_type b) 36); [congruence|reflexivity].
  - assert (We : elem_ok (mkBlock tApplicationParameters v)) by (apply elem_wf_iff, mkBlock_wf; auto; reflexivity).
    apply setParams_inv in H as [Hi Hw]; auto. split; auto.
    unfold in_effect, in_fields at 1. exists (mkBlock tApplicationParameters v). splits; auto.
  - (* unset *)
    unfold in_unsetParams in H. pose proof (digestIndex_spec (i_name i)) as D.
    destruct (digestIndex (i_name i)) as [| |k]; [|lia|destruct D as (a & c & b & E & -> & Dc & Da & Db & Dn)].
    + injection H as <-. split.
      * unfold in_inv, in_ok. cbn. splits; auto; try congruence.
      * unfold in_effect, in_fields. cbn. now rewrite filter_nodig.
    + unfold nm_erase in H. rewrite nm_index_nat in H by (rewrite E, app_length; cbn; lia). injection H as <-.
      rewrite E in *. rewrite firstn_app, Nat.sub_diag, firstn_O, app_nil_r, firstn_all.
      assert (Sk : skipn (S (length a)) (a ++ c :: b) = b).
      { rewrite skipn_app. rewrite skipn_all2 by lia. replace (S (length a) - length a)%nat with 1%nat by lia. reflexivity. }
      cbn [skipn] in Sk. rewrite Sk. apply Forall_app in O1 as [Oa Ob]. apply Forall_cons_iff in Ob as [_ Ob].
      split.
      * unfold in_inv, in_ok. cbn [in_setW in_setN in_setP i_name i_fh i_nonce i_life i_params i_wire n_comps].
        splits; auto; try congruence; [apply Forall_app; auto|].
        unfold nkey. cbn [n_comps]. rewrite map_app, digests_app, Da, Db. cbn. lia.
      * unfold in_effect, in_fields, nkey. cbn [in_setW in_setN in_setP i_name i_cbp i_mbf i_hop i_fh i_nonce i_life i_params i_wire n_comps].
        f_equal. rewrite E, !map_app, filter_app. cbn [map filter]. rewrite !filter_nodig by auto.
        unfold isd, isParametersSha256Digest in Dc. change (negb (_ && _)) with (negb ((c_type c =? 2) && (nlen (c_val c) =? 32))).
        unfold tParametersSha256DigestComponent in Dc. now rewrite Dc.
  - (* setSignatureInfo *)
    unfold in_setSigInfo in H.
    set (i1 := match i_params i with [] => in_setP [mkEmptyBlock tApplicationParameters] i | _ => i end) in *.
    destruct (si_encode SiInterest s) as [[e s']|] eqn:Es; [|discriminate].
    apply si_encode_for in Es as (We & Te & Se); auto.
    set (q := i_params i1) in *.
    assert (Q : params_ok q /\ q <> [] /\ i_name i1 = i_name i /\ in_ok i1 /\ (forall p, in_setP p i1 = in_setP p i) /\
      (i_params i <> [] /\ q = i_params i /\ i1 = i \/ i_params i = [] /\ q = [mkEmptyBlock 36])).
    { unfold q, i1. destruct (i_params i) eqn:P.
      - assert (Pk : params_ok [mkEmptyBlock tApplicationParameters]).
        { cbn. splits; auto. apply elem_wf_iff, mkBlock_wf; reflexivity. }
        splits; auto; try discriminate. unfold in_ok. cbn [in_setP i_name i_fh i_nonce i_life i_params]. splits; auto.
      - rewrite P. splits; auto; try discriminate. unfold in_ok. rewrite P. splits; auto. left. splits; auto. discriminate. }
    destruct Q as (Pq & NEq & En & Ok1 & Esp & Eq).
    assert (QP : i_params i <> [] /\ q = i_params i \/ i_params i = [] /\ exists a, q = [a] /\ e_type a = 36 /\ e_val a = [] /\ elem_ok a).
    { destruct Eq as [(?&?&?)|[? Eq]]; [left; auto|right; split; auto]. exists (mkEmptyBlock 36). rewrite Eq in Pq. destruct Pq as (? & ? & _). auto. }
    assert (Nc : ~ critical (e_type e)) by (rewrite Te; apply nc44).
    destruct (split_type tInterestSignatureInfo q) as [a [|x b]] eqn:Sp.
    + destruct (split_type tInterestSignatureValue q) as [a' b'] eqn:Sv.
      apply split_params in Sp as (Ea & Na & _). rewrite app_nil_r in Ea.
      apply split_params in Sv as (Eb & Nb & Tb).
      assert (NEa : a' <> []).
      { intro Z. subst a'. cbn in Eb. destruct b' as [|y b']; [congruence|]. rewrite Eb in Pq. destruct Pq as (_ & T' & _). rewrite T' in Tb. discriminate. }
      rewrite Esp in H. apply refresh_inv in H as [Hi Hw]; auto.
      * split; auto. unfold in_effect, in_fields at 1. exists e, q, (a' ++ e :: b'). splits; auto.
        right. rewrite Ea in *. split; auto. exists a', b'. splits; auto. destruct b'; cbn; auto.
      * unfold in_ok. splits; auto.
      * apply params_put; auto; rewrite ?Te; try lia. now rewrite <- Eb.
      * now destruct a'.
    + apply split_params in Sp as (Ea & Na & Tx).
      destruct (elem_eqb x e) eqn:Ex.
      * injection H as <-. destruct Eq as [(NP & Eq & Ei)|[_ Eq]].
        -- rewrite Ei. split; auto. unfold in_effect, in_fields at 1. exists e, q, (a ++ e :: b). apply elem_eqb_eq in Ex as [T' V'].
           splits; auto; [left; exists a, x, b; splits; auto|]. right. splits; auto.
           ++ rewrite <- Eq, Ea, !map_app. cbn [map]. now rewrite T'.
           ++ rewrite <- Eq, Ea, !map_app. cbn [map]. now rewrite V'.
        -- exfalso. rewrite Eq in Ea. destruct a as [|y a]; [|destruct a; discriminate]. injection Ea as <- _. discriminate Tx.
      * rewrite Esp in H. apply refresh_inv in H as [Hi Hw]; auto.
        -- split; auto. unfold in_effect, in_fields at 1. exists e, q, (a ++ e :: b). splits; auto. left. exists a, x, b. splits; auto.
        -- unfold in_ok. splits; auto.
        -- apply params_repl with x; auto; rewrite ?Te; try lia; [now rewrite <- Ea|].
           eapply not_head; [rewrite <- Ea; exact Pq|exact Tx|discriminate].
        -- now destruct a.
  - (* setSignatureValue *)
    unfold in_setSigValue in H. set (e := mkBlock tInterestSignatureValue v) in *.
    assert (We : elem_ok e) by (apply elem_wf_iff, mkBlock_wf; auto; reflexivity).
    assert (Te : e_type e = 46) by reflexivity.
    assert (Nc : ~ critical (e_type e)) by (rewrite Te; apply nc46).
    destruct (split_type tInterestSignatureInfo (i_params i)) as [a [|x b]] eqn:Sp; [discriminate|].
    apply split_params in Sp as (Ea & Na & Tx).
    destruct (split_type tInterestSignatureValue (i_params i)) as [c [|y d]] eqn:Sv.
    + apply split_params in Sv as (Ec & Nv & _). rewrite app_nil_r in Ec.
      apply refresh_inv in H as [Hi Hw]; auto.
      * split; auto. unfold in_effect, in_fields at 1. exists e, (a ++ x :: e :: b). splits; auto.
        right. rewrite Ec in *. split; auto. rewrite <- Ec in *. exists a, x, b. splits; auto.
      * unfold in_ok. splits; auto.
      * replace (a ++ x :: e :: b) with ((a ++ [x]) ++ e :: b) by (now rewrite <- app_assoc).
        apply params_put; auto; rewrite ?Te; try lia; [|now destruct a]. rewrite <- app_assoc. cbn. now rewrite <- Ea.
      * now destruct a.
    + apply split_params in Sv as (Ec & Nv & Ty).
      destruct (elem_eqb y e) eqn:Ex.
      * injection H as <-. split; auto. unfold in_effect, in_fields at 1. exists e, (c ++ e :: d). apply elem_eqb_eq in Ex as [T' V'].
        splits; auto; [left; exists c, y, d; splits; auto|]. right. splits; auto.
        ++ rewrite Ec, !map_app. cbn [map]. now rewrite T'.
        ++ rewrite Ec, !map_app. cbn [map]. now rewrite V'.
      * apply refresh_inv in H as [Hi Hw]; auto.
        -- split; auto. unfold in_effect, in_fields at 1. exists e, (c ++ e :: d). splits; auto. left. exists c, y, d. splits; auto.
        -- unfold in_ok. splits; auto.
        -- apply params_repl with y; auto; rewrite ?Te; try lia; [now rewrite <- Ec|].
           eapply not_head; [rewrite <- Ec; exact O5|exact Ty|discriminate].
        -- now destruct c.
  - destruct (in_encode sha256 true r i) as [i2 [e|x]] eqn:En; cbn in H; [|discriminate]. injection H as <-.
    apply encode_inv in En as (Hi & _ & _ & [F|[N F]] & _); auto; split; auto; unfold in_effect, in_fields at 1.
    + left. rewrite F. reflexivity.
    + right. rewrite F. split; auto.
  - unfold in_signedRanges in H. destruct (in_encode sha256 true r i) as [i2 [e|x]] eqn:En; [|discriminate].
    assert (i2 = i').
    { destruct (rev (n_comps (i_name i2))); [discriminate|]. destruct (negb _); [discriminate|].
      destruct (first_param _ i2); [|discriminate]. destruct (snd _); [discriminate|]. cbn in H. congruence. }
    subst i2. apply encode_inv in En as (Hi & _ & _ & [F|[N F]] & _); auto; split; auto; unfold in_effect, in_fields at 1.
    + left. rewrite F. reflexivity.
    + right. rewrite F. split; auto.
  - pose proof H as H0. apply in_decode_iff in H as [M D]. specialize (D eq_refl). apply elem_wf_iff in O. split.
    + eapply decoded_inv; eauto.
    + unfold in_effect, in_fields at 1. apply in_reads_iff.
      exists (in_setW (Some (mkBlock 5 (e_val e))) i'). splits; auto.
      apply means_loop in M as (n & es & T & P & Dn & Nc & D1' & Lp). apply means_loop. exists n, es.
      cbn [e_type e_val mkBlock in_setW i_name]. splits; auto.
      pose proof (loop_setW es 1 (mkInt (i_name i') false false [] None DEFAULT_LIFETIME None [] (Some e)) (Some (mkBlock 5 (e_val e)))) as S1.
      rewrite Lp in S1. exact S1.
Qed.

Lemma in_run_inv : forall ops i, in_inv i -> Forall in_op_ok ops -> in_clean sha256 ops i -> in_inv (in_run sha256 ops i).
Proof.
  induction ops as [|op ops IH]; intros i I F C; [exact I|]. apply Forall_cons_iff in F as [Fo F]. cbn [in_clean] in C. destruct C as [C0 C].
  cbn [in_run fold_left]. apply IH; auto. destruct (in_step sha256 op i) as [i1 x] eqn:E. cbn [fst snd] in *.
  destruct C0 as [->| ->]; auto. now apply in_step_inv in E.
Qed.
Lemma default_inv : in_inv in_default.
Proof. unfold in_inv, in_ok. cbn. splits; auto; try discriminate; try constructor. Qed.

Lemma in_history : forall ops i, Forall in_op_ok ops -> in_clean sha256 ops in_default -> i = in_run sha256 ops in_default ->
  (forall r i' e, nlen r = 4 -> in_encode sha256 true r i = (i', Ok e) ->
     is_tlv 5 (e_val e) (e_wire e) /\
     (in_fields i' = in_fields i \/ i_nonce i = None /\ in_fields i' =
        mkIV (nkey (i_name i)) (i_cbp i) (i_mbf i) (map nkey (i_fh i)) (Some r) (i_life i) (i_hop i) (i_params i)) /\
     forall i0, exists i1, in_decode sha256 true e i0 = (i1, None) /\ in_fields i1 = in_fields i') /\
  (forall op i', in_op_ok op -> in_step sha256 op i = (i', None) -> in_effect sha256 op (in_fields i) (in_fields i')).
Proof.
  intros ops i F C ->. pose proof (in_run_inv ops in_default default_inv F C) as I. split.
  - intros r i' e Lr H. apply encode_inv in H as (Hi & Hw & We & Hf & M & D & _); auto. splits.
    + apply elem_wf_iff in We. destruct M as (? & ? & ? & ? & ? & ? & ? & ? & ? & ? & T & _). now rewrite T in We.
    + exact Hf.
    + intro i0. exists i'. split; auto. apply in_decode_iff. auto.
  - intros op i' Oo H. now apply in_step_inv in H.
Qed.
Lemma in_history_total : forall ops i r, Forall in_op_ok ops -> in_clean sha256 ops in_default -> i = in_run sha256 ops in_default ->
  nlen r = 4 -> nkey (i_name i) <> [] -> (i_params i = [] -> digests (nkey (i_name i)) = []) ->
  nlen (tlv_enc 5 (in_value (match i_nonce i with Some x => x | None => r end) i)) <= MAX_BUFFER ->
  exists i' e, in_encode sha256 true r i = (i', Ok e).
Proof.
  intros ops i r F C -> Lr Nc D L. pose proof (in_run_inv ops in_default default_inv F C) as I. apply encode_total; auto.
  - intro Z. apply Nc. unfold nkey. now rewrite Z.
  - destruct I as (_ & _ & D2 & _). destruct (i_params (in_run sha256 ops in_default)) eqn:P; [now apply D|apply D2; discriminate].
Qed.

Lemma in_digest_history : forall ops i, Forall in_op_ok ops -> in_clean sha256 ops in_default -> i = in_run sha256 ops in_default ->
  (i_params i <> [] -> dok (nkey (i_name i)) (i_params i)) /\
  (length (digests (nkey (i_name i))) <= 1)%nat /\
  (forall r i' e, nlen r = 4 -> in_encode sha256 true r i = (i', Ok e) -> dok (nkey (i_name i)) (i_params i)).
Proof.
  intros ops i F C ->. pose proof (in_run_inv ops in_default default_inv F C) as I. pose proof I as (O & D1 & D2 & W). splits; auto.
  intros r i' e Lr H. apply encode_inv in H as (_ & _ & _ & Hf & _ & D & _); auto.
  destruct Hf as [Hf|[_ Hf]]; unfold in_fields, set_nonce in Hf; cbn in Hf.
  all: assert (E1 : nkey (i_name i') = nkey (i_name (in_run sha256 ops in_default))) by congruence.
  all: assert (E2 : i_params i' = i_params (in_run sha256 ops in_default)) by congruence.
  all: now rewrite <- E1, <- E2.
Qed.
End WithSha.

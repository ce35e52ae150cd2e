(* C71: the PIB and the TPM of a key chain stay consistent.  C72: a packet is signed with the key asked for, and the KeyLocator names a certificate of that key. *)
From Verif Require Import Base BaseLemmas M_Tlv M_Str M_Name S_Name M_Ims P_Ims M_Pib S_Pib P_Pib P_PibR P_PibK P_PibS M_KeyChain S_KeyChain P_KeyChain P_KeyChainI.
From Coq Require Import String.
Open Scope list_scope.
Open Scope N_scope.

Section T.
Variable P : Type.                                                                         (* private keys *)
Variable pub : P -> option bytes.
Variable sg : P -> N -> bytes -> bytes.
Variable vf : bytes -> bytes -> bytes -> bool.
Variable sha : bytes -> bytes.
Variable hdig : P -> bytes.
Variable sigtype : bytes -> option N.
Variable portion : nm -> bytes -> N -> option nm -> bytes.
Hypothesis CR : crypto_ok P pub sg vf.
Notation kch := (kch P).
Notation step := (kc_step P pub sg vf sha hdig sigtype portion).
Notation reached := (reached P pub sg vf sha hdig sigtype portion).
Notation careful_call := (kcareful_op P pub sha hdig).
Notation goes_with := (goes_with P sg vf).
Notation stored := (stored P).
Notation private := (private P).
Notation read := (read P).
Notation key_in s kn := (nget kn (b_keys (stored s))).

Lemma keys_t : forall X s t kn, KIx P sg vf X s t -> nget kn (b_keys (stored s)) = t_key t kn.
Proof. intros X s t kn K. apply (r_keys _ _ (v_b _ _ (ki_inv _ _ _ _ _ _ K))). Qed.
Lemma certs_t : forall X s t kn, KIx P sg vf X s t -> nget kn (b_certs (stored s)) = t_cert t kn.
Proof. intros X s t kn K. apply (r_certs _ _ (v_b _ _ (ki_inv _ _ _ _ _ _ K))). Qed.
Lemma defK_t : forall X s t kn, KIx P sg vf X s t -> nget kn (b_defK (stored s)) = t_defK t kn.
Proof. intros X s t kn K. apply (r_defK _ _ (v_b _ _ (ki_inv _ _ _ _ _ _ K))). Qed.
Lemma defC_t : forall X s t kn, KIx P sg vf X s t -> nget kn (b_defC (stored s)) = t_defC t kn.
Proof. intros X s t kn K. apply (r_defC _ _ (v_b _ _ (ki_inv _ _ _ _ _ _ K))). Qed.
Lemma ids_t : forall X s t kn, KIx P sg vf X s t -> nmem kn (b_ids (stored s)) = t_id t kn.
Proof. intros X s t kn K. apply (r_ids _ _ (v_b _ _ (ki_inv _ _ _ _ _ _ K))). Qed.
Lemma def_t : forall X s t, KIx P sg vf X s t -> b_def (stored s) = t_def t.
Proof. intros X s t K. apply (r_def _ _ (v_b _ _ (ki_inv _ _ _ _ _ _ K))). Qed.

(* C71 in full: the statements below for the states reached by every history of calls (reached without kcareful, careful_call).  This is false, see C71_refuted
   and C71_deleteKey_refuted; they hold of the histories without the calls that kcareful_op describes.
   For every key in the PIB there is a private key in the TPM, and they go together. *)
Theorem C71_consistent_partial : forall s, reached s -> forall kn b, key_in s kn = Some b -> exists q, private s kn = Some q /\ goes_with b q.
Proof.
  intros s R kn b H. destruct (reached_inv P pub sg vf sha hdig sigtype portion CR s R) as [t K]. rewrite (keys_t _ _ _ kn K) in H. apply (ki_cov _ _ _ _ _ _ K kn b H). auto.
Qed.
(* the same as it is seen through the handles *)
Theorem C71_handles_partial : forall s, reached s ->
  (forall k kn b, read s (PKeyInfo k) = Ok (AInfo kn b) -> key_in s kn = Some b /\ exists q, private s kn = Some q /\ goes_with b q) /\
  (forall h l, read s (PKeyNames h) = Ok (ANames l) -> forall kn, In kn l -> exists b q, key_in s kn = Some b /\ private s kn = Some q /\ goes_with b q).
Proof.
  intros s R. destruct (reached_inv P pub sg vf sha hdig sigtype portion CR s R) as [t K]. split.
  - intros k kn b H. destruct (valid_key_t P pub sg vf sha hdig sigtype portion CR s t k K (ex_intro _ kn (ex_intro _ b H))) as [kn' E]. destruct (t_valid_key P pub sg vf sha hdig sigtype portion CR _ _ _ _ K E) as (b' & B & V). rewrite V in H. injection H as -> ->.
    rewrite (keys_t _ _ _ kn K). split; auto. apply (ki_cov _ _ _ _ _ _ K kn b B). auto.
  - intros h l H kn I. destruct (t_hid t h) as [i|] eqn:E.
    + destruct (G_keyNames _ _ (ki_inv _ _ _ _ _ _ K) h i E) as (p' & l' & G1 & _ & G2). unfold S_KeyChain.read in H. cbn [pb_step] in H. unfold as_ in H. rewrite G1 in H. cbn [snd] in H. injection H as ->.
      apply G2 in I. destruct I as [I _]. destruct (t_key t kn) as [b|] eqn:B; [|congruence]. destruct (ki_cov _ _ _ _ _ _ K kn b B (fun x => x)) as (q & Q & G). exists b, q. rewrite (keys_t _ _ _ kn K). auto.
    + unfold S_KeyChain.read in H. cbn [pb_step] in H. unfold as_, id_keyNames, with_id in H. rewrite (hid_none _ _ _ (ki_inv _ _ _ _ _ _ K) E) in H. discriminate.
Qed.
(* and every certificate in the PIB carries the public key of its key *)
Theorem C71_certificates_partial : forall s, reached s -> forall cn c, nget cn (b_certs (stored s)) = Some c -> pc_name c = cn /\ exists kn, key_of_cert cn = Some kn /\ key_in s kn = Some (pc_bits c).
Proof.
  intros s R cn c H. destruct (reached_inv P pub sg vf sha hdig sigtype portion CR s R) as [t K]. rewrite (certs_t _ _ _ cn K) in H. destruct (w_cert _ (v_t _ _ (ki_inv _ _ _ _ _ _ K)) _ _ H) as (E & kn & E1 & E2).
  split; auto. exists kn. split; auto. rewrite (keys_t _ _ _ kn K). destruct (t_key t kn) as [b|] eqn:B; [|congruence]. f_equal. symmetry. eapply (ki_cm _ _ _ _ _ _ K); eauto.
Qed.
(* No call does anything undefined, and an assertion fails only if a handle that has to be valid is not. *)
Theorem C71_defined_partial : forall s o e, reached s -> real_kop P o -> careful_call s o -> snd (step o s) = Err e -> e <> EUb /\ e <> ETerminate /\ (usable P s o -> e <> EAssert).
Proof.
  intros s o e R RO C H. destruct (reached_inv P pub sg vf sha hdig sigtype portion CR s R) as [t K]. destruct (T_step P pub sg vf sha hdig sigtype portion CR o s t K RO C) as (t' & _ & F). rewrite H in F. cbn in F. unfold okE in F.
  destruct F as [[->|[->| ->]]|[->|[->|[-> F]]]]; splits; try discriminate; tauto.
Qed.
(* deleteKey: the key is gone from the PIB and from the TPM, and nothing else is. *)
Theorem C71_deleteKey_partial : forall s h k i kn b, reached s -> careful_call s (KDelKey P h k) -> read s (PIdName h) = Ok (AName i) -> read s (PKeyInfo k) = Ok (AInfo kn b) -> identity_of_key kn = Some i ->
  let s' := fst (step (KDelKey P h k) s) in
  snd (step (KDelKey P h k) s) = Ok (KOk P) /\ key_in s' kn = None /\ private s' kn = None /\ ~ valid_key P s' k /\
  (forall kn', kn' <> kn -> key_in s' kn' = key_in s kn' /\ private s' kn' = private s kn').
Proof.
  intros s h k i kn b R C HI HK O s'. destruct (reached_inv P pub sg vf sha hdig sigtype portion CR s R) as [t K].
  destruct (valid_id_t P pub sg vf sha hdig sigtype portion CR s t h K (ex_intro _ i HI)) as [i' E]. rewrite (t_valid_id P pub sg vf sha hdig sigtype portion CR _ _ _ _ K E) in HI. injection HI as ->.
  destruct (valid_key_t P pub sg vf sha hdig sigtype portion CR s t k K (ex_intro _ kn (ex_intro _ b HK))) as [kn' E']. destruct (t_valid_key P pub sg vf sha hdig sigtype portion CR _ _ _ _ K E') as (b' & B & V). rewrite V in HK. injection HK as -> ->.
  destruct (T_deleteKey P pub sg vf sha hdig sigtype portion CR h k s t i K E) as (t' & K' & G). { intros kn0 HK0. eapply careful_key; eauto. }
  rewrite E', O, isopt_same in G. destruct G as (G1 & -> & G2).
  assert (ES : s' = fst (kc_deleteKey P h k s)) by (unfold s'; cbn [kc_step]; unfold kas; destruct (kc_deleteKey P h k s) as [s1 [x|e]]; reflexivity).
  rewrite <- ES in *. splits.
  - cbn [kc_step]. unfold kas. destruct (kc_deleteKey P h k s) as [s1 r1]. cbn [snd] in G1. subst r1. reflexivity.
  - rewrite (keys_t _ _ _ kn K'). cbn. unfold upd. destruct (nm_dec kn kn); congruence.
  - unfold S_KeyChain.private. rewrite G2, nget_ndel. destruct (nm_dec kn kn); congruence.
  - intros V'. destruct (valid_key_t P pub sg vf sha hdig sigtype portion CR _ _ k K' V') as [x X]. cbn in X. unfold keep in X. rewrite E', isopt_same in X. discriminate.
  - intros kn' N. split.
    + rewrite (keys_t _ _ _ kn' K'), (keys_t _ _ _ kn' K). cbn. unfold upd. destruct (nm_dec kn' kn); congruence.
    + unfold S_KeyChain.private. rewrite G2, nget_ndel. destruct (nm_dec kn' kn); congruence.
Qed.
(* deleteIdentity: the identity and all its keys are gone from the PIB, their private keys from the TPM, and nothing else is. *)
Theorem C71_deleteIdentity_partial : forall s h i, reached s -> read s (PIdName h) = Ok (AName i) ->
  let s' := fst (step (KDelId P h) s) in
  snd (step (KDelId P h) s) = Ok (KOk P) /\ nmem i (b_ids (stored s')) = false /\ ~ valid_id P s' h /\
  (forall kn, identity_of_key kn = Some i -> key_in s' kn = None /\ (key_in s kn <> None -> private s' kn = None)) /\
  (forall kn, identity_of_key kn <> Some i -> key_in s' kn = key_in s kn /\ private s' kn = private s kn) /\ (forall j, j <> i -> nmem j (b_ids (stored s')) = nmem j (b_ids (stored s))).
Proof.
  intros s h i R HI s'. destruct (reached_inv P pub sg vf sha hdig sigtype portion CR s R) as [t K].
  destruct (valid_id_t P pub sg vf sha hdig sigtype portion CR s t h K (ex_intro _ i HI)) as [i' E]. rewrite (t_valid_id P pub sg vf sha hdig sigtype portion CR _ _ _ _ K E) in HI. injection HI as ->.
  destruct (T_deleteIdentity P pub sg vf sha hdig sigtype portion CR h s t K) as (t' & K' & G1 & G). rewrite E in G. destruct G as (G2 & GH & G3).
  assert (ES : s' = fst (kc_deleteIdentity P h s)) by (unfold s'; cbn [kc_step]; unfold kas; destruct (kc_deleteIdentity P h s) as [s1 [x|e]]; reflexivity).
  rewrite <- ES in *. splits.
  - cbn [kc_step]. unfold kas. destruct (kc_deleteIdentity P h s) as [s1 r1]. cbn [snd] in G1. subst r1. reflexivity.
  - rewrite (ids_t _ _ _ i K'), (e_id _ _ G2). cbn. unfold upd. destruct (nm_dec i i); congruence.
  - intros V'. destruct (valid_id_t P pub sg vf sha hdig sigtype portion CR _ _ h K' V') as [x X].
    congruence.
  - intros kn O. rewrite (keys_t _ _ _ kn K'), (e_key _ _ G2). cbn. unfold keep, under. rewrite O, isopt_same. split; auto. rewrite (keys_t _ _ _ kn K). intros B. unfold S_KeyChain.private. rewrite G3, O, isopt_same.
    destruct (t_key t kn); [reflexivity|congruence].
  - intros kn O. rewrite (keys_t _ _ _ kn K'), (e_key _ _ G2), (keys_t _ _ _ kn K). cbn. unfold keep, under, S_KeyChain.private. rewrite G3. destruct (isopt (identity_of_key kn) i) eqn:IO; [apply isopt_some in IO; congruence|].
    rewrite andb_false_r. auto.
  - intros j N. rewrite (ids_t _ _ _ j K'), (e_id _ _ G2), (ids_t _ _ _ j K). cbn. unfold upd. destruct (nm_dec j i); congruence.
Qed.
(* createIdentity: afterwards the identity is there and has a default key, which has a default certificate. *)
Theorem C71_createIdentity_partial : forall s n pr h, reached s -> careful_call s (KCreateId P n pr) -> snd (step (KCreateId P n pr) s) = Ok (KHandle P h) ->
  let s' := fst (step (KCreateId P n pr) s) in
  read s' (PIdName h) = Ok (AName n) /\
  exists kn b q cn c, nget n (b_defK (stored s')) = Some kn /\ identity_of_key kn = Some n /\ key_in s' kn = Some b /\ private s' kn = Some q /\ goes_with b q /\
    nget kn (b_defC (stored s')) = Some cn /\ nget cn (b_certs (stored s')) = Some c /\ pc_bits c = b.
Proof.
  intros s n pr h R C H s'. destruct (reached_inv P pub sg vf sha hdig sigtype portion CR s R) as [t K].
  destruct (T_createIdentity P pub sg vf sha hdig sigtype portion CR n pr s t K C) as (t' & K' & G).
  assert (ES : s' = fst (kc_createIdentity P pub sg sha hdig sigtype portion n pr s)) by (unfold s'; cbn [kc_step]; unfold kas; destruct (kc_createIdentity P pub sg sha hdig sigtype portion n pr s) as [s1 [x|e]]; reflexivity).
  rewrite <- ES in *. cbn [kc_step] in H. unfold kas in H. destruct (kc_createIdentity P pub sg sha hdig sigtype portion n pr s) as [s1 [x|e]]; cbn [snd] in *; [|discriminate]. injection H as ->.
  destruct G as (G1 & kn & G2 & G3). split; [eapply t_valid_id; eauto|].
  destruct (w_defK _ (v_t _ _ (ki_inv _ _ _ _ _ _ K')) _ _ G2) as [W1 W2]. destruct (t_key t' kn) as [b|] eqn:B; [|congruence]. destruct (ki_cov _ _ _ _ _ _ K' kn b B (fun x => x)) as (q & Q & GW).
  destruct (t_defC t' kn) as [cn|] eqn:D; [|congruence]. destruct (w_defC _ (v_t _ _ (ki_inv _ _ _ _ _ _ K')) _ _ D) as [W3 W4]. destruct (t_cert t' cn) as [c|] eqn:EC; [|congruence].
  exists kn, b, q, cn, c. rewrite (defK_t _ _ _ n K'), (keys_t _ _ _ kn K'), (defC_t _ _ _ kn K'), (certs_t _ _ _ cn K'). splits; auto. eapply (ki_cm _ _ _ _ _ _ K'); eauto.
Qed.
(* createKey: the new key is in both parts, belongs to the identity, has a default certificate, and is the default key of the identity if there was none. *)
Theorem C71_createKey_partial : forall s h pr i k, reached s -> careful_call s (KCreateKey P h pr) -> read s (PIdName h) = Ok (AName i) -> snd (step (KCreateKey P h pr) s) = Ok (KHandle P k) ->
  let s' := fst (step (KCreateKey P h pr) s) in
  exists kn b q cn c, read s' (PKeyInfo k) = Ok (AInfo kn b) /\ identity_of_key kn = Some i /\ key_in s' kn = Some b /\ private s' kn = Some q /\ goes_with b q /\
    nget kn (b_defC (stored s')) = Some cn /\ nget cn (b_certs (stored s')) = Some c /\ pc_bits c = b /\
    nget i (b_defK (stored s')) = match nget i (b_defK (stored s)) with Some d => Some d | None => Some kn end.
Proof.
  intros s h pr i k R C HI H s'. destruct (reached_inv P pub sg vf sha hdig sigtype portion CR s R) as [t K].
  destruct (valid_id_t P pub sg vf sha hdig sigtype portion CR s t h K (ex_intro _ i HI)) as [i' E]. specialize (C i HI). rewrite (t_valid_id P pub sg vf sha hdig sigtype portion CR _ _ _ _ K E) in HI. injection HI as ->.
  destruct (T_createKey P pub sg vf sha hdig sigtype portion CR h pr s t i K E C) as (t' & K' & G).
  assert (ES : s' = fst (kc_createKey P pub sg sha hdig sigtype portion h pr s)) by (unfold s'; cbn [kc_step]; unfold kas; destruct (kc_createKey P pub sg sha hdig sigtype portion h pr s) as [s1 [x|e]]; reflexivity).
  rewrite <- ES in *. cbn [kc_step] in H. unfold kas in H. destruct (kc_createKey P pub sg sha hdig sigtype portion h pr s) as [s1 [x|e]]; cbn [snd] in *; [|discriminate]. injection H as ->.
  destruct G as (kn & G1 & G2 & _ & G3 & G4). destruct (t_valid_key P pub sg vf sha hdig sigtype portion CR _ _ _ _ K' G1) as (b & B & V). destruct (ki_cov _ _ _ _ _ _ K' kn b B (fun x => x)) as (q & Q & GW).
  destruct (t_defC t' kn) as [cn|] eqn:D; [|congruence]. destruct (w_defC _ (v_t _ _ (ki_inv _ _ _ _ _ _ K')) _ _ D) as [W3 W4]. destruct (t_cert t' cn) as [c|] eqn:EC; [|congruence].
  exists kn, b, q, cn, c. rewrite (defK_t _ _ _ i K'), (defK_t _ _ _ i K), (keys_t _ _ _ kn K'), (defC_t _ _ _ kn K'), (certs_t _ _ _ cn K'). splits; auto; [eapply (ki_cm _ _ _ _ _ _ K'); eauto|].
  rewrite G4. unfold or_else. now destruct (t_defK t i).
Qed.
(* A key and its certificate that were exported from one key chain can be imported into every other one that does not have the key, whatever its history. *)
Theorem C71_export_import_partial : forall s1 s2 c c' q rnd msg, reached s1 -> reached s2 -> real_cert c -> nget (pc_name c) (b_certs (stored s1)) = Some c ->
  snd (step (KExport P c) s1) = Ok (KBag P c' q) -> private s2 (pc_key c) = None ->
  let s' := fst (step (KImport P c' (Some q) rnd msg) s2) in
  snd (step (KImport P c' (Some q) rnd msg) s2) = Ok (KOk P) /\ private s' (pc_key c) = private s1 (pc_key c) /\ key_in s' (pc_key c) = key_in s1 (pc_key c) /\ nget (pc_name c) (b_certs (stored s')) = Some c.
Proof.
  intros s1 s2 c c' q rnd msg R1 R2 RC SC HE HP s'. destruct (reached_inv P pub sg vf sha hdig sigtype portion CR s1 R1) as [t1 K1]. destruct (reached_inv P pub sg vf sha hdig sigtype portion CR s2 R2) as [t2 K2].
  cbn [kc_step] in HE. unfold kas, kc_export in HE. destruct (nget (pc_key c) (c_tpm P s1)) as [q'|] eqn:Q; [|discriminate]. cbn in HE. injection HE as <- <-.
  rewrite (certs_t _ _ _ _ K1) in SC. destruct (w_cert _ (v_t _ _ (ki_inv _ _ _ _ _ _ K1)) _ _ SC) as (_ & kn & E1 & E2). destruct (real_names P pub sg vf sha hdig sigtype portion CR _ RC) as (i & N1 & N2 & _). assert (kn = pc_key c) by congruence. subst kn.
  destruct (t_key t1 (pc_key c)) as [b|] eqn:B; [|congruence]. pose proof (ki_cm _ _ _ _ _ _ K1 _ _ _ _ SC E1 B) as CB. destruct (ki_cov _ _ _ _ _ _ K1 _ _ B (fun x => x)) as (q0 & Q0 & GW). assert (q0 = q') by congruence. subst q0.
  destruct (T_importBag P pub sg vf sha hdig sigtype portion CR c (Some q') rnd msg s2 t2 K2 RC) as (t' & K' & G).
  assert (ES : s' = fst (kc_import P sg vf c (Some q') rnd msg s2)) by (unfold s'; cbn [kc_step]; unfold kas; destruct (kc_import P sg vf c (Some q') rnd msg s2) as [s3 [x|e]]; reflexivity).
  rewrite <- ES in *. cbn [kc_step]. unfold kas. destruct (kc_import P sg vf c (Some q') rnd msg s2) as [s3 [x|e]]; cbn [snd] in *.
  - destruct G as (x0 & j & X & J & _ & T & _ & _ & TK & TC). injection X as ->. split; auto. rewrite (keys_t _ _ _ _ K'), (keys_t _ _ _ _ K1), (certs_t _ _ _ _ K'), TK, TC, B, CB. unfold S_KeyChain.private. rewrite T, Q. auto.
  - exfalso. destruct G as [_ G]. apply (G HP q' eq_refl). now rewrite CB.
Qed.

(* C72 in full: the same for every history, and the documented exception if the certificate does not exist; both are false, see below. *)
Theorem C72_sign_partial : forall s sn kl rnd msg, reached s -> signed_as P sg vf sha hdig sigtype s sn kl rnd msg (snd (step (KSign P sn kl rnd msg) s)).
Proof.
  intros s sn kl rnd msg R. destruct (reached_inv P pub sg vf sha hdig sigtype portion CR s R) as [t K]. destruct (T_sign P pub sg vf sha hdig sigtype portion CR sn kl rnd msg s t K) as (t' & _ & _ & G).
  cbn [kc_step]. unfold kas, signed_as. set (m := kc_sign P sg sha hdig sigtype sn kl rnd msg s) in *. clearbody m. destruct m as [s' r]. cbn [fst snd] in G. destruct (how_to_sign P s sn) as [|q|kn cert|].
  - subst r. reflexivity.
  - cbv zeta in G. subst r. unfold S_KeyChain.private. destruct (nget (HMACID ++ [(8, hdig q)]) (c_tpm P s)) as [x|]; [exists x|exists q]; splits; auto; try discriminate. intros x' E. congruence.
  - destruct G as (b & q & B & Q & GW & G). exists b. rewrite (keys_t _ _ _ kn K). split; auto. destruct (sigtype b) as [ty|]; subst r; [|reflexivity].
    exists (sg q rnd msg). split; [|apply GW]. cbn [fst snd]. unfold locator, loc. now rewrite (defC_t _ _ _ kn K).
  - destruct G as [-> | ->]; auto.
Qed.
(* If the caller did not ask for another one, and a certificate of that name is in the PIB, the KeyLocator names the certificate that verifies the signature
   (unless the name is that of a key, too: /A/KEY/x/KEY/y is a key of /A/KEY/x and a certificate of /A/KEY/x of /A). *)
Theorem C72_certificate_partial : forall s sn rnd msg ty l v c, reached s -> snd (step (KSign P sn None rnd msg) s) = Ok (KSigned P ty (Some l) v) -> nget l (b_certs (stored s)) = Some c ->
  key_in s l = None -> vf (pc_bits c) msg v = true.
Proof.
  intros s sn rnd msg ty l v c R H SC NK. destruct (reached_inv P pub sg vf sha hdig sigtype portion CR s R) as [t K]. destruct (T_sign P pub sg vf sha hdig sigtype portion CR sn None rnd msg s t K) as (t' & _ & _ & G).
  cbn [kc_step] in H. unfold kas in H. destruct (kc_sign P sg sha hdig sigtype sn None rnd msg s) as [s' r]. cbn [fst snd] in G, H. rewrite (certs_t _ _ _ l K) in SC.
  destruct (w_cert _ (v_t _ _ (ki_inv _ _ _ _ _ _ K)) _ _ SC) as (_ & kc & E1 & E2).
  destruct (how_to_sign P s sn) as [|q|kn cert|] eqn:HW.
  - subst r. discriminate.
  - cbv zeta in G. subst r. injection H as _ <- _. exfalso. revert E1. vm_compute. discriminate.
  - destruct G as (b & q & B & Q & GW & G). destruct (sigtype b) as [ty'|]; subst r; [|discriminate]. cbn in H. injection H as _ <- <-.
    assert (KN : key_of_cert (loc t None kn cert) = Some kn -> vf (pc_bits c) msg (sg q rnd msg) = true).
    { intros KN. rewrite (ki_cm _ _ _ _ _ _ K _ _ _ _ SC KN B). apply GW. }
    apply KN. unfold loc in *. destruct cert as [cn|].
    + destruct sn; cbn [how_to_sign] in HW; unfold by_identity, by_key in HW; try (destruct (b_def _)); repeat match goal with H : context [match ?x with _ => _ end] |- _ => destruct x eqn:?; try discriminate end; congruence.
    + destruct (t_defC t kn) as [d|] eqn:D; [apply (w_defC _ (v_t _ _ (ki_inv _ _ _ _ _ _ K)) _ _ D)|]. exfalso.
      rewrite (keys_t _ _ _ kn K) in NK. congruence.
  - destruct G as [-> | ->]; discriminate.
Qed.
(* Signing changes nothing in the PIB. *)
Theorem C72_unchanged_partial : forall s sn kl rnd msg, reached s ->
  let s' := fst (step (KSign P sn kl rnd msg) s) in
  b_def (stored s') = b_def (stored s) /\
  forall n, nmem n (b_ids (stored s')) = nmem n (b_ids (stored s)) /\ key_in s' n = key_in s n /\ nget n (b_defK (stored s')) = nget n (b_defK (stored s)) /\
    nget n (b_certs (stored s')) = nget n (b_certs (stored s)) /\ nget n (b_defC (stored s')) = nget n (b_defC (stored s)).
Proof.
  intros s sn kl rnd msg R s'. destruct (reached_inv P pub sg vf sha hdig sigtype portion CR s R) as [t K]. destruct (T_sign P pub sg vf sha hdig sigtype portion CR sn kl rnd msg s t K) as (t' & K' & G & _).
  assert (ES : s' = fst (kc_sign P sg sha hdig sigtype sn kl rnd msg s)) by (unfold s'; cbn [kc_step]; unfold kas; destruct (kc_sign P sg sha hdig sigtype sn kl rnd msg s) as [s1 [x|e]]; reflexivity).
  rewrite <- ES in K'. clearbody s'. destruct G as [E1 E2 E3 E4 E5 E6]. split; [rewrite (def_t _ _ _ K), (def_t _ _ _ K'); auto|]. intros n.
  rewrite (ids_t _ _ _ n K), (ids_t _ _ _ n K'), (keys_t _ _ _ n K), (keys_t _ _ _ n K'), (defK_t _ _ _ n K), (defK_t _ _ _ n K'), (certs_t _ _ _ n K), (certs_t _ _ _ n K'), (defC_t _ _ _ n K), (defC_t _ _ _ n K'). auto.
Qed.
End T.
Print Assumptions C71_consistent_partial.
Print Assumptions C71_handles_partial.
Print Assumptions C71_certificates_partial.
Print Assumptions C71_defined_partial.
Print Assumptions C71_deleteKey_partial.
Print Assumptions C71_deleteIdentity_partial.
Print Assumptions C71_createIdentity_partial.
Print Assumptions C71_createKey_partial.
Print Assumptions C71_export_import_partial.
Print Assumptions C72_sign_partial.
Print Assumptions C72_certificate_partial.
Print Assumptions C72_unchanged_partial.

(* ---- a concrete case: the public key is the private key, and a signature is the key followed by the message ---- *)
Definition xpub (q : bytes) : option bytes := Some q.
Definition xsg (q : bytes) (rnd : N) (m : bytes) : bytes := q ++ m.
Definition xvf (b m s : bytes) : bool := bytes_eqb s (b ++ m).
Definition xid (b : bytes) : bytes := b.
Definition xty (b : bytes) : option N := match b with [] => None | _ => Some 3 end.
Definition xpor (n : nm) (b : bytes) (ty : N) (l : option nm) : bytes := b.
Definition xnew : kch bytes := kc_new bytes.
Definition xstep := kc_step bytes xpub xsg xvf xid xid xty xpor.
Definition xrun := kc_run bytes xpub xsg xvf xid xid xty xpor.
Definition xreached := reached bytes xpub xsg xvf xid xid xty xpor.
Lemma xcrypto : crypto_ok bytes xpub xsg xvf.
Proof.
  split.
  - intros q b H rnd msg. injection H as ->. unfold xvf, xsg. now apply bytes_eqb_eq.
  - intros q b rnd msg H rnd' msg'. unfold xvf, xsg in *. apply bytes_eqb_eq in H. apply app_inv_tail in H. subst. now apply bytes_eqb_eq.
Qed.
Definition g (s : string) : key := (8, str s).
Definition ia : nm := [g "a"].
Definition ib : nm := [g "b"].
Definition k1 : nm := [g "a"; g "KEY"; g "1"].
Definition k2 : nm := [g "a"; g "KEY"; g "2"].
Definition v1 : key := (54, [Byte.x01]).
Definition pr (id q : string) : params bytes := mkPr bytes (UserId (g id)) false (str q) v1 7.
Definition c1 (bits rest : string) : pcert := mkPC (k1 ++ [g "self"; v1]) (str bits) (str rest).
(* identity a with keys 1 and 2 *)
Definition L : list (kop bytes) := [KCreateId _ ia (pr "1" "K1"); KCreateKey _ 0 (pr "2" "K2"); KRead _ (PGetDefKey 0)].
Lemma L_reached : xreached (xrun L xnew).
Proof. exists L. split; [repeat constructor|]. split; [|reflexivity]. apply kcarefulb_ok. vm_compute. reflexivity. Qed.
Definition L' : list (kop bytes) := L ++ [KSetDefKey _ 0 2; KDelKey _ 0 2].
Lemma L'_reached : xreached (xrun L' xnew).
Proof. exists L'. split; [repeat constructor|]. split; [|reflexivity]. apply kcarefulb_ok. vm_compute. reflexivity. Qed.
(* two keys, both with their private keys; the second one is made the default and deleted, and then the identity gets a new default from createIdentity *)
Example C71_ex :
  xreached (xrun L xnew) /\
  nget k1 (b_keys (stored bytes (xrun L xnew))) = Some (str "K1") /\ private bytes (xrun L xnew) k1 = Some (str "K1") /\ nget k2 (b_keys (stored bytes (xrun L xnew))) = Some (str "K2") /\
  snd (xstep (KRead _ (PGetDefKey 0)) (xrun L xnew)) = Ok (KGot _ (AKey 1)) /\
  xreached (xrun L' xnew) /\ private bytes (xrun L' xnew) k2 = None /\ private bytes (xrun L' xnew) k1 = Some (str "K1") /\ nget ia (b_defK (stored bytes (xrun L' xnew))) = None /\
  snd (xstep (KCreateId _ ia (pr "3" "K3")) (xrun L' xnew)) = Ok (KHandle _ 0) /\
  snd (xstep (KDelId _ 0) (xrun L' xnew)) = Ok (KOk _) /\ private bytes (fst (xstep (KDelId _ 0) (xrun L' xnew))) k1 = None /\
  snd (xstep (KExport _ (c1 "K1" "K1K1")) (xrun L xnew)) = Ok (KBag _ (c1 "K1" "K1K1") (str "K1")) /\ snd (xstep (KImport _ (c1 "K1" "K1K1") (Some (str "K1")) 0 (str "t")) xnew) = Ok (KOk _).
Proof.
  split; [exact L_reached|]. split; [vm_compute; reflexivity|]. split; [vm_compute; reflexivity|]. split; [vm_compute; reflexivity|]. split; [vm_compute; reflexivity|].
  split; [exact L'_reached|]. split; [vm_compute; reflexivity|]. split; [vm_compute; reflexivity|]. split; [vm_compute; reflexivity|]. split; [vm_compute; reflexivity|].
  split; [vm_compute; reflexivity|]. split; [vm_compute; reflexivity|]. split; vm_compute; reflexivity.
Qed.
Example C72_ex :
  snd (xstep (KSign _ (SgNull _) None 5 (str "m")) (xrun L xnew)) = Ok (KSigned _ 3 (Some (k1 ++ [g "self"; v1])) (str "K1m")) /\
  snd (xstep (KSign _ (SgKey _ None k2) None 5 (str "m")) (xrun L xnew)) = Ok (KSigned _ 3 (Some (k2 ++ [g "self"; v1])) (str "K2m")) /\
  snd (xstep (KSign _ (SgKey _ (Some 2) []) (Some ia) 5 (str "m")) (xrun L xnew)) = Ok (KSigned _ 3 (Some ia) (str "K2m")) /\
  snd (xstep (KSign _ (SgHmac _ (str "H")) None 5 (str "m")) (xrun L xnew)) = Ok (KSigned _ 4 (Some (HMACID ++ [g "H"])) (str "Hm")) /\
  snd (xstep (KSign _ (SgId _ None ib) None 5 (str "m")) (xrun L xnew)) = Err ELogic /\ snd (xstep (KSign _ (SgNull _) None 5 (str "m")) xnew) = Ok (KSigned _ 0 None (str "m")) /\
  nget (k1 ++ [g "self"; v1]) (b_certs (stored bytes (xrun L xnew))) = Some (c1 "K1" "K1K1").
Proof. splits; vm_compute; reflexivity. Qed.

(* setDefaultCertificate with a certificate of the same key name and another public key is accepted: the public key in the PIB does not go with the private key in the TPM any more. *)
Theorem C71_refuted : exists l kn b q, Forall (real_kop bytes) l /\ crypto_ok bytes xpub xsg xvf /\
  nget kn (b_keys (stored bytes (xrun l xnew))) = Some b /\ private bytes (xrun l xnew) kn = Some q /\ ~ goes_with bytes xsg xvf b q.
Proof.
  exists (firstn 2 L ++ [KSetDefCert _ 1 (c1 "evil" "x")]), k1, (str "evil"), (str "K1"). split; [repeat constructor; vm_compute; discriminate|]. split; [exact xcrypto|].
  split; [vm_compute; reflexivity|]. split; [vm_compute; reflexivity|]. intros G. specialize (G 0 []). vm_compute in G. discriminate.
Qed.
Print Assumptions C71_refuted.
(* deleteKey of a key that is not the default one: afterwards the identity has no default key, and signing with it fails, although the key that was the default is still there. *)
Theorem C71_deleteKey_refuted : exists l h k i kn a, Forall (real_kop bytes) l /\ xreached (xrun l xnew) /\
  nget i (b_defK (stored bytes (xrun l xnew))) = Some kn /\ snd (xstep (KSign _ (SgId _ None i) None 0 (str "m")) (xrun l xnew)) = Ok a /\
  snd (xstep (KDelKey _ h k) (xrun l xnew)) = Ok (KOk _) /\
  let s' := fst (xstep (KDelKey _ h k) (xrun l xnew)) in
  nget kn (b_keys (stored bytes s')) <> None /\ private bytes s' kn <> None /\ nget i (b_defK (stored bytes s')) = None /\ snd (xstep (KSign _ (SgId _ None i) None 0 (str "m")) s') = Err ELogic.
Proof.
  exists L, 0, 2, ia, k1, (KSigned _ 3 (Some (k1 ++ [g "self"; v1])) (str "K1m")). split; [repeat constructor|]. split; [exact L_reached|]. split; [vm_compute; reflexivity|]. split; [vm_compute; reflexivity|].
  split; [vm_compute; reflexivity|]. cbv zeta. split; [vm_compute; discriminate|]. split; [vm_compute; discriminate|]. split; vm_compute; reflexivity.
Qed.
Print Assumptions C71_deleteKey_refuted.
(* After the setDefaultCertificate above, the KeyLocator names a certificate that does not verify the signature. *)
Theorem C72_certificate_refuted : exists l i ty cn v c, Forall (real_kop bytes) l /\ crypto_ok bytes xpub xsg xvf /\
  snd (xstep (KSign _ (SgId _ None i) None 0 (str "m")) (xrun l xnew)) = Ok (KSigned _ ty (Some cn) v) /\ nget cn (b_certs (stored bytes (xrun l xnew))) = Some c /\ xvf (pc_bits c) (str "m") v = false.
Proof.
  exists (firstn 2 L ++ [KSetDefCert _ 1 (c1 "evil" "x")]), ia, 3, (k1 ++ [g "self"; v1]), (str "K1m"), (c1 "evil" "x"). split; [repeat constructor; vm_compute; discriminate|]. split; [exact xcrypto|].
  split; [vm_compute; reflexivity|]. split; vm_compute; reflexivity.
Qed.
Print Assumptions C72_certificate_refuted.
(* Signing with a certificate that does not exist succeeds if its key does; the documentation promises InvalidSigningInfoError. *)
Theorem C72_missing_refuted : exists l cn a, xreached (xrun l xnew) /\ nget cn (b_certs (stored bytes (xrun l xnew))) = None /\ snd (xstep (KSign _ (SgCert _ cn) None 0 (str "m")) (xrun l xnew)) = Ok a.
Proof.
  exists L, (k1 ++ [g "nobody"; v1]), (KSigned _ 3 (Some (k1 ++ [g "nobody"; v1])) (str "K1m")). split; [exact L_reached|]. split; vm_compute; reflexivity.
Qed.
Print Assumptions C72_missing_refuted.

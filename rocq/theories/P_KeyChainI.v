(* The invariant of the key chain, and what each of its calls does to it. *)
From Verif Require Import Base BaseLemmas M_Tlv M_Name S_Name M_Ims P_Ims M_Pib S_Pib P_Pib P_PibR P_PibK P_PibS M_KeyChain S_KeyChain P_KeyChain.
From Coq Require Import Lia ZifyBool ZifyNat ZifyN String.
Open Scope list_scope.
Open Scope N_scope.

Lemma identity_app : forall i c, identity_of_key (i ++ [KEYC; c]) = Some i.
Proof.
  intros i c. unfold identity_of_key. change (i ++ [KEYC; c]) with (i ++ ([KEYC] ++ [c])). rewrite app_assoc, rev_app_distr, rev_app_distr. cbn [rev app].
  destruct (key_dec KEYC KEYC); [|congruence]. now rewrite rev_involutive.
Qed.
Lemma identity_split : forall kn i, identity_of_key kn = Some i -> exists c, kn = i ++ [KEYC; c].
Proof.
  intros kn i. unfold identity_of_key. destruct (rev kn) as [|c [|k r]] eqn:E; try discriminate. destruct (key_dec k KEYC) as [->|]; [|discriminate]. intros H. injection H as <-.
  exists c. rewrite <- (rev_involutive kn), E. cbn [rev]. now rewrite <- app_assoc.
Qed.
Lemma cert_app : forall kn i a b, identity_of_key kn = Some i -> key_of_cert (kn ++ [a; b]) = Some kn.
Proof.
  intros kn i a b H. destruct (identity_split _ _ H) as [c ->]. unfold key_of_cert. rewrite <- app_assoc. cbn [app]. rewrite rev_app_distr. cbn [rev app].
  destruct (key_dec KEYC KEYC); [|congruence]. cbn [rev]. rewrite rev_involutive, <- app_assoc. reflexivity.
Qed.
Lemma not_digest : forall kn i, identity_of_key kn = Some i -> names_eqb kn DIGEST = false.
Proof. intros kn i H. apply names_eqb_neq. intros ->. vm_compute in H. discriminate. Qed.

Section I.
Set Default Proof Using "All".
Variable P : Type.
Variable pub : P -> option bytes.
Variable sg : P -> N -> bytes -> bytes.
Variable vf : bytes -> bytes -> bytes -> bool.
Variable sha : bytes -> bytes.
Variable hdig : P -> bytes.
Variable sigtype : bytes -> option N.
Variable portion : nm -> bytes -> N -> option nm -> bytes.
Hypothesis CR : crypto_ok P pub sg vf.
Notation kch := (kch P).
Notation mkC := (mkC P).
Notation c_pib := (c_pib P).
Notation c_tpm := (c_tpm P).
Notation c_open := (c_open P).
Notation gw := (goes_with P sg vf).
Notation kst := (kst P).

(* X: keys whose private key may be missing *)
Record KIx (X : nm -> Prop) (s : kch) (t : tree) : Prop := mkKI {
  ki_inv : inv (c_pib s) t;
  ki_open : forall n q, nget n (c_open s) = Some q -> nget n (c_tpm s) = Some q;
  ki_cov : forall kn b, t_key t kn = Some b -> ~ X kn -> exists q, nget kn (c_tpm s) = Some q /\ gw b q;
  ki_cm : forall cn c kn b, t_cert t cn = Some c -> key_of_cert cn = Some kn -> t_key t kn = Some b -> pc_bits c = b }.
Notation KI := (KIx (fun _ => False)).
Lemma KI_new : KI (kc_new P) emptyT.
Proof. constructor; cbn; try discriminate. apply inv_empty. Qed.
Lemma KI_ceq : forall X s t p t', KIx X s t -> inv p t' -> ceq t' t -> KIx X (mkC p (c_tpm s) (c_open s)) t'.
Proof.
  intros X s t p t' [A B C D] I [E1 E2 E3 E4 E5 E6]. constructor; auto.
  - intros kn b. rewrite E3. apply C.
  - intros cn c kn b. rewrite E3, E5. apply D.
Qed.
Lemma KI_same : forall X s t p, KIx X s t -> inv p t -> KIx X (mkC p (c_tpm s) (c_open s)) t.
Proof. intros. eapply KI_ceq; eauto. apply ceq_refl. Qed.

(* the outcome of a call *)
Definition trip {A} (m : kst A) (s : kch) (R : res A -> kch -> tree -> Prop) : Prop := exists t', KI (fst (m s)) t' /\ R (snd (m s)) (fst (m s)) t'.
Lemma trip_then : forall A B (m : kst A) (f : A -> kst B) s R1 R2, trip m s R1 -> (forall a s' t', KI s' t' -> R1 (Ok a) s' t' -> trip (f a) s' R2) ->
  (forall e s' t', KI s' t' -> R1 (Err e) s' t' -> R2 (Err e) s' t') -> trip (kthen P m f) s R2.
Proof.
  intros A B m f s R1 R2 (t1 & K1 & H1) H2 H3. unfold trip, kthen. destruct (m s) as [s1 [a|e]]; cbn [fst snd] in *.
  - apply (H2 a s1 t1 K1 H1).
  - exists t1. split; auto.
Qed.
Lemma trip_catch : forall A (m h : kst A) s R1 R2, trip m s R1 -> (forall s' t', KI s' t' -> R1 (Err ERuntime) s' t' -> trip h s' R2) ->
  (forall r s' t', KI s' t' -> r <> Err ERuntime -> R1 r s' t' -> R2 r s' t') -> trip (catch P m h) s R2.
Proof.
  intros A m h s R1 R2 (t1 & K1 & H1) H2 H3. unfold trip, catch. destruct (m s) as [s1 r] eqn:E; cbn [fst snd] in *.
  destruct r as [a|[]]; try (exists t1; split; [exact K1|apply H3; auto; discriminate]). exact (H2 s1 t1 K1 H1).
Qed.
Lemma trip_ret : forall A (a : A) s t (R : res A -> kch -> tree -> Prop), KI s t -> R (Ok a) s t -> trip (kret P a) s R.
Proof. intros. exists t. split; auto. Qed.
Lemma trip_fail : forall A e s t (R : res A -> kch -> tree -> Prop), KI s t -> R (Err e) s t -> trip (kfail P e) s R.
Proof. intros. exists t. split; auto. Qed.
Lemma trip_lift : forall A (m : st A) s t t' p a (R : res A -> kch -> tree -> Prop), KI s t -> m (c_pib s) = (p, a) -> inv p t' -> ceq t' t ->
  R a (mkC p (c_tpm s) (c_open s)) t' -> trip (lift P m) s R.
Proof. intros A m s t t' p a R K E I C H. exists t'. unfold lift. rewrite E. cbn [fst snd]. split; [eapply KI_ceq; eauto|exact H]. Qed.
Lemma trip_conseq : forall A (m : kst A) s (R R' : res A -> kch -> tree -> Prop), trip m s R -> (forall r s' t', KI s' t' -> R r s' t' -> R' r s' t') -> trip m s R'.
Proof. intros A m s R R' (t & K & H) W. exists t. split; auto. Qed.

(* ---- Tpm ---- *)
Lemma T_find : forall n s t, KI s t -> trip (tpm_find P n) s (fun r s' t' => r = Ok (nget n (c_tpm s)) /\ c_pib s' = c_pib s /\ c_tpm s' = c_tpm s /\ t' = t).
Proof.
  intros n s t K. exists t. unfold tpm_find. destruct (nget n (c_open s)) as [q|] eqn:E; [|destruct (nget n (c_tpm s)) as [q|] eqn:F]; cbn [fst snd].
  - split; auto. rewrite (ki_open _ _ _ K _ _ E). auto.
  - split; auto. destruct K as [A B C D]. constructor; auto. cbn [M_KeyChain.c_open M_KeyChain.c_tpm M_KeyChain.c_pib]. intros m x. rewrite nget_nset. destruct (nm_dec m n) as [->|]; [congruence|apply B].
  - split; auto.
Qed.
(* a private key is added under a name that is not in use *)
Lemma KI_new_private : forall s t n q, KI s t -> nget n (c_tpm s) = None -> KI (mkC (c_pib s) (nset n q (c_tpm s)) (c_open s)) t /\ KI (mkC (c_pib s) (nset n q (c_tpm s)) (nset n q (c_open s))) t.
Proof.
  intros s t n q [A B C D] U. assert (Y : forall kn b, t_key t kn = Some b -> ~ False -> exists x, nget kn (nset n q (c_tpm s)) = Some x /\ gw b x).
  { intros kn b H1 H2. destruct (C kn b H1 H2) as (x & E & G). exists x. split; auto. rewrite nget_nset. destruct (nm_dec kn n) as [->|]; [congruence|exact E]. }
  split; constructor; auto; cbn [M_KeyChain.c_open M_KeyChain.c_tpm M_KeyChain.c_pib].
  - intros m x H. rewrite nget_nset. destruct (nm_dec m n) as [->|]; [apply B in H; congruence|auto].
  - intros m x. rewrite !nget_nset. destruct (nm_dec m n); auto.
Qed.
Definition priv (s : kch) (n : nm) : option P := nget n (c_tpm s).
Lemma first_free_ok : forall i l s, match first_free P i l s with Ok n => priv s n = None /\ identity_of_key n = Some i | Err e => e = EFuel end.
Proof.
  intros i l s. induction l as [|d l IH]; cbn [first_free]; auto. unfold tpm_has. rewrite has_isome. unfold priv in *. destruct (nget (constructKeyName i d) (c_tpm s)) eqn:E; cbn [isome]; auto.
  split; auto. apply identity_app.
Qed.
Lemma new_name_ok : forall s i pr, unused P pub sha hdig s i pr ->
  match new_name P pub sha hdig i pr s with Ok n => priv s n = None /\ (pr_hmac P pr = false -> identity_of_key n = Some i) | Err e => e = ELogic \/ e = EFuel end.
Proof.
  intros s i pr U. unfold new_name, unused, private, priv in *. destruct (pr_hmac P pr) eqn:HM. { split; [exact U|discriminate]. }
  destruct (pr_id P pr) as [c| |l].
  - unfold tpm_has. rewrite has_isome. destruct (nget (constructKeyName i c) (c_tpm s)) eqn:E; cbn [isome]; auto. split; auto. intros _. apply identity_app.
  - destruct (pub (pr_key P pr)) as [b|]; auto. split; [now apply U|]. intros _. apply identity_app.
  - pose proof (first_free_ok i l s) as F. unfold priv in F. destruct (first_free P i l s); auto. tauto.
Qed.

(* ---- preparing a signature ---- *)
Definition loc (t : tree) (kl : option nm) (kn : nm) (cert : option nm) : nm :=
  match kl with Some l => l | None => match cert with Some l => l | None => match t_defC t kn with Some l => l | None => kn end end end.
Lemma T_prepare_key : forall kl k cn s t kn b, KI s t -> t_hkey t k = Some kn -> t_key t kn = Some b ->
  trip (prepare_key P sigtype kl k cn) s (fun r s' t' => r = match sigtype b with Some ty => Ok (kn, ty, Some (loc t kl kn cn)) | None => Err ELogic end /\ c_tpm s' = c_tpm s /\ t' = t).
Proof.
  intros kl k cn s t kn b K H B. unfold prepare_key. destruct (G_keyInfo _ _ (ki_inv _ _ _ K) k kn H) as (b' & B' & _ & G). assert (b' = b) by congruence. subst b'.
  eapply trip_then with (R1 := fun r s' t' => r = Ok (kn, b) /\ c_tpm s' = c_tpm s /\ t' = t).
  { eapply trip_lift; [exact K|apply (G _ (fun a b => (a, b)))|exact (ki_inv _ _ _ K)|apply ceq_refl|]. auto. }
  2: { intros e s' t' _ (E & _). discriminate. }
  intros a s1 t1 K1 (E & T1 & ->). injection E as ->. cbn [fst snd].
  eapply trip_then with (R1 := fun r s' t' => r = (match sigtype b with Some ty => Ok ty | None => Err ELogic end) /\ c_tpm s' = c_tpm s /\ t' = t).
  { destruct (sigtype b); [eapply trip_ret|eapply trip_fail]; eauto. }
  2: { intros e s' t' _ (E & A & B0). destruct (sigtype b); [discriminate|]. injection E as ->. auto. }
  intros ty s2 t2 K2 (E & T2 & ->). destruct (sigtype b) as [ty'|]; [|discriminate]. injection E as ->.
  eapply trip_then with (R1 := fun r s' t' => r = Ok (loc t kl kn cn) /\ c_tpm s' = c_tpm s /\ t' = t).
  2: { intros l s3 t3 K3 (E & T3 & ->). injection E as ->. eapply trip_ret; eauto. }
  2: { intros e s' t' _ (E & _). discriminate. }
  unfold loc. destruct kl as [l|]. { eapply trip_ret; eauto. } destruct cn as [l|]. { eapply trip_ret; eauto. }
  pose proof (G_getDefCert _ _ (ki_inv _ _ _ K2) k kn H) as D. destruct (t_defC t kn) as [cn|].
  - destruct D as (p' & c & D1 & D2 & D3 & D4).
    eapply trip_catch with (R1 := fun r s' t' => r = Ok cn /\ c_tpm s' = c_tpm s /\ t' = t).
    { eapply trip_then with (R1 := fun r s' t' => r = Ok c /\ c_tpm s' = c_tpm s /\ t' = t).
      - eapply trip_lift; [exact K2|exact D1|exact D4|apply ceq_refl|]. auto.
      - intros c' s3 t3 K3 (E & T3 & ->). injection E as ->. eapply trip_ret; eauto. now rewrite D3.
      - intros e s' t' _ (E & _). discriminate. }
    { intros s' t' _ (E & _). discriminate. }
    auto.
  - destruct D as (p' & D1 & D4).
    eapply trip_catch with (R1 := fun r s' t' => r = Err ERuntime /\ c_tpm s' = c_tpm s /\ t' = t).
    { eapply trip_then with (R1 := fun r s' t' => r = Err ERuntime /\ c_tpm s' = c_tpm s /\ t' = t).
      - eapply trip_lift; [exact K2|exact D1|exact D4|apply ceq_refl|]. auto.
      - intros c' s3 t3 K3 (E & _). discriminate.
      - intros e s' t' _ (E & A & B0). injection E as ->. auto. }
    { intros s3 t3 K3 (E & T3 & ->). eapply trip_ret; eauto. }
    intros r s' t' _ NE (E & _). congruence.
Qed.
(* the key is the one of this name, as stored in t *)
Definition prepared (t : tree) (kl : option nm) (kn : nm) (cert : option nm) : res (nm * N * option nm) :=
  match t_key t kn with Some b => match sigtype b with Some ty => Ok (kn, ty, Some (loc t kl kn cert)) | None => Err ELogic end | None => Err ELogic end.
Lemma prepared_ceq : forall t t' kl kn cert, ceq t' t -> prepared t' kl kn cert = prepared t kl kn cert.
Proof. intros t t' kl kn cert [E1 E2 E3 E4 E5 E6]. unfold prepared, loc. now rewrite E3, E6. Qed.
Lemma T_prepare_id : forall kl h s t i, KI s t -> t_hid t h = Some i ->
  trip (prepare_id P sigtype kl h) s (fun r s' t' => r = match t_defK t i with Some kn => prepared t kl kn None | None => Err ELogic end /\ c_tpm s' = c_tpm s /\ ceq t' t).
Proof.
  intros kl h s t i K H. unfold prepare_id. pose proof (G_getDefKey _ _ (ki_inv _ _ _ K) h i H) as D. destruct (t_defK t i) as [kn|] eqn:E.
  - destruct D as (p' & k & t' & D1 & D2 & D3 & D4 & D5 & _). destruct (w_defK _ (v_t _ _ (ki_inv _ _ _ K)) _ _ E) as [W1 W2].
    eapply trip_then with (R1 := fun r s' t1 => r = Ok k /\ c_tpm s' = c_tpm s /\ t1 = t').
    { eapply trip_catch with (R1 := fun r s' t1 => r = Ok k /\ c_tpm s' = c_tpm s /\ t1 = t').
      - eapply trip_lift; [exact K|exact D1|exact D2|exact D5|auto].
      - intros s1 t1 _ (F & _). discriminate.
      - auto. }
    2: { intros e s1 t1 _ (F & _). discriminate. }
    intros k0 s1 t1 K1 (F & T1 & ->). injection F as ->. destruct (t_key t kn) as [b|] eqn:B; [|congruence].
    eapply trip_conseq; [eapply (T_prepare_key kl k None s1 t' kn b); auto; now rewrite (e_key _ _ D5)|].
    cbv beta. intros r s2 t2 _ (G1 & G2 & ->). split; [|split; [congruence|auto]]. rewrite G1. unfold prepared. rewrite B. unfold loc. now rewrite (e_defC _ _ D5).
  - destruct D as (p' & D1 & D2).
    eapply trip_then with (R1 := fun r s' t1 => r = Err ELogic /\ c_tpm s' = c_tpm s /\ t1 = t).
    { eapply trip_catch with (R1 := fun r s' t1 => r = Err ERuntime /\ c_tpm s' = c_tpm s /\ t1 = t).
      - eapply trip_lift; [exact K|exact D1|exact D2|apply ceq_refl|auto].
      - intros s1 t1 K1 (_ & F & ->). eapply trip_fail; eauto.
      - intros r s1 t1 _ NE (F & _). congruence. }
    { intros a s1 t1 _ (F & _). discriminate. }
    intros e s1 t1 _ (F & G & ->). injection F as ->. splits; auto. apply ceq_refl.
Qed.
(* getIdentity(i).getKey(kn) *)
Lemma T_open_key : forall i kn s t, KI s t -> identity_of_key kn = Some i ->
  trip (kthen P (lift P (pb_getIdentity i)) (fun h => lift P (id_getKey h kn))) s
    (fun r s' t' => c_tpm s' = c_tpm s /\ ceq t' t /\ match t_key t kn with Some _ => exists k, r = Ok k /\ t_hkey t' k = Some kn | None => r = Err ERuntime end).
Proof.
  intros i kn s t K H. pose proof (G_getId _ _ (ki_inv _ _ _ K) i) as D. destruct (t_id t i) eqn:E.
  - destruct D as (p' & h & t' & D1 & D2 & D3 & D4).
    eapply trip_then with (R1 := fun r s' t1 => r = Ok h /\ c_tpm s' = c_tpm s /\ t1 = t').
    { eapply trip_lift; [exact K|exact D1|exact D2|exact D4|auto]. }
    2: { intros e s1 t1 _ (F & _). discriminate. }
    intros h0 s1 t1 K1 (F & T1 & ->). injection F as ->. pose proof (G_getKey _ _ (ki_inv _ _ _ K1) h i kn D3 H) as G. rewrite (e_key _ _ D4) in G.
    destruct (t_key t kn) as [b|].
    + destruct G as (p2 & k & t2 & G1 & G2 & G3 & G4 & G5). eapply trip_lift; [exact K1|exact G1|exact G2|exact G5|]. splits; auto. { exact (ceq_trans _ _ _ G5 D4). } exists k. auto.
    + destruct G as (p2 & G1 & G2). eapply trip_lift; [exact K1|exact G1|exact G2|apply ceq_refl|]. splits; auto.
  - destruct D as (p' & D1 & D2).
    eapply trip_then with (R1 := fun r s' t1 => r = Err ERuntime /\ c_tpm s' = c_tpm s /\ t1 = t).
    { eapply trip_lift; [exact K|exact D1|exact D2|apply ceq_refl|auto]. }
    { intros a s1 t1 _ (F & _). discriminate. }
    intros e s1 t1 _ (F & G & ->). injection F as ->. splits; auto; [apply ceq_refl|]. destruct (t_key t kn) eqn:B; auto.
    destruct (w_key _ (v_t _ _ (ki_inv _ _ _ K)) kn) as (i' & W1 & W2); congruence.
Qed.
Lemma live_id_some : forall s t h i, KI s t -> t_hid t h = Some i -> live_id P (Some h) s = Some h.
Proof. intros s t h i K H. cbn. destruct (G_idName _ _ (ki_inv _ _ _ K) h i H) as [A _]. destruct (find_id h (c_pib s)); congruence. Qed.
Lemma live_id_none : forall s t h, KI s t -> t_hid t h = None -> live_id P (Some h) s = None.
Proof. intros s t h K H. cbn. now rewrite (hid_none _ _ _ (ki_inv _ _ _ K) H). Qed.
Lemma live_key_some : forall s t h i, KI s t -> t_hkey t h = Some i -> live_key P (Some h) s = Some h.
Proof. intros s t h i K H. cbn. destruct (G_keyInfo _ _ (ki_inv _ _ _ K) h i H) as (b & _ & A & _). destruct (find_key h (c_pib s)); congruence. Qed.
Lemma live_key_none : forall s t h, KI s t -> t_hkey t h = None -> live_key P (Some h) s = None.
Proof. intros s t h K H. cbn. now rewrite (hkey_none _ _ _ (ki_inv _ _ _ K) H). Qed.
(* prepareSignatureInfo by key and by certificate, given a name *)
Lemma T_prep_named : forall kl kn i cert s t, KI s t -> identity_of_key kn = Some i ->
  trip (kthen P (catch P (kthen P (lift P (pb_getIdentity i)) (fun h => lift P (id_getKey h kn))) (kfail P ELogic)) (fun k => prepare_key P sigtype kl k cert)) s
    (fun r s' t' => r = prepared t kl kn cert /\ c_tpm s' = c_tpm s /\ ceq t' t).
Proof.
  intros kl kn i cert s t K H. destruct (t_key t kn) as [b|] eqn:B.
  - eapply trip_then with (R1 := fun r s' t' => c_tpm s' = c_tpm s /\ ceq t' t /\ exists k, r = Ok k /\ t_hkey t' k = Some kn).
    { eapply trip_catch; [apply (T_open_key i kn s t K H)| |]; cbv beta; rewrite B.
      - intros s1 t1 _ (_ & _ & k & F & _). discriminate.
      - auto. }
    2: { intros e s1 t1 _ (_ & _ & k & F & _). discriminate. }
    intros k s1 t1 K1 (T1 & C1 & k' & F & G). injection F as <-.
    eapply trip_conseq; [eapply (T_prepare_key kl k cert s1 t1 kn b); auto; now rewrite (e_key _ _ C1)|].
    cbv beta. intros r s2 t2 _ (G1 & G2 & ->). split; [|split; [congruence|auto]]. rewrite G1. unfold prepared, loc. now rewrite B, (e_defC _ _ C1).
  - eapply trip_then with (R1 := fun r s' t' => c_tpm s' = c_tpm s /\ ceq t' t /\ r = Err ELogic).
    { eapply trip_catch; [apply (T_open_key i kn s t K H)| |]; cbv beta; rewrite B.
      - intros s1 t1 K1 (A1 & A2 & _). eapply trip_fail; eauto.
      - intros r s1 t1 _ NE (_ & _ & F). congruence. }
    { intros a s1 t1 _ (_ & _ & F). discriminate. }
    intros e s1 t1 _ (A1 & A2 & F). injection F as ->. unfold prepared. rewrite B. auto.
Qed.
Lemma T_sign_with : forall n rnd msg s t, KI s t ->
  trip (sign_with P sg sha n rnd msg) s (fun r s' t' => r = (if names_eqb n DIGEST then Ok (sha msg) else match nget n (c_tpm s) with Some q => Ok (sg q rnd msg) | None => Err ELogic end) /\ c_tpm s' = c_tpm s /\ t' = t).
Proof.
  intros n rnd msg s t K. unfold sign_with. destruct (names_eqb n DIGEST). { eapply trip_ret; eauto. }
  eapply trip_then; [apply (T_find n s t K)| |].
  - cbv beta. intros q s1 t1 K1 (E & _ & T1 & ->). injection E as ->. destruct (nget n (c_tpm s)); [eapply trip_ret|eapply trip_fail]; eauto.
  - cbv beta. intros e s1 t1 _ (E & _). discriminate.
Qed.

(* ---- what the changes of the PIB do to the invariant ---- *)
Lemma KI_sub : forall X s t p t', KIx X s t -> inv p t' -> (forall kn b, t_key t' kn = Some b -> t_key t kn = Some b) -> (forall cn c, t_cert t' cn = Some c -> t_cert t cn = Some c) ->
  KIx X (mkC p (c_tpm s) (c_open s)) t'.
Proof. intros X s t p t' [A B C D] I K1 K2. constructor; auto. intros cn c kn b H1 H2 H3. apply (D cn c kn b); auto. Qed.
Lemma KI_addCert : forall X s t p i kn c, KIx X s t -> key_of_cert (pc_name c) = Some kn -> t_key t kn = Some (pc_bits c) -> inv p (t_addCert i kn c t) ->
  KIx X (mkC p (c_tpm s) (c_open s)) (t_addCert i kn c t).
Proof.
  intros X s t p i kn c [A B C D] E1 E2 I. constructor; auto. cbn. intros cn c' kn' b H1 H2 H3. unfold upd in H1. destruct (nm_dec cn (pc_name c)) as [->|]; [|eauto]. congruence.
Qed.
Lemma KI_setDefC : forall X s t p i kn c, KIx X s t -> key_of_cert (pc_name c) = Some kn -> t_key t kn = Some (pc_bits c) -> inv p (t_setDefC kn (pc_name c) (t_addCert i kn c t)) ->
  KIx X (mkC p (c_tpm s) (c_open s)) (t_setDefC kn (pc_name c) (t_addCert i kn c t)).
Proof.
  intros X s t p i kn c [A B C D] E1 E2 I. constructor; auto. cbn. intros cn c' kn' b H1 H2 H3. unfold upd in H1. destruct (nm_dec cn (pc_name c)) as [->|]; [|eauto]. congruence.
Qed.
Lemma KI_addKey : forall s t p t' i kn b q, KI s t -> t_key t kn = None -> nget kn (c_tpm s) = Some q -> gw b q -> inv p t' -> ceq t' (t_addKey i kn b t) -> KI (mkC p (c_tpm s) (c_open s)) t'.
Proof.
  intros s t p t' i kn b q [A B C D] F Q G I [E1 E2 E3 E4 E5 E6]. constructor; auto.
  - intros kn' b'. rewrite E3. cbn. unfold upd. destruct (nm_dec kn' kn) as [->|]; [|apply C]. intros H _. injection H as <-. exists q. auto.
  - intros cn c kn' b'. rewrite E5, E3. cbn. unfold upd. intros H1 H2. destruct (nm_dec kn' kn) as [->|]; [|eauto]. destruct (w_cert _ (v_t _ _ A) _ _ H1) as (_ & k' & W1 & W2). congruence.
Qed.
Lemma key_private : forall s t kn, KI s t -> nget kn (c_tpm s) = None -> t_key t kn = None.
Proof. intros s t kn K H. destruct (t_key t kn) as [b|] eqn:E; auto. destruct (ki_cov _ _ _ K kn b E (fun x => x)) as (q & Q & _). congruence. Qed.

(* ---- creating ---- *)
Lemma T_prepare_handle : forall kl k n s t kn b, KI s t -> t_hkey t k = Some kn -> t_key t kn = Some b ->
  trip (prepare P hdig sigtype (SgKey P (Some k) n) kl) s (fun r s' t' => r = match sigtype b with Some ty => Ok (kn, ty, Some (loc t kl kn None)) | None => Err ELogic end /\ c_tpm s' = c_tpm s /\ t' = t).
Proof.
  intros kl k n s t kn b K H B. pose proof (T_prepare_key kl k None s t kn b K H B) as G. unfold trip, prepare in *. rewrite (live_key_some _ _ _ _ K H). exact G.
Qed.
Lemma T_info : forall k s t kn b, KI s t -> t_hkey t k = Some kn -> t_key t kn = Some b ->
  trip (lift P (with_key k (fun x => ret (k_name x, k_bits x)))) s (fun r s' t' => r = Ok (kn, b) /\ c_tpm s' = c_tpm s /\ t' = t).
Proof.
  intros k s t kn b K H B. destruct (G_keyInfo _ _ (ki_inv _ _ _ K) k kn H) as (b' & B' & _ & G). assert (b' = b) by congruence. subst b'.
  eapply trip_lift; [exact K|apply (G _ (fun a b => (a, b)))|exact (ki_inv _ _ _ K)|apply ceq_refl|]. auto.
Qed.
Lemma addCert_ok : forall p t k kn c, inv p t -> t_hkey t k = Some kn -> t_key t kn = Some (pc_bits c) -> key_of_cert (pc_name c) = Some kn -> (forall c', t_defC t kn = Some (pc_name c) -> t_cert t (pc_name c) = Some c' -> c' = c) ->
  exists p', key_addCert k c p = (p', Ok tt) /\ inv p' (t_addCert (identity_of_key' kn) kn c t).
Proof.
  intros p t k kn c I H B KC D.
  assert (R : real_cert c) by (unfold real_cert; congruence).
  assert (C : careful_op t (PAddCert k c)) by (intros kn' c' H1 H2 H3 H4; assert (kn' = kn) by congruence; subst kn'; auto).
  destruct (G_addCert _ _ I k kn c (pc_bits c) H B R C) as [(p' & G1 & G2)|(_ & _ & p' & G1 & G2)]; eauto. exfalso.
  pose proof (s_addCert _ _ k c I R C) as G. unfold good in G. cbn [sem pb_step] in G. unfold on_key, exists_, as_ in G. rewrite H, B, G1 in G. destruct (list_eq_dec byte_dec (pc_bits c) (pc_bits c)); [|congruence].
  unfold ownedC in G. rewrite KC, isopt_same in G. destruct G as [G _]. exact G.
Qed.
Lemma T_selfSign : forall k ver rnd s t kn b, KI s t -> t_hkey t k = Some kn -> t_key t kn = Some b -> t_defC t kn = None ->
  trip (selfSign P sg sha hdig sigtype portion k ver rnd) s (fun r s' t' => c_tpm s' = c_tpm s /\
    ((sigtype b = None /\ r = Err ELogic /\ t' = t) \/
     (sigtype b <> None /\ r = Ok tt /\ exists v, t' = t_addCert (identity_of_key' kn) kn (mkPC (kn ++ [SELF; ver]) b v) t))).
Proof.
  intros k ver rnd s t kn b K H B D. destruct (w_key _ (v_t _ _ (ki_inv _ _ _ K)) kn) as (i & Hi & _); [congruence|].
  unfold selfSign. eapply trip_then; [apply (T_info k s t kn b K H B)| |]; cbv beta. 2: { intros e s1 t1 _ (E & _). discriminate. }
  intros a s1 t1 K1 (E & T1 & ->). injection E as ->. cbn [fst snd].
  eapply trip_then; [apply (T_prepare_handle None k kn s1 t kn b K1 H B)| |]; cbv beta.
  2: { intros e s2 t2 _ (E & T2 & ->). split; [congruence|]. left. destruct (sigtype b); [discriminate|]. injection E as ->. auto. }
  intros [[n ty] l] s2 t2 K2 (E & T2 & ->). destruct (sigtype b) as [ty'|] eqn:Sb; [|discriminate]. injection E as -> -> ->.
  destruct (ki_cov _ _ _ K2 kn b B (fun x => x)) as (q & Q & _).
  eapply trip_then; [apply (T_sign_with kn rnd (portion (kn ++ [SELF; ver]) b ty' (Some (loc t None kn None))) s2 t K2)| |]; cbv beta; rewrite (not_digest _ _ Hi), Q.
  2: { intros e s3 t3 _ (E & _). discriminate. }
  intros v s3 t3 K3 (E & T3 & ->). clear E.
  set (c := mkPC (kn ++ [SELF; ver]) b v). pose proof (cert_app kn i SELF ver Hi) as KC.
  destruct (addCert_ok _ _ k kn c (ki_inv _ _ _ K3) H B KC) as (p' & G1 & G2). { intros c'. congruence. }
  exists (t_addCert (identity_of_key' kn) kn c t). unfold lift. rewrite G1. cbn [fst snd]. split.
  - apply KI_addCert; auto.
  - split; [cbn; congruence|]. right. splits; auto; [congruence|]. exists v. reflexivity.
Qed.
Definition okE (e : err) : Prop := e = ELogic \/ e = EInvalidArg \/ e = EFuel.
Lemma unused_tpm : forall s s' i pr, c_tpm s' = c_tpm s -> unused P pub sha hdig s i pr -> unused P pub sha hdig s' i pr.
Proof. intros s s' i pr E. unfold unused, private. now rewrite E. Qed.
Lemma need_id_ok : forall s t h i, KI s t -> t_hid t h = Some i -> need_id P h s = (s, Ok tt).
Proof. intros s t h i K H. unfold need_id. now rewrite (live_id_some _ _ _ _ K H). Qed.
Lemma need_key_ok : forall s t h i, KI s t -> t_hkey t h = Some i -> need_key P h s = (s, Ok tt).
Proof. intros s t h i K H. unfold need_key. now rewrite (live_key_some _ _ _ _ K H). Qed.
Lemma T_need_id : forall s t h i, KI s t -> t_hid t h = Some i -> trip (need_id P h) s (fun r s' t' => r = Ok tt /\ s' = s /\ t' = t).
Proof. intros s t h i K H. exists t. rewrite (need_id_ok _ _ _ _ K H). auto. Qed.
Lemma T_need_key : forall s t h i, KI s t -> t_hkey t h = Some i -> trip (need_key P h) s (fun r s' t' => r = Ok tt /\ s' = s /\ t' = t).
Proof. intros s t h i K H. exists t. rewrite (need_key_ok _ _ _ _ K H). auto. Qed.
Lemma T_name_of_id : forall s t h i, KI s t -> t_hid t h = Some i -> trip (name_of_id P h) s (fun r s' t' => r = Ok i /\ c_tpm s' = c_tpm s /\ t' = t).
Proof. intros s t h i K H. destruct (G_idName _ _ (ki_inv _ _ _ K) h i H) as [_ G]. eapply trip_lift; [exact K|exact G|exact (ki_inv _ _ _ K)|apply ceq_refl|auto]. Qed.
Lemma T_name_of_key : forall s t h i, KI s t -> t_hkey t h = Some i -> trip (name_of_key P h) s (fun r s' t' => r = Ok i /\ c_tpm s' = c_tpm s /\ t' = t).
Proof. intros s t h i K H. destruct (G_keyInfo _ _ (ki_inv _ _ _ K) h i H) as (b & _ & _ & G). eapply trip_lift; [exact K|apply (G _ (fun a b => a))|exact (ki_inv _ _ _ K)|apply ceq_refl|auto]. Qed.

Lemma T_createKey : forall h pr s t i, KI s t -> t_hid t h = Some i -> unused P pub sha hdig s i pr ->
  trip (kc_createKey P pub sg sha hdig sigtype portion h pr) s (fun r s' t' =>
    match r with
    | Ok k => exists kn, t_hkey t' k = Some kn /\ identity_of_key kn = Some i /\ t_hid t' = t_hid t /\ t_defC t' kn <> None /\ t_defK t' i = or_else (t_defK t i) kn
    | Err e => okE e end).
Proof.
  intros h pr s t i K H U. unfold kc_createKey.
  eapply trip_then; [apply (T_need_id _ _ _ _ K H)| |]; cbv beta. 2: { intros e s1 t1 _ (E & _). discriminate. } intros _ s0 t0 K0 (_ & -> & ->).
  eapply trip_then; [apply (T_name_of_id _ _ _ _ K H)| |]; cbv beta. 2: { intros e s1 t1 _ (E & _). discriminate. } intros i' s1 t1 K1 (E & T1 & ->). injection E as ->.
  apply (unused_tpm s s1 i pr T1) in U. pose proof (new_name_ok s1 i pr U) as NN.
  eapply trip_then with (R1 := fun r s' t' => match r with Ok n => new_name P pub sha hdig i pr s1 = Ok n /\ t' = t /\ nget n (c_tpm s') = Some (pr_key P pr) /\ t_key t n = None | Err e => okE e end).
  { unfold trip, tpm_create. destruct (new_name P pub sha hdig i pr s1) as [n|e] eqn:E; exists t; cbn [fst snd].
    - destruct NN as [N1 N2]. split; [apply (KI_new_private s1 t n (pr_key P pr) K1 N1)|]. splits; auto.
      + cbn [M_KeyChain.c_tpm]. rewrite nget_nset. destruct (nm_dec n n); congruence.
      + now apply (key_private s1 t n K1).
    - split; auto. destruct NN as [->| ->]; unfold okE; auto. }
  2: auto.
  intros n s2 t2 K2 (E2 & -> & Q & F). rewrite E2 in NN. destruct NN as [N1 N2].
  eapply trip_then with (R1 := fun r s' t' => match r with Ok b => pub (pr_key P pr) = Some b /\ c_tpm s' = c_tpm s2 /\ t' = t | Err e => okE e end).
  { unfold tpm_public. eapply trip_then; [apply (T_find n s2 t K2)| |]; cbv beta. 2: { intros e s3 t3 _ (E & _). discriminate. }
    intros q s3 t3 K3 (E & _ & T3 & ->). injection E as ->. rewrite Q. destruct (pub (pr_key P pr)) as [b|].
    - eapply trip_ret; eauto.
    - eapply trip_fail; eauto. unfold okE; auto. }
  2: auto.
  intros b s3 t3 K3 (PB & T3 & ->). pose proof (G_addKey _ _ (ki_inv _ _ _ K3) h i b n H) as G. destruct (isopt (identity_of_key n) i) eqn:IO.
  - apply isopt_some in IO. destruct G as (p' & k & t' & G1 & G2 & G3 & G4 & G5).
    eapply trip_then with (R1 := fun r s' t1 => r = Ok k /\ t1 = t').
    { exists t'. unfold lift. rewrite G1. cbn [fst snd]. split; auto. eapply KI_addKey; eauto. { rewrite T3; exact Q. } eapply derived; eauto. }
    2: { intros e s4 t4 _ (E & _). discriminate. }
    intros k0 s4 t4 K4 (E & ->). injection E as ->.
    assert (B : t_key t' n = Some b). { rewrite (e_key _ _ G5). cbn. unfold upd. destruct (nm_dec n n); congruence. }
    assert (D : t_defC t' n = None). { rewrite (e_defC _ _ G5). cbn. destruct (t_defC t n) as [cn|] eqn:E; auto. destruct (w_defC _ (v_t _ _ (ki_inv _ _ _ K)) _ _ E) as [W1 W2].
      destruct (t_cert t cn) as [c|] eqn:E'; [|congruence]. destruct (w_cert _ (v_t _ _ (ki_inv _ _ _ K)) _ _ E') as (_ & kn & W3 & W4). congruence. }
    eapply trip_then; [apply (T_selfSign k (pr_ver P pr) (pr_rnd P pr) s4 t' n b K4 G3 B D)| |]; cbv beta.
    + intros u5 s5 t5 K5 (T5 & [(_ & E & _)|(_ & _ & v & ->)]); [discriminate|]. eapply trip_ret; eauto. exists n.
      assert (IK : identity_of_key' n = i) by (unfold identity_of_key'; now rewrite IO).
      splits; auto.
      * cbn. unfold upd. destruct (nm_dec n n); [|congruence]. rewrite D. cbn. discriminate.
      * rewrite IK. cbn. unfold upd. destruct (nm_dec i i); [|congruence]. rewrite (e_defK _ _ G5). cbn. unfold upd. destruct (nm_dec i i); [|congruence]. unfold or_else. destruct (t_defK t i); reflexivity.
    + intros e s5 t5 _ (_ & [(_ & E & _)|(_ & E & _)]); [injection E as ->; unfold okE; auto|discriminate].
  - destruct G as (p' & G1 & G2).
    eapply trip_then with (R1 := fun r s' t1 => r = Err EInvalidArg).
    { eapply trip_lift; [exact K3|exact G1|exact G2|apply ceq_refl|auto]. }
    { intros a s4 t4 _ E. discriminate. }
    intros e s4 t4 _ E. injection E as ->. unfold okE; auto.
Qed.
Lemma T_createIdentity : forall n pr s t, KI s t -> unused P pub sha hdig s n pr ->
  trip (kc_createIdentity P pub sg sha hdig sigtype portion n pr) s (fun r s' t' =>
    match r with Ok h => t_hid t' h = Some n /\ exists kn, t_defK t' n = Some kn /\ t_defC t' kn <> None | Err e => okE e end).
Proof.
  intros n pr s t K U. unfold kc_createIdentity. destruct (G_addId _ _ (ki_inv _ _ _ K) n) as (p1 & h & t1 & A1 & A2 & A3 & A4).
  eapply trip_then with (R1 := fun r s' t' => r = Ok h /\ c_tpm s' = c_tpm s /\ t' = t1).
  { exists t1. unfold lift. rewrite A1. cbn [fst snd]. split; auto. eapply KI_sub; eauto.
    - intros kn b. rewrite (e_key _ _ A4). now destruct (t_id t n).
    - intros cn c. rewrite (e_cert _ _ A4). now destruct (t_id t n). }
  2: { intros e s' t' _ (E & _). discriminate. }
  intros h0 s1 t1' K1 (E & T1 & ->). injection E as ->. apply (unused_tpm s s1 n pr T1) in U.
  (* the default key *)
  eapply trip_then with (R1 := fun r s' t' => match r with Ok k => exists kn, t_hkey t' k = Some kn /\ t_defK t' n = Some kn /\ t_hid t' h = Some n | Err e => okE e end).
  { pose proof (G_getDefKey _ _ (ki_inv _ _ _ K1) h n A3) as D. destruct (t_defK t1 n) as [kn|] eqn:DK.
    - destruct D as (p' & k & t' & D1 & D2 & D3 & D4 & D5 & _).
      eapply trip_catch with (R1 := fun r s' t2 => r = Ok k /\ t2 = t').
      + eapply trip_lift; [exact K1|exact D1|exact D2|exact D5|auto].
      + intros s' t2 _ (E & _). discriminate.
      + intros r s' t2 _ _ (-> & ->). exists kn. splits; auto; [rewrite (e_defK _ _ D5); auto|congruence].
    - destruct D as (p' & D1 & D2).
      eapply trip_catch with (R1 := fun r s' t2 => r = Err ERuntime /\ c_tpm s' = c_tpm s1 /\ t2 = t1).
      + eapply trip_lift; [exact K1|exact D1|exact D2|apply ceq_refl|auto].
      + intros s2 t2 K2 (_ & T2 & ->). eapply trip_conseq; [apply (T_createKey h pr s2 t1 n K2 A3 (unused_tpm _ _ _ _ T2 U))|]. cbv beta.
        intros [k|e] s3 t3 _; auto. intros (kn & B1 & B2 & B3 & B4 & B5). exists kn. splits; auto; [rewrite B5, DK; reflexivity|congruence].
      + intros r s' t2 _ NE (E & _). congruence. }
  2: auto.
  intros k s2 t2 K2 (kn & B1 & B2 & B3).
  (* its default certificate *)
  eapply trip_then with (R1 := fun r s' t' => match r with Ok _ => t_hid t' h = Some n /\ t_defK t' n = Some kn /\ t_defC t' kn <> None | Err e => okE e end).
  2: { intros _ s3 t3 K3 (C1 & C2 & C3). eapply trip_ret; eauto. }
  2: auto.
  destruct (w_defK _ (v_t _ _ (ki_inv _ _ _ K2)) _ _ B2) as [W1 W2]. destruct (t_key t2 kn) as [b|] eqn:B; [|congruence].
  pose proof (G_getDefCert _ _ (ki_inv _ _ _ K2) k kn B1) as D. destruct (t_defC t2 kn) as [cn|] eqn:DC.
  - destruct D as (p' & c & D1 & D2 & D3 & D4).
    eapply trip_catch with (R1 := fun r s' t' => r = Ok tt /\ t' = t2).
    + eapply trip_then with (R1 := fun r s' t' => r = Ok c /\ t' = t2).
      * eapply trip_lift; [exact K2|exact D1|exact D4|apply ceq_refl|auto].
      * intros _ s3 t3 K3 (_ & ->). eapply trip_ret; eauto.
      * intros e s3 t3 _ (E & _). discriminate.
    + intros s3 t3 _ (E & _). discriminate.
    + intros r s3 t3 _ _ (-> & ->). splits; auto. congruence.
  - destruct D as (p' & D1 & D4).
    eapply trip_catch with (R1 := fun r s' t' => r = Err ERuntime /\ t' = t2).
    + eapply trip_then with (R1 := fun r s' t' => r = Err ERuntime /\ t' = t2).
      * eapply trip_lift; [exact K2|exact D1|exact D4|apply ceq_refl|auto].
      * intros a s3 t3 K3 (E & _). discriminate.
      * intros e s3 t3 _ (E & ->). injection E as ->. auto.
    + intros s3 t3 K3 (_ & ->). eapply trip_conseq; [apply (T_selfSign k (pr_ver P pr) (pr_rnd P pr) s3 t2 kn b K3 B1 B DC)|]. cbv beta.
      intros r s4 t4 _ (_ & [(_ & -> & _)|(_ & -> & v & ->)]); [unfold okE; auto|].
      splits; auto.
      * cbn. unfold upd, or_else. destruct (nm_dec n (identity_of_key' kn)) as [<-|]; now rewrite B2.
      * cbn. unfold upd. destruct (nm_dec kn kn); [|congruence]. rewrite DC. discriminate.
    + intros r s3 t3 _ NE (E & _). congruence.
Qed.

(* ---- signing ---- *)
Lemma the_id_some : forall s t h i n, KI s t -> t_hid t h = Some i -> the_id P s (Some h) n = i.
Proof. intros s t h i n K H. unfold the_id, read. cbn [pb_step]. unfold as_. destruct (G_idName _ _ (ki_inv _ _ _ K) h i H) as [_ ->]. reflexivity. Qed.
Lemma the_id_none : forall s t h n, KI s t -> t_hid t h = None -> the_id P s (Some h) n = n.
Proof.
  intros s t h n K H. unfold the_id, read. cbn [pb_step]. unfold as_, with_id. rewrite (hid_none _ _ _ (ki_inv _ _ _ K) H). reflexivity.
Qed.
Lemma the_key_some : forall s t h i n, KI s t -> t_hkey t h = Some i -> the_key P s (Some h) n = i.
Proof.
  intros s t h i n K H. unfold the_key, read. cbn [pb_step]. destruct (G_keyInfo _ _ (ki_inv _ _ _ K) h i H) as (b & _ & _ & G). rewrite (G _ AInfo). reflexivity.
Qed.
Lemma the_key_none : forall s t h n, KI s t -> t_hkey t h = None -> the_key P s (Some h) n = n.
Proof.
  intros s t h n K H. unfold the_key, read. cbn [pb_step]. unfold with_key. rewrite (hkey_none _ _ _ (ki_inv _ _ _ K) H). reflexivity.
Qed.
Lemma by_key_t : forall s t kn cert, KI s t -> by_key P s kn cert = if isome (t_key t kn) then ByKey P kn cert else Refused P.
Proof. intros s t kn cert K. unfold by_key, stored. rewrite has_isome, (r_keys _ _ (v_b _ _ (ki_inv _ _ _ K))). reflexivity. Qed.
Lemma by_identity_t : forall s t i, KI s t -> by_identity P s i = match t_defK t i with Some kn => if isome (t_key t kn) then ByKey P kn None else Refused P | None => Refused P end.
Proof. intros s t i K. unfold by_identity. unfold stored at 1. rewrite (r_defK _ _ (v_b _ _ (ki_inv _ _ _ K))). destruct (t_defK t i); auto. now apply by_key_t. Qed.
Definition outcome (s : kch) (t : tree) (kl : option nm) (w : how P) (r : res (nm * N * option nm)) (s' : kch) : Prop :=
  match w with
  | ByDigest _ => r = Ok (DIGEST, 0, kl) /\ c_tpm s' = c_tpm s
  | ByHmac _ q => let n := HMACID ++ [(8, hdig q)] in r = Ok (n, 4, Some n) /\ nget n (c_tpm s') = Some (match nget n (c_tpm s) with Some x => x | None => q end)
  | ByKey _ kn cert => r = prepared t kl kn cert /\ c_tpm s' = c_tpm s
  | Refused _ => (r = Err ELogic \/ r = Err EInvalidArg) /\ c_tpm s' = c_tpm s
  end.
Lemma outcome_key : forall s t kl kn cert r s', r = prepared t kl kn cert -> c_tpm s' = c_tpm s -> outcome s t kl (if isome (t_key t kn) then ByKey P kn cert else Refused P) r s'.
Proof. intros s t kl kn cert r s' -> T. destruct (t_key t kn) eqn:E; cbn; auto. split; auto. left. unfold prepared. now rewrite E. Qed.
Lemma outcome_id : forall s t kl i r s', r = match t_defK t i with Some kn => prepared t kl kn None | None => Err ELogic end -> c_tpm s' = c_tpm s ->
  outcome s t kl (match t_defK t i with Some kn => if isome (t_key t kn) then ByKey P kn None else Refused P | None => Refused P end) r s'.
Proof. intros s t kl i r s' E T. destruct (t_defK t i); [now apply outcome_key|]. cbn. auto. Qed.
Lemma T_named_id : forall kl i s t, KI s t ->
  trip (kthen P (catch P (lift P (pb_getIdentity i)) (kfail P ELogic)) (fun h => prepare_id P sigtype kl h)) s
    (fun r s' t' => outcome s t kl (by_identity P s i) r s' /\ ceq t' t).
Proof.
  intros kl i s t K. rewrite (by_identity_t s t i K). pose proof (G_getId _ _ (ki_inv _ _ _ K) i) as G. destruct (t_id t i) eqn:E.
  - destruct G as (p' & h & t1 & G1 & G2 & G3 & G4).
    eapply trip_then with (R1 := fun r s' t' => r = Ok h /\ c_tpm s' = c_tpm s /\ t' = t1).
    + eapply trip_catch with (R1 := fun r s' t' => r = Ok h /\ c_tpm s' = c_tpm s /\ t' = t1).
      * eapply trip_lift; [exact K|exact G1|exact G2|exact G4|auto].
      * intros s' t' _ (X & _). discriminate.
      * auto.
    + intros h0 s1 t1' K1 (X & T1 & ->). injection X as ->. eapply trip_conseq; [apply (T_prepare_id kl h s1 t1 i K1 G3)|]. cbv beta. intros r s2 t2 _ (R & T2 & C2). split; [|eapply ceq_trans; eauto].
      apply outcome_id; [|congruence]. rewrite R, (e_defK _ _ G4). destruct (t_defK t i); auto. now apply prepared_ceq.
    + intros e s1 t1' _ (X & _). discriminate.
  - destruct G as (p' & G1 & G2). assert (D : t_defK t i = None).
    { destruct (t_defK t i) as [kn|] eqn:D; auto. destruct (w_defK _ (v_t _ _ (ki_inv _ _ _ K)) _ _ D) as [W1 W2]. destruct (w_key _ (v_t _ _ (ki_inv _ _ _ K)) _ W1) as (j & W3 & W4). congruence. }
    rewrite D. eapply trip_then with (R1 := fun r s' t' => r = Err ELogic /\ c_tpm s' = c_tpm s /\ t' = t).
    + eapply trip_catch with (R1 := fun r s' t' => r = Err ERuntime /\ c_tpm s' = c_tpm s /\ t' = t).
      * eapply trip_lift; [exact K|exact G1|exact G2|apply ceq_refl|auto].
      * intros s' t' K' (_ & T & ->). eapply trip_fail; eauto.
      * intros r s' t' _ N (X & _). congruence.
    + intros h s1 t1 _ (X & _). discriminate.
    + intros e s1 t1 _ (X & T & ->). injection X as ->. split; [cbn; auto|apply ceq_refl].
Qed.
Lemma extract_identity_cert : forall cn kn, key_of_cert cn = Some kn -> exists i, identity_of_key kn = Some i /\ extractIdentityFromCertName cn = Ok i.
Proof.
  intros cn kn. unfold key_of_cert, extractIdentityFromCertName, isValidCertName, from_end. destruct (rev cn) as [|a [|b [|c [|d r]]]] eqn:E; try discriminate. cbn [nth_error isKEY].
  rewrite key_eqb_dec. destruct (key_dec d KEYC) as [->|]; [|discriminate]. intros H. injection H as <-. exists (rev r). split.
  - change (identity_of_key (rev (c :: KEYC :: r)) = Some (rev r)). unfold identity_of_key. rewrite rev_involutive. destruct (key_dec KEYC KEYC); congruence.
  - assert (L : (4 <= List.length cn)%nat) by (rewrite <- rev_length, E; cbn; lia). rewrite drop_rev, E; auto.
Qed.
Lemma T_prepare : forall sn kl s t, KI s t -> trip (prepare P hdig sigtype sn kl) s (fun r s' t' => outcome s t kl (how_to_sign P s sn) r s' /\ ceq t' t).
Proof.
  intros sn kl s t K. destruct sn as [|h n|k n|n| |q]; unfold how_to_sign.
  - (* the default identity *)
    change (trip (kthen P (catch P (kthen P (lift P pb_getDefaultIdentity) (fun h => kret P (Some h))) (kret P None)) (fun h => match h with Some h => prepare_id P sigtype kl h | None => prepare_sha P kl end)) s
      (fun r s' t' => outcome s t kl (match b_def (stored P s) with Some i => by_identity P s i | None => ByDigest P end) r s' /\ ceq t' t)).
    unfold stored. rewrite (r_def _ _ (v_b _ _ (ki_inv _ _ _ K))). pose proof (G_getDefId _ _ (ki_inv _ _ _ K)) as G. destruct (t_def t) as [d|].
    + destruct G as (p' & h & t1 & G1 & G2 & G3 & G4). rewrite (by_identity_t s t d K).
      eapply trip_then with (R1 := fun r s' t' => r = Ok (Some h) /\ c_tpm s' = c_tpm s /\ t' = t1).
      * eapply trip_catch with (R1 := fun r s' t' => r = Ok (Some h) /\ c_tpm s' = c_tpm s /\ t' = t1); [|intros s' t' _ (X & _); discriminate|auto].
        eapply trip_then with (R1 := fun r s' t' => r = Ok h /\ c_tpm s' = c_tpm s /\ t' = t1); [eapply trip_lift; [exact K|exact G1|exact G2|exact G4|auto]| |].
        { intros h0 s1 t1' K1 (X & T1 & ->). injection X as ->. eapply trip_ret; eauto. }
        { intros e s1 t1' _ (X & _). discriminate. }
      * intros h0 s1 t1' K1 (X & T1 & ->). injection X as ->. eapply trip_conseq; [apply (T_prepare_id kl h s1 t1 d K1 G3)|]. cbv beta. intros r s2 t2 _ (R & T2 & C2). split; [|eapply ceq_trans; eauto].
        apply outcome_id; [|congruence]. rewrite R, (e_defK _ _ G4). destruct (t_defK t d); auto. now apply prepared_ceq.
      * intros e s1 t1' _ (X & _). discriminate.
    + destruct G as (p' & G1 & G2).
      eapply trip_then with (R1 := fun r s' t' => r = Ok None /\ c_tpm s' = c_tpm s /\ t' = t).
      * eapply trip_catch with (R1 := fun r s' t' => r = Err ERuntime /\ c_tpm s' = c_tpm s /\ t' = t).
        -- eapply trip_then with (R1 := fun r s' t' => r = Err ERuntime /\ c_tpm s' = c_tpm s /\ t' = t); [eapply trip_lift; [exact K|exact G1|exact G2|apply ceq_refl|auto]| |].
           { intros h0 s1 t1' K1 (X & _). discriminate. }
           { intros e s1 t1' _ (X & T & ->). injection X as ->. auto. }
        -- intros s' t' K' (_ & T & ->). eapply trip_ret; eauto.
        -- intros r s' t' _ N (X & _). congruence.
      * intros h0 s1 t1' K1 (X & T1 & ->). injection X as ->. unfold prepare_sha. eapply trip_ret; eauto. split; [cbn; auto|apply ceq_refl].
      * intros e s1 t1' _ (X & _). discriminate.
  - destruct h as [h|].
    + destruct (t_hid t h) as [i|] eqn:H.
      * rewrite (the_id_some _ _ _ _ _ K H), (by_identity_t s t i K). pose proof (T_prepare_id kl h s t i K H) as G. unfold trip, prepare in *. rewrite (live_id_some _ _ _ _ K H).
        destruct G as (t' & G1 & G2 & G3 & G4). exists t'. split; auto. split; auto. now apply outcome_id.
      * rewrite (the_id_none _ _ _ _ K H). pose proof (T_named_id kl n s t K) as G. unfold trip, prepare in *. rewrite (live_id_none _ _ _ K H). exact G.
    + exact (T_named_id kl n s t K).
  - assert (NM : trip (fun s => match extractIdentityFromKeyName n with
                     | Ok i => kthen P (catch P (kthen P (lift P (pb_getIdentity i)) (fun h => lift P (id_getKey h n))) (kfail P ELogic)) (fun k => prepare_key P sigtype kl k None) s
                     | Err e => (s, Err e) end) s (fun r s' t' => outcome s t kl (by_key P s n None) r s' /\ ceq t' t)).
    { rewrite (by_key_t s t n None K), extract_identity. destruct (identity_of_key n) as [i|] eqn:I.
      - eapply trip_conseq; [apply (T_prep_named kl n i None s t K I)|]. cbv beta. intros r s' t' _ (R & T & C). split; auto. now apply outcome_key.
      - exists t. cbn [fst snd]. split; auto. split; [|apply ceq_refl]. destruct (t_key t n) eqn:E; [|cbn; auto].
        destruct (w_key _ (v_t _ _ (ki_inv _ _ _ K)) n) as (j & W & _); congruence. }
    destruct k as [k|]; [|exact NM]. destruct (t_hkey t k) as [kn|] eqn:H.
    + rewrite (the_key_some _ _ _ _ _ K H), (by_key_t s t kn None K). destruct (G_keyInfo _ _ (ki_inv _ _ _ K) k kn H) as (b & B & _).
      pose proof (T_prepare_key kl k None s t kn b K H B) as G. unfold trip, prepare in *. rewrite (live_key_some _ _ _ _ K H).
      destruct G as (t' & G1 & G2 & G3 & ->). exists t. split; auto. split; [|apply ceq_refl]. apply outcome_key; auto. unfold prepared. now rewrite B.
    + rewrite (the_key_none _ _ _ _ K H). unfold trip, prepare in *. rewrite (live_key_none _ _ _ K H). exact NM.
  - destruct (key_of_cert n) as [kn|] eqn:C.
    + destruct (extract_identity_cert _ _ C) as (i & I & E). rewrite (by_key_t s t kn (Some n) K). pose proof (T_prep_named kl kn i (Some n) s t K I) as G. unfold trip, prepare in *.
      rewrite extract_key, C, E. destruct G as (t' & G1 & G2 & G3 & G4). exists t'. split; auto. split; auto. now apply outcome_key.
    + unfold trip, prepare. rewrite extract_key, C. exists t. cbn [fst snd]. split; auto. split; [cbn; auto|apply ceq_refl].
  - unfold trip, prepare, prepare_sha. exists t. cbn [kret fst snd]. split; auto. split; [cbn; auto|apply ceq_refl].
  - set (n := HMACID ++ [(8, hdig q)]). unfold trip, prepare. fold n. unfold kthen, tpm_has, has, kret, tpm_import. exists t.
    destruct (nget n (c_tpm s)) as [x|] eqn:E; cbn [fst snd].
    + split; auto. split; [|apply ceq_refl]. cbn [outcome]. fold n. now rewrite E.
    + unfold tpm_has, has. rewrite E. cbn [fst snd]. split; [apply (KI_new_private s t n q K E)|]. split; [|apply ceq_refl]. cbn [outcome]. fold n. rewrite E. split; auto.
      cbn [M_KeyChain.c_tpm]. rewrite nget_nset. destruct (nm_dec n n); congruence.
Qed.
Lemma hmac_not_digest : forall x, names_eqb (HMACID ++ [x]) DIGEST = false.
Proof. intros x. apply names_eqb_neq. intros H. apply (f_equal (@List.length key)) in H. vm_compute in H. discriminate. Qed.
Lemma ok3 : forall A B C (a a' : A) (b b' : B) (c c' : C), Ok (a, b, c) = Ok (a', b', c') -> a = a' /\ b = b' /\ c = c'.
Proof. intros A B C a a' b b' c c' H. injection H; auto. Qed.
Lemma ok1 : forall A (a a' : A), Ok a = Ok a' -> a = a'.
Proof. intros A a a' H. now injection H. Qed.
Lemma T_sign : forall sn kl rnd msg s t, KI s t ->
  trip (kc_sign P sg sha hdig sigtype sn kl rnd msg) s (fun r s' t' => ceq t' t /\
    match how_to_sign P s sn with
    | ByDigest _ => r = Ok (0, kl, sha msg)
    | ByHmac _ q => let n := HMACID ++ [(8, hdig q)] in r = Ok (4, Some n, sg (match nget n (c_tpm s) with Some x => x | None => q end) rnd msg)
    | ByKey _ kn cert => exists b q, t_key t kn = Some b /\ nget kn (c_tpm s) = Some q /\ gw b q /\
        match sigtype b with Some ty => r = Ok (ty, Some (loc t kl kn cert), sg q rnd msg) | None => r = Err ELogic end
    | Refused _ => r = Err ELogic \/ r = Err EInvalidArg
    end).
Proof.
  intros sn kl rnd msg s t K. unfold kc_sign.
  assert (HK : forall kn cert, how_to_sign P s sn = ByKey P kn cert -> exists b q, t_key t kn = Some b /\ nget kn (c_tpm s) = Some q /\ gw b q).
  { intros kn cert H. assert (B : exists cert', by_key P s kn cert' = ByKey P kn cert).
    { assert (BK : forall kn' c', by_key P s kn' c' = ByKey P kn cert -> exists cert', by_key P s kn cert' = ByKey P kn cert).
      { intros kn' c' X. exists c'. assert (kn' = kn) by (unfold by_key in X; destruct (has kn' _); [injection X as <-; auto|discriminate]). now subst. }
      assert (BI : forall i, by_identity P s i = ByKey P kn cert -> exists cert', by_key P s kn cert' = ByKey P kn cert).
      { intros i X. unfold by_identity in X. destruct (nget i _); [eauto|discriminate]. }
      destruct sn; cbn in H; eauto; try discriminate.
      - destruct (b_def _); [eauto|discriminate].
      - destruct (key_of_cert n); [eauto|discriminate]. }
    destruct B as [cert' B]. rewrite (by_key_t s t kn cert' K) in B. destruct (t_key t kn) as [b|] eqn:E; [|discriminate]. destruct (ki_cov _ _ _ K kn b E (fun x => x)) as (q & Q & G). eauto. }
  eapply trip_then; [apply (T_prepare sn kl s t K)| |]; cbv beta.
  - intros [[n ty] l] s1 t1 K1 [O C1].
    eapply trip_then; [apply (T_sign_with n rnd msg s1 t1 K1)| |]; cbv beta.
    + intros v s2 t2 K2 (E & T2 & ->). eapply trip_ret; eauto. split; auto. destruct (how_to_sign P s sn) as [|q|kn cert|] eqn:HW; cbn [outcome] in O.
      * destruct O as [O _]. apply ok3 in O; destruct O as (-> & -> & ->). rewrite names_eqb_refl in E. now rewrite (ok1 _ _ _ E).
      * destruct O as [O T]. apply ok3 in O; destruct O as (-> & -> & ->). rewrite hmac_not_digest, T in E. now rewrite (ok1 _ _ _ E).
      * destruct (HK kn cert eq_refl) as (b & q & B & Q & G). exists b, q. splits; auto. destruct O as [O T]. unfold prepared in O. rewrite B in O. destruct (sigtype b) as [ty'|]; [|discriminate].
        apply ok3 in O; destruct O as (-> & -> & ->). destruct (w_key _ (v_t _ _ (ki_inv _ _ _ K)) kn) as (i & I & _); [congruence|]. rewrite (not_digest _ _ I), T, Q in E. now rewrite (ok1 _ _ _ E).
      * destruct O as [[O|O] _]; discriminate.
    + intros e s2 t2 K2 (E & T2 & ->). split; auto. destruct (how_to_sign P s sn) as [|q|kn cert|] eqn:HW; cbn [outcome] in O.
      * destruct O as [O _]. apply ok3 in O; destruct O as (-> & -> & ->). rewrite names_eqb_refl in E. discriminate.
      * destruct O as [O T]. apply ok3 in O; destruct O as (-> & -> & ->). rewrite hmac_not_digest, T in E. discriminate.
      * destruct (HK kn cert eq_refl) as (b & q & B & Q & G). destruct O as [O T]. unfold prepared in O. rewrite B in O. destruct (sigtype b) as [ty'|]; [|discriminate].
        apply ok3 in O; destruct O as (-> & -> & ->). destruct (w_key _ (v_t _ _ (ki_inv _ _ _ K)) kn) as (i & I & _); [congruence|]. rewrite (not_digest _ _ I), T, Q in E. discriminate.
      * destruct O as [[O|O] _]; discriminate.
  - intros e s1 t1 K1 [O C1]. split; auto. destruct (how_to_sign P s sn) as [|q|kn cert|] eqn:HW; cbn [outcome] in O.
    + destruct O as [O _]; discriminate.
    + destruct O as [O _]; discriminate.
    + destruct (HK kn cert eq_refl) as (b & q & B & Q & G). exists b, q. splits; auto. destruct O as [O T]. unfold prepared in O. rewrite B in O. destruct (sigtype b) as [ty'|]; [discriminate|congruence].
    + destruct O as [[O|O] _]; [left|right]; congruence.
Qed.

(* ---- deleting ---- *)
Lemma KIx_delete : forall X s t n, KIx X s t -> KIx (fun kn => X kn \/ kn = n) (mkC (c_pib s) (ndel n (c_tpm s)) (ndel n (c_open s))) t.
Proof.
  intros X s t n [A B C D]. constructor; auto; cbn [M_KeyChain.c_open M_KeyChain.c_tpm M_KeyChain.c_pib].
  - intros m q. rewrite !nget_ndel. destruct (nm_dec m n); [discriminate|apply B].
  - intros kn b H N. rewrite nget_ndel. destruct (nm_dec kn n) as [->|]; [tauto|]. apply C; auto.
Qed.
Lemma KIx_weak : forall (X Y : nm -> Prop) s t, KIx X s t -> (forall kn, X kn -> Y kn \/ t_key t kn = None) -> KIx Y s t.
Proof. intros X Y s t [A B C D] W. constructor; auto. intros kn b H N. apply C; auto. intros x. destruct (W _ x) as [y|y]; [tauto|congruence]. Qed.
Lemma T_deleteKey : forall h k s t i, KI s t -> t_hid t h = Some i -> (forall kn, t_hkey t k = Some kn -> careful_op t (PRemoveKey h kn)) ->
  trip (kc_deleteKey P h k) s (fun r s' t' =>
    match t_hkey t k with
    | None => r = Ok tt /\ t' = t /\ c_tpm s' = c_tpm s
    | Some kn => if isopt (identity_of_key kn) i then r = Ok tt /\ t' = t_removeKey i kn t /\ c_tpm s' = ndel kn (c_tpm s) else r = Err EInvalidArg /\ t' = t /\ c_tpm s' = c_tpm s
    end).
Proof.
  intros h k s t i K H CF. unfold kc_deleteKey.
  eapply trip_then; [apply (T_need_id _ _ _ _ K H)| |]; cbv beta. 2: { intros e s1 t1 _ (E & _). discriminate. } intros _ s0 t0 K0 (_ & -> & ->).
  destruct (t_hkey t k) as [kn|] eqn:HK.
  2: { unfold trip. rewrite (live_key_none _ _ _ K HK). exists t. auto. }
  assert (G : trip (kthen P (name_of_key P k) (fun kn => kthen P (lift P (id_removeKey h kn)) (fun _ => tpm_delete P kn))) s (fun r s' t' =>
    if isopt (identity_of_key kn) i then r = Ok tt /\ t' = t_removeKey i kn t /\ c_tpm s' = ndel kn (c_tpm s) else r = Err EInvalidArg /\ t' = t /\ c_tpm s' = c_tpm s)).
  { eapply trip_then; [apply (T_name_of_key _ _ _ _ K HK)| |]; cbv beta. 2: { intros e s1 t1 _ (E & _). discriminate. } intros kn' s1 t1 K1 (E & T1 & ->). injection E as ->.
    pose proof (G_removeKey _ _ (ki_inv _ _ _ K1) h i kn H (CF _ eq_refl)) as G. destruct (isopt (identity_of_key kn) i) eqn:IO.
    - destruct G as (p' & G1 & G2). eapply trip_then with (R1 := fun r s' t' => r = Ok tt /\ t' = t_removeKey i kn t /\ c_tpm s' = c_tpm s).
      + exists (t_removeKey i kn t). unfold lift. rewrite G1. cbn [fst snd]. split; auto. eapply KI_sub; eauto.
        * cbn. intros kn' b. unfold upd. destruct (nm_dec kn' kn); [discriminate|auto].
        * cbn. intros cn c. unfold keep. destruct (negb _); [auto|discriminate].
      + intros u s2 t2 K2 (_ & -> & T2). exists (t_removeKey i kn t). unfold tpm_delete. cbn [fst snd]. split.
        * eapply KIx_weak; [apply (KIx_delete _ _ _ kn K2)|]. cbn beta. intros kn' [F| ->]; [tauto|]. right. cbn. unfold upd. destruct (nm_dec kn kn); congruence.
        * splits; auto. cbn [M_KeyChain.c_tpm]. congruence.
      + intros e s2 t2 _ (E & _). discriminate.
    - destruct G as (p' & G1 & G2). eapply trip_then with (R1 := fun r s' t' => r = Err EInvalidArg /\ t' = t /\ c_tpm s' = c_tpm s).
      + eapply trip_lift; [exact K1|exact G1|exact G2|apply ceq_refl|auto].
      + intros u s2 t2 _ (E & _). discriminate.
      + intros e s2 t2 _ (E & -> & T2). injection E as ->. auto. }
  unfold trip in *. rewrite (live_key_some _ _ _ _ K HK). exact G.
Qed.
Lemma L_delete_keys : forall h i l X s t, KIx X s t -> t_hid t h = Some i -> (forall kn, In kn l -> t_key t kn <> None /\ identity_of_key kn = Some i) ->
  exists t', snd (delete_keys P h l s) = Ok tt /\ KIx (fun kn => X kn \/ In kn l) (fst (delete_keys P h l s)) t' /\ ceq t' t /\ t_hid t' = t_hid t /\
    (forall kn, In kn l -> nget kn (c_tpm (fst (delete_keys P h l s))) = None) /\ (forall kn, ~ In kn l -> nget kn (c_tpm (fst (delete_keys P h l s))) = nget kn (c_tpm s)).
Proof.
  intros h i. induction l as [|kn l IH]; intros X s t K H A.
  - exists t. cbn. splits; auto using ceq_refl; [|tauto]. eapply KIx_weak; [exact K|]. auto.
  - destruct (A kn (or_introl eq_refl)) as [A1 A2]. destruct (G_kcget _ _ (ki_inv _ _ _ K) h i kn H A2 A1) as (p' & k & t1 & G1 & G2 & G3 & G4 & G5).
    destruct (G_keyInfo _ _ G2 k kn G3) as (b & _ & _ & G6). specialize (G6 _ (fun a _ => a)).
    assert (EQ : delete_keys P h (kn :: l) s = delete_keys P h l (mkC p' (ndel kn (c_tpm s)) (ndel kn (c_open s)))).
    { cbn [delete_keys]. unfold kthen, name_of_key, lift. rewrite G1. cbn [M_KeyChain.c_pib]. rewrite G6. reflexivity. }
    rewrite !EQ.
    pose proof (KIx_delete _ _ _ kn (KI_ceq _ _ _ _ _ K G2 G5)) as K2. cbn [M_KeyChain.c_tpm M_KeyChain.c_open M_KeyChain.c_pib] in K2.
    destruct (IH _ _ _ K2) as (t' & B1 & B2 & B3 & B4 & B5 & B6); [now rewrite G4|intros kn' In'; rewrite (e_key _ _ G5); apply A; now right|].
    exists t'. splits; auto.
    + eapply KIx_weak; [exact B2|]. cbn beta. intros kn' [[F| ->]|F]; left; auto; right; [now left|now right].
    + eapply ceq_trans; eauto.
    + congruence.
    + intros kn' [->|F]; [|auto]. destruct (in_dec nm_dec kn' l) as [Y|Y]; [auto|]. rewrite B6; auto. cbn [M_KeyChain.c_tpm]. rewrite nget_ndel. destruct (nm_dec kn' kn'); congruence.
    + intros kn' F. rewrite B6; [|intros Y; apply F; now right]. cbn [M_KeyChain.c_tpm]. rewrite nget_ndel. destruct (nm_dec kn' kn) as [->|]; auto. elim F. now left.
Qed.
Lemma T_deleteIdentity : forall h s t, KI s t ->
  trip (kc_deleteIdentity P h) s (fun r s' t' => r = Ok tt /\
    match t_hid t h with
    | None => t' = t /\ s' = s
    | Some i => ceq t' (t_removeId i t) /\ t_hid t' h = None /\
                forall kn, nget kn (c_tpm s') = if isome (t_key t kn) && isopt (identity_of_key kn) i then None else nget kn (c_tpm s)
    end).
Proof.
  intros h s t K. destruct (t_hid t h) as [i|] eqn:H.
  2: { unfold trip, kc_deleteIdentity. rewrite (live_id_none _ _ _ K H). exists t. auto. }
  assert (G : trip (kthen P (name_of_id P h) (fun i => kthen P (lift P (id_keyNames h)) (fun l => kthen P (delete_keys P h l) (fun _ => lift P (pb_removeIdentity i))))) s (fun r s' t' => r = Ok tt /\
    (ceq t' (t_removeId i t) /\ t_hid t' h = None /\ forall kn, nget kn (c_tpm s') = if isome (t_key t kn) && isopt (identity_of_key kn) i then None else nget kn (c_tpm s)))).
  { eapply trip_then; [apply (T_name_of_id _ _ _ _ K H)| |]; cbv beta. 2: { intros e s1 t1 _ (E & _). discriminate. } intros i' s1 t1 K1 (E & T1 & ->). injection E as ->.
    destruct (G_keyNames _ _ (ki_inv _ _ _ K1) h i H) as (p1 & l & G1 & G2 & G3).
    eapply trip_then with (R1 := fun r s' t' => r = Ok l /\ t' = t /\ c_tpm s' = c_tpm s).
    { eapply trip_lift; [exact K1|exact G1|exact G2|apply ceq_refl|auto]. } 2: { intros e s2 t2 _ (E & _). discriminate. }
    intros l' s2 t2 K2 (E & -> & T2). apply ok1 in E. subst l'.
    destruct (L_delete_keys h i l _ _ _ K2 H) as (t3 & B1 & B2 & B3 & B4 & B5 & B6). { intros kn F. now apply G3. }
    destruct (G_removeId _ _ (ki_inv _ _ _ B2) i) as (p' & C1 & C2).
    assert (E : kthen P (delete_keys P h l) (fun _ => lift P (pb_removeIdentity i)) s2 = (mkC p' (c_tpm (fst (delete_keys P h l s2))) (c_open (fst (delete_keys P h l s2))), Ok tt)).
    { unfold kthen. destruct (delete_keys P h l s2) as [s3 r3]. cbn [fst snd] in *. subst r3. unfold lift. now rewrite C1. }
    exists (t_removeId i t3). rewrite E. cbn [fst snd]. split; [|split; auto; split; [|split]].
    - eapply KIx_weak; [eapply (KI_sub _ _ _ _ _ B2 C2)|].
      + cbn. intros kn b. unfold keep. destruct (negb _); [auto|discriminate].
      + cbn. intros cn c. unfold keep. destruct (negb _); [auto|discriminate].
      + cbn beta. intros kn [F|F]; [tauto|]. right. cbn. unfold keep, under. apply G3 in F. destruct F as [_ F]. now rewrite F, isopt_same.
    - destruct B3 as [D1 D2 D3 D4 D5 D6]. constructor; cbn.
      + intros n. unfold upd. destruct (nm_dec n i); auto.
      + now rewrite D2.
      + intros n. now rewrite D3.
      + intros n. unfold upd. destruct (nm_dec n i); auto.
      + intros n. now rewrite D5.
      + intros n. now rewrite D6.
    - cbn. unfold keep. now rewrite B4, H, isopt_same.
    - intros kn. cbn [M_KeyChain.c_tpm]. destruct (in_dec nm_dec kn l) as [F|F].
      + rewrite (B5 _ F). apply G3 in F. destruct F as [F1 F2]. destruct (t_key t kn); [|congruence]. cbn [isome]. now rewrite F2, isopt_same.
      + rewrite (B6 _ F), T2. destruct (t_key t kn) eqn:E1; cbn [isome andb]; auto. destruct (isopt (identity_of_key kn) i) eqn:E2; auto. apply isopt_some in E2. elim F. apply G3. split; congruence. }
  unfold trip, kc_deleteIdentity in *. rewrite (live_id_some _ _ _ _ K H). exact G.
Qed.

(* ---- defaults and certificates ---- *)
Lemma T_setDefaultIdentity : forall h s t i, KI s t -> t_hid t h = Some i -> trip (kc_setDefaultIdentity P h) s (fun r s' t' => r = Ok tt /\ ceq t' (t_setDef i (t_addId i t))).
Proof.
  intros h s t i K H. unfold kc_setDefaultIdentity.
  eapply trip_then; [apply (T_need_id _ _ _ _ K H)| |]; cbv beta. 2: { intros e s1 t1 _ (E & _). discriminate. } intros _ s0 t0 K0 (_ & -> & ->).
  eapply trip_then; [apply (T_name_of_id _ _ _ _ K H)| |]; cbv beta. 2: { intros e s1 t1 _ (E & _). discriminate. } intros i' s1 t1 K1 (E & T1 & ->). injection E as ->.
  destruct (G_setDefId _ _ (ki_inv _ _ _ K1) i) as (p' & h' & t' & G1 & G2 & G3).
  eapply trip_then with (R1 := fun r s' t2 => r = Ok h' /\ t2 = t').
  - exists t'. unfold lift. rewrite G1. cbn [fst snd]. split; auto. eapply KI_sub; eauto.
    + intros kn b. now rewrite (e_key _ _ G3).
    + intros cn c. now rewrite (e_cert _ _ G3).
  - intros a s2 t2 K2 (_ & ->). eapply trip_ret; eauto.
  - intros e s2 t2 _ (E & _). discriminate.
Qed.
Lemma T_setDefaultKey : forall h k s t i kn, KI s t -> t_hid t h = Some i -> t_hkey t k = Some kn ->
  trip (kc_setDefaultKey P h k) s (fun r s' t' => if isopt (identity_of_key kn) i then r = Ok tt /\ ceq t' (t_setDefK i kn t) else r = Err EInvalidArg /\ t' = t).
Proof.
  intros h k s t i kn K H HK. unfold kc_setDefaultKey.
  eapply trip_then; [apply (T_need_id _ _ _ _ K H)| |]; cbv beta. 2: { intros e s1 t1 _ (E & _). discriminate. } intros _ s0 t0 K0 (_ & -> & ->).
  eapply trip_then; [apply (T_need_key _ _ _ _ K HK)| |]; cbv beta. 2: { intros e s1 t1 _ (E & _). discriminate. } intros _ s0 t0 _ (_ & -> & ->).
  eapply trip_then; [apply (T_name_of_key _ _ _ _ K HK)| |]; cbv beta. 2: { intros e s1 t1 _ (E & _). discriminate. } intros kn' s1 t1 K1 (E & T1 & ->). injection E as ->.
  destruct (G_keyInfo _ _ (ki_inv _ _ _ K) k kn HK) as (b & B & _).
  pose proof (G_setDefKey _ _ (ki_inv _ _ _ K1) h i kn H) as G. destruct (isopt (identity_of_key kn) i).
  - destruct G as (p' & k' & t' & G1 & G2 & G3); [congruence|].
    eapply trip_then with (R1 := fun r s' t2 => r = Ok k' /\ t2 = t').
    + exists t'. unfold lift. rewrite G1. cbn [fst snd]. split; auto. eapply KI_sub; eauto.
      * intros kn' b'. now rewrite (e_key _ _ G3).
      * intros cn c. now rewrite (e_cert _ _ G3).
    + intros a s2 t2 K2 (_ & ->). eapply trip_ret; eauto.
    + intros e s2 t2 _ (E & _). discriminate.
  - destruct G as (p' & G1 & G2); [congruence|].
    eapply trip_then with (R1 := fun r s' t2 => r = Err EInvalidArg /\ t2 = t).
    + eapply trip_lift; [exact K1|exact G1|exact G2|apply ceq_refl|auto].
    + intros a s2 t2 K2 (E & _). discriminate.
    + intros e s2 t2 _ (E & ->). injection E as ->. auto.
Qed.
Lemma T_addCertificate : forall k c s t kn, KI s t -> t_hkey t k = Some kn -> real_cert c -> careful_op t (PAddCert k c) ->
  trip (kc_addCertificate P k c) s (fun r s' t' => (r = Err EInvalidArg /\ t' = t) \/ (r = Ok tt /\ t' = t_addCert (identity_of_key' kn) kn c t)).
Proof.
  intros k c s t kn K HK RC CF. unfold kc_addCertificate.
  eapply trip_then; [apply (T_need_key _ _ _ _ K HK)| |]; cbv beta. 2: { intros e s1 t1 _ (E & _). discriminate. } intros _ s0 t0 _ (_ & -> & ->).
  destruct (G_keyInfo _ _ (ki_inv _ _ _ K) k kn HK) as (b & B & _).
  destruct (G_addCert _ _ (ki_inv _ _ _ K) k kn c b HK B RC CF) as [(p' & G1 & G2)|(-> & E & p' & G1 & G2)].
  - eapply trip_lift; [exact K|exact G1|exact G2|apply ceq_refl|auto].
  - eexists. unfold lift. rewrite G1. cbn [fst snd]. split; [eapply KI_addCert; eauto|auto].
Qed.
Lemma T_setDefaultCertificate : forall k c s t kn, KI s t -> t_hkey t k = Some kn -> real_cert c -> careful_op t (PSetDefCert k c) ->
  trip (kc_setDefaultCertificate P k c) s (fun r s' t' => (r = Err EInvalidArg /\ t' = t) \/ (r = Ok tt /\ t' = t_setDefC kn (pc_name c) (t_addCert (identity_of_key' kn) kn c t))).
Proof.
  intros k c s t kn K HK RC CF. unfold kc_setDefaultCertificate.
  eapply trip_then; [apply (T_need_key _ _ _ _ K HK)| |]; cbv beta. 2: { intros e s1 t1 _ (E & _). discriminate. } intros _ s0 t0 _ (_ & -> & ->).
  destruct (G_setDefCert _ _ (ki_inv _ _ _ K) k kn c HK RC CF) as [(p' & G1 & G2)|(E & p' & G1 & G2)].
  - eapply trip_lift; [exact K|exact G1|exact G2|apply ceq_refl|auto].
  - eexists. unfold lift. rewrite G1. cbn [fst snd]. split; [eapply KI_setDefC; eauto|auto].
Qed.
Lemma T_deleteCertificate : forall k cn s t kn, KI s t -> t_hkey t k = Some kn ->
  trip (kc_deleteCertificate P k cn) s (fun r s' t' => if isopt (key_of_cert cn) kn then r = Ok tt /\ t' = t_removeCert kn cn t else r = Err EInvalidArg /\ t' = t).
Proof.
  intros k cn s t kn K HK. unfold kc_deleteCertificate.
  eapply trip_then; [apply (T_need_key _ _ _ _ K HK)| |]; cbv beta. 2: { intros e s1 t1 _ (E & _). discriminate. } intros _ s0 t0 _ (_ & -> & ->).
  pose proof (G_removeCert _ _ (ki_inv _ _ _ K) k kn cn HK) as G. destruct (isopt (key_of_cert cn) kn).
  - destruct G as (p' & G1 & G2). eexists. unfold lift. rewrite G1. cbn [fst snd]. split; [|auto]. eapply KI_sub; eauto. cbn. intros cn' c. unfold upd. destruct (nm_dec cn' cn); [discriminate|auto].
  - destruct G as (p' & G1 & G2). eapply trip_lift; [exact K|exact G1|exact G2|apply ceq_refl|auto].
Qed.

(* ---- import ---- *)
Lemma T_import : forall n q s t, KI s t -> trip (tpm_import P n q) s (fun r s' t' => t' = t /\
  match nget n (c_tpm s) with Some _ => r = Err ELogic /\ s' = s | None => r = Ok tt /\ c_tpm s' = nset n q (c_tpm s) end).
Proof.
  intros n q s t K. unfold trip, tpm_import, tpm_has, has. destruct (nget n (c_tpm s)) eqn:E; exists t; cbn [fst snd]; auto. split; [apply (KI_new_private s t n q K E)|auto].
Qed.
Lemma real_names : forall c, real_cert c -> exists i, key_of_cert (pc_name c) = Some (pc_key c) /\ identity_of_key (pc_key c) = Some i /\ pc_identity c = i.
Proof.
  intros c R. unfold real_cert in R. destruct (key_of_cert (pc_name c)) as [kn|] eqn:E; [|congruence]. destruct (extract_identity_cert _ _ E) as (i & I & X).
  pose proof (extract_key (pc_name c)) as Y. rewrite E in Y. unfold extractKeyNameFromCertName in Y. unfold extractIdentityFromCertName in X. destruct (isValidCertName (pc_name c)); [|discriminate].
  apply ok1 in X. apply ok1 in Y. exists i. unfold pc_key, pc_identity. rewrite Y, X. auto.
Qed.
Lemma T_importBag : forall c q rnd msg s t, KI s t -> real_cert c ->
  trip (kc_import P sg vf c q rnd msg) s (fun r s' t' =>
    match r with
    | Ok _ => exists x i, q = Some x /\ identity_of_key (pc_key c) = Some i /\ nget (pc_key c) (c_tpm s) = None /\ nget (pc_key c) (c_tpm s') = Some x /\ gw (pc_bits c) x /\ t_id t' i = true /\ t_key t' (pc_key c) = Some (pc_bits c) /\ t_cert t' (pc_name c) = Some c
    | Err e => okE e /\ (nget (pc_key c) (c_tpm s) = None -> forall x, q = Some x -> ~ gw (pc_bits c) x)
    end).
Proof.
  intros c q rnd msg s t K R. destruct (real_names c R) as (i & N1 & N2 & N3). set (kn := pc_key c) in *.
  destruct (nget kn (c_tpm s)) as [x|] eqn:TP.
  { unfold trip, kc_import. fold kn. unfold tpm_has, has. rewrite TP. exists t. cbn [fst snd]. split; auto. split; [unfold okE; auto|]. unfold kn in TP. congruence. }
  assert (G : trip (kthen P (catch P (kthen P (lift P (pb_getIdentity i)) (fun h => kthen P (lift P (id_getKey h kn)) (fun _ => kfail P ELogic))) (kret P tt)) (fun _ =>
        match q with
        | None => kfail P ELogic
        | Some q => kthen P (tpm_import P kn q) (fun _ => kthen P (tpm_find P kn) (fun v =>
          match v with
          | None => kfail P EUb
          | Some q => if vf (pc_bits c) msg (sg q rnd msg)
                      then kthen P (lift P (pb_addIdentity i)) (fun h => kthen P (lift P (id_addKey h (pc_bits c) kn)) (fun k => lift P (key_addCert k c)))
                      else kthen P (tpm_delete P kn) (fun _ => kfail P ELogic)
          end))
        end)) s (fun r s' t' => match r with
    | Ok _ => exists x i, q = Some x /\ identity_of_key kn = Some i /\ @None P = None /\ nget kn (c_tpm s') = Some x /\ gw (pc_bits c) x /\ t_id t' i = true /\ t_key t' kn = Some (pc_bits c) /\ t_cert t' (pc_name c) = Some c
    | Err e => okE e /\ (@None P = None -> forall x, q = Some x -> ~ gw (pc_bits c) x)
    end)).
  2: { unfold trip, kc_import in *. fold kn. rewrite N3. unfold tpm_has, has. rewrite TP. exact G. }
  pose proof (key_private s t kn K TP) as TK.
  eapply trip_then with (R1 := fun r s' t' => match r with Ok _ => c_tpm s' = c_tpm s /\ ceq t' t | Err e => False end). 3: (intros e s1 t1 _ []).
  { eapply trip_catch with (R1 := fun r s' t' => match r with Ok _ => False | Err e => e = ERuntime /\ c_tpm s' = c_tpm s /\ ceq t' t end).
    - pose proof (G_getId _ _ (ki_inv _ _ _ K) i) as D. destruct (t_id t i) eqn:E.
      + destruct D as (p' & h & t1 & D1 & D2 & D3 & D4).
        eapply trip_then with (R1 := fun r s' t' => r = Ok h /\ c_tpm s' = c_tpm s /\ t' = t1); [eapply trip_lift; [exact K|exact D1|exact D2|exact D4|auto]| |intros e s1 t1' _ (X & _); discriminate].
        intros h0 s1 t1' K1 (X & T1 & ->). injection X as ->. pose proof (G_getKey _ _ (ki_inv _ _ _ K1) h i kn D3 N2) as F. rewrite (e_key _ _ D4), TK in F. destruct F as (p2 & F1 & F2).
        eapply trip_then with (R1 := fun r s' t' => r = Err ERuntime /\ c_tpm s' = c_tpm s /\ t' = t1); [eapply trip_lift; [exact K1|exact F1|exact F2|apply ceq_refl|auto]| |].
        * intros a s2 t2 _ (X & _). discriminate.
        * intros e s2 t2 _ (X & T2 & ->). injection X as ->. auto.
      + destruct D as (p' & D1 & D2).
        eapply trip_then with (R1 := fun r s' t' => r = Err ERuntime /\ c_tpm s' = c_tpm s /\ t' = t); [eapply trip_lift; [exact K|exact D1|exact D2|apply ceq_refl|auto]| |].
        * intros a s2 t2 _ (X & _). discriminate.
        * intros e s2 t2 _ (X & T2 & ->). injection X as ->. splits; auto. apply ceq_refl.
    - intros s1 t1 K1 (_ & T1 & C1). eapply trip_ret; eauto.
    - intros r s1 t1 _ N. destruct r as [a|e]; [tauto|]. intros (-> & _). congruence. }
  intros u s1 t1 K1 (T1 & C1). destruct q as [q|]; [|eapply trip_fail; eauto; split; [unfold okE; auto|discriminate]].
  eapply trip_then; [apply (T_import kn q s1 t1 K1)| |]; cbv beta; rewrite T1, TP. 2: { intros e s2 t2 _ (_ & X & _). discriminate. }
  intros u2 s2 t2 K2 (-> & _ & T2).
  assert (TQ : nget kn (c_tpm s2) = Some q) by (rewrite T2, nget_nset; destruct (nm_dec kn kn); congruence).
  eapply trip_then; [apply (T_find kn s2 t1 K2)| |]; cbv beta. 2: { intros e s3 t3 _ (X & _). discriminate. }
  intros v s3 t3 K3 (X & _ & T3 & ->). apply ok1 in X. subst v. rewrite TQ.
  destruct (vf (pc_bits c) msg (sg q rnd msg)) eqn:V.
  - pose proof (trial _ _ _ _ CR _ _ _ _ V) as GW.
    destruct (G_addId _ _ (ki_inv _ _ _ K3) i) as (p1 & h & t4 & A1 & A2 & A3 & A4).
    eapply trip_then with (R1 := fun r s' t' => r = Ok h /\ c_tpm s' = c_tpm s2 /\ t' = t4). 3: { intros e s4 t5 _ (Y & _). discriminate. }
    { exists t4. unfold lift. rewrite A1. cbn [fst snd]. split; auto. eapply KI_sub; eauto.
      - intros kn' b. rewrite (e_key _ _ A4). now destruct (t_id t1 i).
      - intros cn c'. rewrite (e_cert _ _ A4). now destruct (t_id t1 i). }
    intros h0 s4 t4' K4 (Y & T4 & ->). injection Y as ->.
    assert (TK4 : t_key t4 kn = None). { rewrite (e_key _ _ A4). destruct (t_id t1 i); cbn; rewrite (e_key _ _ C1); auto. }
    pose proof (G_addKey _ _ (ki_inv _ _ _ K4) h i (pc_bits c) kn A3) as B. rewrite N2, isopt_same in B. destruct B as (p2 & k & t5 & B1 & B2 & B3 & B4 & B5).
    eapply trip_then with (R1 := fun r s' t' => r = Ok k /\ c_tpm s' = c_tpm s2 /\ t' = t5). 3: { intros e s5 t6 _ (Y & _). discriminate. }
    { exists t5. unfold lift. rewrite B1. cbn [fst snd]. split; [|auto]. eapply KI_addKey; eauto. now rewrite T4. }
    intros k0 s5 t5' K5 (Y & T5 & ->). injection Y as ->.
    assert (BB : t_key t5 kn = Some (pc_bits c)). { rewrite (e_key _ _ B5). cbn. unfold upd. destruct (nm_dec kn kn); congruence. }
    destruct (addCert_ok _ _ k kn c (ki_inv _ _ _ K5) B3 BB N1) as (p' & G1 & G2).
    { intros c' H3 H4. exfalso. rewrite (e_defC _ _ B5) in H3. cbn in H3.
      destruct (w_defC _ (v_t _ _ (ki_inv _ _ _ K4)) _ _ H3) as [W1 W2]. destruct (t_cert t4 (pc_name c)) as [cc|] eqn:W3; [|congruence].
      destruct (w_cert _ (v_t _ _ (ki_inv _ _ _ K4)) _ _ W3) as (_ & kk & W4 & W5). congruence. }
    eexists. unfold lift. rewrite G1. cbn [fst snd]. split; [eapply KI_addCert; eauto|]. exists q, i. splits; auto.
      * cbn [M_KeyChain.c_tpm]. congruence.
      * cbn. unfold identity_of_key', upd. rewrite N2. destruct (nm_dec i i); congruence.
      * cbn. unfold upd. destruct (nm_dec (pc_name c) (pc_name c)); congruence.
  - assert (DD : KI (fst (tpm_delete P kn s3)) t1).
    { unfold tpm_delete. cbn [fst]. eapply KIx_weak; [apply (KIx_delete _ _ _ kn K3)|]. cbn beta. intros kn' [F| ->]; [tauto|]. right. now rewrite (e_key _ _ C1). }
    eapply trip_then with (R1 := fun r s' t' => r = Ok tt); [exists t1; split; [exact DD|reflexivity]| |intros e s4 t4 _ Y; discriminate].
    intros _ s4 t4 K4 _. eapply trip_fail; eauto. split; [unfold okE; auto|]. intros _ x X G. injection X as <-. rewrite G in V. discriminate.
Qed.

(* ---- every call ---- *)
Lemma trip_kas : forall A (f : A -> kans P) (m : kst A) s R (R' : res (kans P) -> kch -> tree -> Prop), trip m s R -> (forall a s' t', KI s' t' -> R (Ok a) s' t' -> R' (Ok (f a)) s' t') ->
  (forall e s' t', KI s' t' -> R (Err e) s' t' -> R' (Err e) s' t') -> trip (kas P f m) s R'.
Proof. intros A f m s R R' (t' & K & H) W1 W2. unfold trip, kas. destruct (m s) as [s1 [a|e]]; cbn [fst snd] in *; exists t'; auto. Qed.
Definition fine (s : kch) (o : kop P) (r : res (kans P)) : Prop := match r with Ok _ => True | Err e => okE e \/ e = ERuntime \/ e = EDomain \/ (e = EAssert /\ ~ usable P s o) end.
Lemma valid_id_t : forall s t h, KI s t -> valid_id P s h -> exists i, t_hid t h = Some i.
Proof.
  intros s t h K [i V]. destruct (t_hid t h) eqn:E; eauto. unfold read in V. cbn [pb_step] in V. unfold as_, with_id in V. rewrite (hid_none _ _ _ (ki_inv _ _ _ K) E) in V. discriminate.
Qed.
Lemma valid_key_t : forall s t h, KI s t -> valid_key P s h -> exists i, t_hkey t h = Some i.
Proof.
  intros s t h K (kn & b & V). destruct (t_hkey t h) eqn:E; eauto. unfold read in V. cbn [pb_step] in V. unfold with_key in V. rewrite (hkey_none _ _ _ (ki_inv _ _ _ K) E) in V. discriminate.
Qed.
Lemma t_valid_id : forall s t h i, KI s t -> t_hid t h = Some i -> read P s (PIdName h) = Ok (AName i).
Proof. intros s t h i K H. unfold read. cbn [pb_step]. unfold as_. destruct (G_idName _ _ (ki_inv _ _ _ K) h i H) as [_ ->]. reflexivity. Qed.
Lemma t_valid_key : forall s t k kn, KI s t -> t_hkey t k = Some kn -> exists b, t_key t kn = Some b /\ read P s (PKeyInfo k) = Ok (AInfo kn b).
Proof. intros s t k kn K H. unfold read. cbn [pb_step]. destruct (G_keyInfo _ _ (ki_inv _ _ _ K) k kn H) as (b & B & _ & G). exists b. now rewrite (G _ AInfo). Qed.
(* the conditions of the API imply those on the tree *)
Lemma careful_key : forall s t h k kn, KI s t -> kcareful_op P pub sha hdig s (KDelKey P h k) -> t_hkey t k = Some kn -> careful_op t (PRemoveKey h kn).
Proof.
  intros s t h k kn K C H i H1 H2. destruct (t_defK t i) as [d|] eqn:D; auto. right. f_equal. symmetry. pose proof (G_getDefKey _ _ (ki_inv _ _ _ K) h i H1) as G. rewrite D in G. destruct G as (p' & k' & t' & G1 & _).
  assert (k' = k). { apply C. unfold read. cbn [pb_step]. unfold as_. now rewrite G1. } subst k'. eapply G_getDefKey_handle; eauto. apply (ki_inv _ _ _ K).
Qed.
Lemma careful_cert : forall s t k c, KI s t -> kcareful_op P pub sha hdig s (KAddCert P k c) -> careful_op t (PAddCert k c).
Proof.
  intros s t k c K C kn c' H1 H2 H3 H4. pose proof (G_getDefCert _ _ (ki_inv _ _ _ K) k kn H1) as G. rewrite H3 in G. destruct G as (p' & d & G1 & G2 & G3 & _).
  assert (d = c). { apply C; auto. unfold read. cbn [pb_step]. unfold as_. now rewrite G1. } congruence.
Qed.
Lemma careful_defcert : forall s t k c, KI s t -> kcareful_op P pub sha hdig s (KSetDefCert P k c) -> careful_op t (PSetDefCert k c).
Proof. intros s t k c K C kn H1 H2. destruct (t_valid_key _ _ _ _ K H1) as (b & B & V). specialize (C _ _ V). congruence. Qed.
Notation step := (kc_step P pub sg vf sha hdig sigtype portion).
Lemma no_handle_id : forall A (f : A -> kans P) (m : unit -> kst A) s t h o, KI s t -> t_hid t h = None -> (usable P s o -> valid_id P s h) ->
  trip (kas P f (kthen P (need_id P h) m)) s (fun r _ _ => fine s o r).
Proof.
  intros A f m s t h o K H U. exists t. unfold kas, kthen, need_id. rewrite (live_id_none _ _ _ K H). cbn [fst snd]. split; auto. right. right. right. split; auto. intros V.
  destruct (valid_id_t _ _ _ K (U V)) as [i X]. congruence.
Qed.
Lemma no_handle_key : forall A (f : A -> kans P) (m : unit -> kst A) s t h o, KI s t -> t_hkey t h = None -> (usable P s o -> valid_key P s h) ->
  trip (kas P f (kthen P (need_key P h) m)) s (fun r _ _ => fine s o r).
Proof.
  intros A f m s t h o K H U. exists t. unfold kas, kthen, need_key. rewrite (live_key_none _ _ _ K H). cbn [fst snd]. split; auto. right. right. right. split; auto. intros V.
  destruct (valid_key_t _ _ _ K (U V)) as [i X]. congruence.
Qed.
Lemma inval : okE EInvalidArg.
Proof. unfold okE; auto. Qed.
Lemma logic : okE ELogic.
Proof. unfold okE; auto. Qed.
Lemma fits_err : forall t r e, fits t r (Err e) -> r = RErr e.
Proof. intros t r e. destruct r; cbn; try tauto. congruence. Qed.
Lemma sem_err : forall o t t' e, sem o t = (t', RErr e) -> e = EDomain \/ e = EInvalidArg \/ e = ERuntime.
Proof.
  intros o t t' e. destruct o; cbn; unfold on_id, on_key, owned, ownedC, exists_; repeat match goal with |- context [match ?x with _ => _ end] => destruct x end; intros H; try discriminate; injection H as _ <-; auto.
Qed.
Lemma T_step : forall o s t, KI s t -> real_kop P o -> kcareful_op P pub sha hdig s o -> trip (step o) s (fun r _ _ => fine s o r).
Proof.
  intros o s t K R C. destruct o; cbn [kc_step].
  - eapply trip_kas; [apply (T_createIdentity n pr s t K C)| |]; cbv beta; cbn; auto.
  - eapply trip_kas; [apply (T_deleteIdentity h s t K)| |]; cbv beta; cbn; auto. intros e s' t' _ (E & _). discriminate.
  - destruct (t_hid t h) as [i|] eqn:H; [|apply (no_handle_id _ _ _ s t h _ K H); auto].
    eapply trip_kas; [apply (T_setDefaultIdentity h s t i K H)| |]; cbv beta; cbn; auto. intros e s' t' _ (E & _). discriminate.
  - destruct (t_hid t h) as [i|] eqn:H; [|apply (no_handle_id _ _ _ s t h _ K H); auto].
    eapply trip_kas; [apply (T_createKey h pr s t i K H)| |]; cbv beta; cbn; auto. apply C. eapply t_valid_id; eauto.
  - assert (U : unused P pub sha hdig s n (mkPr P Sha256Id true q SELF 0)) by exact C. pose proof (new_name_ok s n _ U) as NN.
    unfold trip, kas, kc_createHmac, tpm_create. exists t. destruct (new_name P pub sha hdig n (mkPr P Sha256Id true q SELF 0) s) as [x|e] eqn:E; cbn [fst snd].
    + split; [|exact I]. destruct NN as [NN _]. apply (KI_new_private s t x _ K NN).
    + split; auto. left. destruct NN as [->| ->]; unfold okE; auto.
  - destruct (t_hid t h) as [i|] eqn:H; [|apply (no_handle_id _ _ _ s t h _ K H); auto].
    eapply trip_kas; [apply (T_deleteKey h k s t i K H)| |]; cbv beta; cbn; auto.
    + intros kn HK. eapply careful_key; eauto.
    + intros e s' t' _. destruct (t_hkey t k) as [kn|]; [destruct (isopt _ _)|]; intros (E & _); try discriminate. injection E as ->. left. apply inval.
  - destruct (t_hid t h) as [i|] eqn:H; [|apply (no_handle_id _ _ _ s t h _ K H); cbn; tauto].
    destruct (t_hkey t k) as [kn|] eqn:HK.
    + eapply trip_kas; [apply (T_setDefaultKey h k s t i kn K H HK)| |]; cbv beta; cbn; auto. intros e s' t' _. destruct (isopt _ _); intros (E & _); [discriminate|]. injection E as ->. left. apply inval.
    + assert (EQ : kas P (fun _ => KOk P) (kc_setDefaultKey P h k) s = (s, Err EAssert)).
      { unfold kas, kc_setDefaultKey, kthen. rewrite (need_id_ok _ _ _ _ K H). unfold need_key. rewrite (live_key_none _ _ _ K HK). reflexivity. }
      exists t. rewrite EQ. cbn [fst snd]. split; auto.
      right. right. right. split; auto. intros [_ V]. destruct (valid_key_t _ _ _ K V) as [x X]. congruence.
  - destruct (t_hkey t k) as [kn|] eqn:H; [|apply (no_handle_key _ _ _ s t k _ K H); auto].
    eapply trip_kas; [apply (T_addCertificate k c s t kn K H R (careful_cert _ _ _ _ K C))| |]; cbv beta; cbn; auto. intros e s' t' _ [(E & _)|(E & _)]; [injection E as ->; left; apply inval|discriminate].
  - destruct (t_hkey t k) as [kn|] eqn:H; [|apply (no_handle_key _ _ _ s t k _ K H); auto].
    eapply trip_kas; [apply (T_deleteCertificate k cn s t kn K H)| |]; cbv beta; cbn; auto. intros e s' t' _. destruct (isopt _ _); intros (E & _); [discriminate|]. injection E as ->. left. apply inval.
  - destruct (t_hkey t k) as [kn|] eqn:H; [|apply (no_handle_key _ _ _ s t k _ K H); auto].
    eapply trip_kas; [apply (T_setDefaultCertificate k c s t kn K H R (careful_defcert _ _ _ _ K C))| |]; cbv beta; cbn; auto. intros e s' t' _ [(E & _)|(E & _)]; [injection E as ->; left; apply inval|discriminate].
  - unfold trip, kas, kc_export. exists t. destruct (nget (pc_key c) (c_tpm s)); cbn [fst snd]; (split; [assumption|cbn; auto]); left; apply logic.
  - eapply trip_kas; [apply (T_importBag c q rnd msg s t K R)| |]; cbv beta; cbn; auto. intros e s' t' _ [E _]. auto.
  - eapply trip_kas; [apply (T_import n q s t K)| |]; cbv beta; cbn; auto. intros e s' t' _ (_ & E). destruct (nget n _); destruct E as [E _]; [injection E as ->; left; apply logic|discriminate].
  - eapply trip_kas; [apply (T_sign sn kl rnd msg s t K)| |]; cbv beta; cbn; auto. intros e s' t' _ (_ & E). left. destruct (how_to_sign P s sn).
    + discriminate.
    + discriminate.
    + destruct E as (b & q & _ & _ & _ & E). destruct (sigtype b); [discriminate|]. injection E as ->. apply logic.
    + destruct E as [E|E]; injection E as ->; [apply logic|apply inval].
  - assert (G : good o (c_pib s) t) by (apply s_all; [apply (ki_inv _ _ _ K)|now destruct o|now destruct o]).
    assert (F : fst (sem o t) = t) by (apply sem_read; exact R). unfold good in G. destruct (sem o t) as [t1 r] eqn:SE. cbn in F. subst t1.
    unfold trip, kas, lift. destruct (pb_step o (c_pib s)) as [p' a]. destruct G as [G1 G2]. exists (noted t r a). destruct a as [a|e]; cbn [fst snd]; (split; [eapply KI_ceq; eauto; apply ceq_noted|]).
    + exact I.
    + apply fits_err in G1. subst r. destruct (sem_err _ _ _ _ SE) as [->|[->| ->]]; cbn; auto. left. apply inval.
Qed.
Lemma run_inv : forall l s t, KI s t -> Forall (real_kop P) l -> kcareful P pub sg vf sha hdig sigtype portion l s -> exists t', KI (kc_run P pub sg vf sha hdig sigtype portion l s) t'.
Proof.
  induction l as [|o l IH]; intros s t K R C; cbn; eauto. inversion R as [|? ? R1 R2]; subst. destruct C as [C1 C2]. destruct (T_step o s t K R1 C1) as (t1 & K1 & _). eapply IH; eauto.
Qed.
Lemma reached_inv : forall s, reached P pub sg vf sha hdig sigtype portion s -> exists t, KI s t.
Proof. intros s (l & R & C & ->). eapply run_inv; eauto. apply KI_new. Qed.
End I.
Unset Default Proof Using.

(* a check that is sufficient for kcareful, to be computed *)
Section C.
Variable P : Type.
Variable pub : P -> option bytes.
Variable sg : P -> N -> bytes -> bytes.
Variable vf : bytes -> bytes -> bytes -> bool.
Variable sha : bytes -> bytes.
Variable hdig : P -> bytes.
Variable sigtype : bytes -> option N.
Variable portion : nm -> bytes -> N -> option nm -> bytes.
Definition unusedb (s : kch P) (i : nm) (pr : params P) : bool :=
  if pr_hmac P pr then negb (isome (private P s (i ++ [(8, hdig (pr_key P pr))])))
  else match pr_id P pr with
       | Sha256Id => match pub (pr_key P pr) with Some b => negb (isome (private P s (i ++ [KEYC; (8, sha b)]))) | None => true end
       | _ => true
       end.
Definition kcareful_opb (s : kch P) (o : kop P) : bool :=
  match o with
  | KDelKey _ h k => match read P s (PGetDefKey h) with Ok (AKey k') => N.eqb k' k | _ => true end
  | KAddCert _ k c => match read P s (PGetDefCert k) with Ok (ACert d) => negb (is (pc_name d) (pc_name c)) | _ => true end
  | KSetDefCert _ k c => match read P s (PKeyInfo k) with Ok (AInfo kn b) => if list_eq_dec byte_dec b (pc_bits c) then true else false | _ => true end
  | KCreateId _ n pr => unusedb s n pr
  | KCreateKey _ h pr => match read P s (PIdName h) with Ok (AName i) => unusedb s i pr | _ => true end
  | KCreateHmac _ n q => negb (isome (private P s (n ++ [(8, hdig q)])))
  | _ => true
  end.
Fixpoint kcarefulb (l : list (kop P)) (s : kch P) : bool :=
  match l with [] => true | o :: l' => kcareful_opb s o && kcarefulb l' (fst (kc_step P pub sg vf sha hdig sigtype portion o s)) end.
Lemma negb_isome : forall A (x : option A), negb (isome x) = true -> x = None.
Proof. intros A [x|]; [discriminate|auto]. Qed.
Lemma unusedb_ok : forall s i pr, unusedb s i pr = true -> unused P pub sha hdig s i pr.
Proof.
  intros s i pr. unfold unusedb, unused. destruct (pr_hmac P pr); [apply negb_isome|]. destruct (pr_id P pr); auto. intros H b E. rewrite E in H. now apply negb_isome.
Qed.
Lemma kcarefulb_ok : forall l s, kcarefulb l s = true -> kcareful P pub sg vf sha hdig sigtype portion l s.
Proof.
  induction l as [|o l IH]; intros s H; cbn [kcareful kcarefulb] in *; [exact I|]. apply andb_prop in H. destruct H as [A B]. split; [|auto].
  destruct o; try exact I; cbn [kcareful_op kcareful_opb] in *.
  - now apply unusedb_ok.
  - intros i E. rewrite E in A. now apply unusedb_ok.
  - now apply negb_isome.
  - intros k' E. rewrite E in A. now apply N.eqb_eq.
  - intros d E F. rewrite E in A. unfold is in A. destruct (nm_dec (pc_name d) (pc_name c)); [discriminate|congruence].
  - intros kn b E. rewrite E in A. destruct (list_eq_dec byte_dec b (pc_bits c)); [auto|discriminate].
Qed.
End C.

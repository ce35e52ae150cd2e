(* What the calls that the key chain makes on the PIB do, from the lemmas of P_PibS. *)
From Verif Require Import Base BaseLemmas M_Tlv M_Name S_Name M_Ims P_Ims M_Pib S_Pib P_Pib P_PibR P_PibK P_PibS.
From Coq Require Import Lia ZifyBool ZifyNat ZifyN String.
Open Scope list_scope.
Open Scope N_scope.

(* the same entries and defaults, handles aside *)
Record ceq (a b : tree) : Prop := mkCeq {
  e_id : forall n, t_id a n = t_id b n; e_def : t_def a = t_def b; e_key : forall n, t_key a n = t_key b n; e_defK : forall n, t_defK a n = t_defK b n;
  e_cert : forall n, t_cert a n = t_cert b n; e_defC : forall n, t_defC a n = t_defC b n }.
Lemma ceq_refl : forall a, ceq a a.
Proof. intros; constructor; auto. Qed.
Lemma ceq_sym : forall a b, ceq a b -> ceq b a.
Proof. intros a b []; constructor; auto. Qed.
Lemma ceq_trans : forall a b c, ceq a b -> ceq b c -> ceq a c.
Proof. intros a b c [] []; constructor; intros; etransitivity; eauto. Qed.
Lemma ceq_noted : forall t r a, ceq (noted t r a) t.
Proof. intros t [] [[]|]; constructor; reflexivity. Qed.
Lemma updN_same : forall A (f : N -> A) n v, updN f n v n = v.
Proof. intros. unfold updN. destruct (N.eq_dec n n); congruence. Qed.
Lemma isopt_some : forall a b, isopt a b = true -> a = Some b.
Proof. intros [x|] b; cbn; [unfold is; destruct (nm_dec x b); congruence|discriminate]. Qed.
Lemma isopt_same : forall a, isopt (Some a) a = true.
Proof. intros. cbn. unfold is. destruct (nm_dec a a); congruence. Qed.

Ltac useg m G := unfold good in G; cbn [sem pb_step] in G; unfold on_id, on_key, exists_, owned, ownedC, as_ in G.
Ltac run1 m p := let q := fresh "q" in let a := fresh "a" in let e := fresh "e" in destruct (m p) as [q [a|e]]; cbn [fits noted] in *.

Section G.
Variables (p : pib) (t : tree).
Hypothesis I : inv p t.

Lemma G_addId : forall n, exists p' h t', pb_addIdentity n p = (p', Ok h) /\ inv p' t' /\ t_hid t' h = Some n /\ ceq t' (if t_id t n then t else t_addId n t).
Proof.
  intros n. pose proof (s_addId p t n I) as G. useg pb_addIdentity G. destruct (pb_addIdentity n p) as [q [h|e]]; destruct G as [G1 G2]; [|exfalso; exact G1].
  exists q, h. eexists. split; [reflexivity|]. split; [exact G2|]. split; [cbn; apply updN_same|apply ceq_noted].
Qed.
Lemma G_getId : forall n, if t_id t n then exists p' h t', pb_getIdentity n p = (p', Ok h) /\ inv p' t' /\ t_hid t' h = Some n /\ ceq t' t
                          else exists p', pb_getIdentity n p = (p', Err ERuntime) /\ inv p' t.
Proof.
  intros n. pose proof (s_getId p t n I) as G. useg pb_getIdentity G. destruct (t_id t n); destruct (pb_getIdentity n p) as [q [h|e]]; destruct G as [G1 G2]; try (exfalso; exact G1).
  - exists q, h. eexists. split; [reflexivity|]. split; [exact G2|]. split; [cbn; apply updN_same|apply ceq_noted].
  - cbn in G1. subst e. exists q. split; auto.
Qed.
Lemma G_getDefId : match t_def t with
                   | Some d => exists p' h t', pb_getDefaultIdentity p = (p', Ok h) /\ inv p' t' /\ t_hid t' h = Some d /\ ceq t' t
                   | None => exists p', pb_getDefaultIdentity p = (p', Err ERuntime) /\ inv p' t end.
Proof.
  pose proof (s_getDefId p t I) as G. useg pb_getDefaultIdentity G. destruct (t_def t) as [d|]; destruct (pb_getDefaultIdentity p) as [q [h|e]]; destruct G as [G1 G2]; try (exfalso; exact G1).
  - exists q, h. eexists. split; [reflexivity|]. split; [exact G2|]. split; [cbn; apply updN_same|apply ceq_noted].
  - cbn in G1. subst e. exists q. split; auto.
Qed.
Lemma G_setDefId : forall n, exists p' h t', pb_setDefaultIdentity n p = (p', Ok h) /\ inv p' t' /\ ceq t' (t_setDef n (t_addId n t)).
Proof.
  intros n. pose proof (s_setDefId p t n I) as G. useg pb_setDefaultIdentity G. destruct (pb_setDefaultIdentity n p) as [q [h|e]]; destruct G as [G1 G2]; [|exfalso; exact G1].
  exists q, h. eexists. split; [reflexivity|]. split; [exact G2|apply ceq_noted].
Qed.
Lemma G_removeId : forall n, exists p', pb_removeIdentity n p = (p', Ok tt) /\ inv p' (t_removeId n t).
Proof.
  intros n. pose proof (s_removeId p t n I) as G. useg pb_removeIdentity G. destruct (pb_removeIdentity n p) as [q [[]|e]]; destruct G as [G1 G2]; [|exfalso; exact G1]. exists q. auto.
Qed.
Lemma G_getDefKey : forall h i, t_hid t h = Some i ->
  match t_defK t i with
  | Some kn => exists p' k t', id_getDefaultKey h p = (p', Ok k) /\ inv p' t' /\ t_hkey t' k = Some kn /\ t_hid t' = t_hid t /\ ceq t' t /\ (forall k', t_hkey t k' = Some kn -> k' = k)
  | None => exists p', id_getDefaultKey h p = (p', Err ERuntime) /\ inv p' t end.
Proof.
  intros h i H. pose proof (s_getDefKey p t h I) as G. useg id_getDefaultKey G. rewrite H in G. destruct (t_defK t i) as [kn|]; destruct (id_getDefaultKey h p) as [q [k|e]]; destruct G as [G1 G2]; try (exfalso; exact G1).
  - exists q, k. eexists. split; [reflexivity|]. split; [exact G2|]. split; [cbn; apply updN_same|]. split; [reflexivity|]. split; [apply ceq_noted|].
    intros k' H'. destruct G1 as [G1|[_ G1]]; [exact (w_hkeyi _ (v_t _ _ I) _ _ _ H' G1)|elim (G1 k' H')].
  - cbn in G1. subst e. exists q. split; auto.
Qed.
Lemma G_getDefKey_handle : forall h i kn k p' kn0, t_hid t h = Some i -> t_defK t i = Some kn -> id_getDefaultKey h p = (p', Ok k) -> t_hkey t k = Some kn0 -> kn0 = kn.
Proof.
  intros h i kn k p' kn0 H D E K. pose proof (s_getDefKey p t h I) as G. useg id_getDefaultKey G. rewrite H, D, E in G. destruct G as [[G|[G _]] _]; [congruence|].
  rewrite (w_hkeyu _ (v_t _ _ I) _ _ K) in G. discriminate.
Qed.
Lemma G_getKey : forall h i kn, t_hid t h = Some i -> identity_of_key kn = Some i ->
  match t_key t kn with
  | Some _ => exists p' k t', id_getKey h kn p = (p', Ok k) /\ inv p' t' /\ t_hkey t' k = Some kn /\ t_hid t' = t_hid t /\ ceq t' t
  | None => exists p', id_getKey h kn p = (p', Err ERuntime) /\ inv p' t end.
Proof.
  intros h i kn H K. pose proof (s_getKey p t h kn I) as G. useg id_getKey G. rewrite H, K, isopt_same in G. destruct (t_key t kn) as [b|]; destruct (id_getKey h kn p) as [q [k|e]]; destruct G as [G1 G2]; try (exfalso; exact G1).
  1: exists q, k; eexists; (split; [reflexivity|]); (split; [exact G2|]); (split; [cbn; apply updN_same|]); (split; [reflexivity|apply ceq_noted]).
  cbn in G1. subst e. exists q. split; auto.
Qed.
Lemma G_kcget : forall h i kn, t_hid t h = Some i -> identity_of_key kn = Some i -> t_key t kn <> None ->
  exists p' k t', with_id h (fun x => kc_get x kn) p = (p', Ok k) /\ inv p' t' /\ t_hkey t' k = Some kn /\ t_hid t' = t_hid t /\ ceq t' t.
Proof.
  intros h i kn H K B. destruct (hid_find _ _ _ _ I H) as (x & Fx & Nx & Ux). unfold with_id. rewrite Fx. subst i h.
  destruct (L_kcget p t x kn I Fx K B) as (p' & k & A1 & A2 & A3 & _). exists p', k. eexists. split; [exact A1|]. split; [exact A3|]. split; [cbn; apply updN_same|]. split; [reflexivity|apply ceq_noted].
Qed.
Lemma G_keyNames : forall h i, t_hid t h = Some i -> exists p' l, id_keyNames h p = (p', Ok l) /\ inv p' t /\ forall kn, In kn l <-> (t_key t kn <> None /\ identity_of_key kn = Some i).
Proof.
  intros h i H. pose proof (s_keyNames p t h I) as G. useg id_keyNames G. rewrite H in G. destruct (id_keyNames h p) as [q [l|e]]; destruct G as [G1 G2]; [|exfalso; exact G1].
  exists q, l. split; auto. split; [exact G2|]. intros kn. rewrite (G1 kn), andb_true_iff. split.
  - intros [A B]. split; [destruct (t_key t kn); [discriminate|discriminate A]|now apply isopt_some].
  - intros [A ->]. rewrite isopt_same. destruct (t_key t kn); [auto|congruence].
Qed.
Lemma G_addKey : forall h i b kn, t_hid t h = Some i ->
  if isopt (identity_of_key kn) i then exists p' k t', id_addKey h b kn p = (p', Ok k) /\ inv p' t' /\ t_hkey t' k = Some kn /\ t_hid t' = t_hid t /\ ceq t' (t_addKey i kn b t)
  else exists p', id_addKey h b kn p = (p', Err EInvalidArg) /\ inv p' t.
Proof.
  intros h i b kn H. pose proof (s_addKey p t h b kn I) as G. useg id_addKey G. rewrite H in G. destruct (isopt (identity_of_key kn) i); destruct (id_addKey h b kn p) as [q [k|e]]; destruct G as [G1 G2]; try (exfalso; exact G1).
  1: exists q, k; eexists; (split; [reflexivity|]); (split; [exact G2|]); (split; [cbn; apply updN_same|]); (split; [reflexivity|apply ceq_noted]).
  cbn in G1. subst e. exists q. split; auto.
Qed.
Lemma G_removeKey : forall h i kn, t_hid t h = Some i -> careful_op t (PRemoveKey h kn) ->
  if isopt (identity_of_key kn) i then exists p', id_removeKey h kn p = (p', Ok tt) /\ inv p' (t_removeKey i kn t)
  else exists p', id_removeKey h kn p = (p', Err EInvalidArg) /\ inv p' t.
Proof.
  intros h i kn H C. pose proof (s_removeKey p t h kn I C) as G. useg id_removeKey G. rewrite H in G. destruct (isopt (identity_of_key kn) i); destruct (id_removeKey h kn p) as [q [[]|e]]; destruct G as [G1 G2]; try (exfalso; exact G1).
  - exists q. auto.
  - cbn in G1. subst e. exists q. auto.
Qed.
Lemma G_setDefKey : forall h i kn, t_hid t h = Some i -> t_key t kn <> None ->
  if isopt (identity_of_key kn) i then exists p' k t', id_setDefaultKey h kn p = (p', Ok k) /\ inv p' t' /\ ceq t' (t_setDefK i kn t)
  else exists p', id_setDefaultKey h kn p = (p', Err EInvalidArg) /\ inv p' t.
Proof.
  intros h i kn H B. pose proof (s_setDefKey p t h kn I) as G. useg id_setDefaultKey G. rewrite H in G. destruct (t_key t kn) as [b|]; [|congruence].
  destruct (isopt (identity_of_key kn) i); destruct (id_setDefaultKey h kn p) as [q [k|e]]; destruct G as [G1 G2]; try (exfalso; exact G1).
  1: exists q, k; eexists; (split; [reflexivity|]); (split; [exact G2|apply ceq_noted]).
  cbn in G1. subst e. exists q. auto.
Qed.
Lemma G_keyInfo : forall k kn, t_hkey t k = Some kn -> exists b, t_key t kn = Some b /\ find_key k p <> None /\ forall A (f : nm -> bytes -> A), with_key k (fun x => ret (f (k_name x) (k_bits x))) p = (p, Ok (f kn b)).
Proof.
  intros k kn H. destruct (hkey_find _ _ _ _ I H) as (x & Fx & Nx & Ux). pose proof (v_k _ _ I _ _ Fx) as (_ & _ & B & _). rewrite Nx in B. exists (k_bits x). split; auto. split; [congruence|].
  intros A f. unfold with_key. rewrite Fx, Nx. reflexivity.
Qed.
Lemma G_idName : forall h i, t_hid t h = Some i -> find_id h p <> None /\ with_id h (fun x => ret (i_name x)) p = (p, Ok i).
Proof. intros h i H. destruct (hid_find _ _ _ _ I H) as (x & Fx & Nx & Ux). unfold with_id. rewrite Fx, Nx. split; [congruence|reflexivity]. Qed.
Lemma G_getDefCert : forall k kn, t_hkey t k = Some kn ->
  match t_defC t kn with
  | Some cn => exists p' c, key_getDefaultCert k p = (p', Ok c) /\ t_cert t cn = Some c /\ pc_name c = cn /\ inv p' t
  | None => exists p', key_getDefaultCert k p = (p', Err ERuntime) /\ inv p' t end.
Proof.
  intros k kn H. pose proof (s_getDefCert p t k I) as G. useg key_getDefaultCert G. rewrite H in G. destruct (t_defC t kn) as [cn|] eqn:E.
  - destruct (w_defC _ (v_t _ _ I) _ _ E) as [E1 E2]. destruct (t_cert t cn) as [c|] eqn:F; [|congruence]. destruct (w_cert _ (v_t _ _ I) _ _ F) as [F1 F2].
    destruct (key_getDefaultCert k p) as [q [c'|e]]; destruct G as [G1 G2]; [|exfalso; exact G1]. injection G1 as <-. exists q, c. auto.
  - destruct (key_getDefaultCert k p) as [q [c'|e]]; destruct G as [G1 G2]; [exfalso; exact G1|]. cbn in G1. subst e. exists q. auto.
Qed.
Lemma G_addCert : forall k kn c b, t_hkey t k = Some kn -> t_key t kn = Some b -> real_cert c -> careful_op t (PAddCert k c) ->
  (exists p', key_addCert k c p = (p', Err EInvalidArg) /\ inv p' t) \/
  (b = pc_bits c /\ key_of_cert (pc_name c) = Some kn /\ exists p', key_addCert k c p = (p', Ok tt) /\ inv p' (t_addCert (identity_of_key' kn) kn c t)).
Proof.
  intros k kn c b H B R C. pose proof (s_addCert p t k c I R C) as G. useg key_addCert G. rewrite H, B in G. destruct (list_eq_dec byte_dec b (pc_bits c)) as [E|E].
  - destruct (isopt (key_of_cert (pc_name c)) kn) eqn:F.
    + destruct (key_addCert k c p) as [q [[]|e]]; destruct G as [G1 G2]; [|exfalso; exact G1]. right. split; auto. split; [now apply isopt_some|]. exists q. auto.
    + destruct (key_addCert k c p) as [q [[]|e]]; destruct G as [G1 G2]; [exfalso; exact G1|]. cbn in G1. subst e. left. exists q. auto.
  - destruct (key_addCert k c p) as [q [[]|e]]; destruct G as [G1 G2]; [exfalso; exact G1|]. cbn in G1. subst e. left. exists q. auto.
Qed.
Lemma G_removeCert : forall k kn cn, t_hkey t k = Some kn ->
  if isopt (key_of_cert cn) kn then exists p', key_removeCert k cn p = (p', Ok tt) /\ inv p' (t_removeCert kn cn t) else exists p', key_removeCert k cn p = (p', Err EInvalidArg) /\ inv p' t.
Proof.
  intros k kn cn H. pose proof (s_removeCert p t k cn I) as G. useg key_removeCert G. rewrite H in G. destruct (isopt (key_of_cert cn) kn); destruct (key_removeCert k cn p) as [q [[]|e]]; destruct G as [G1 G2]; try (exfalso; exact G1).
  - exists q. auto.
  - cbn in G1. subst e. exists q. auto.
Qed.
Lemma G_setDefCert : forall k kn c, t_hkey t k = Some kn -> real_cert c -> careful_op t (PSetDefCert k c) ->
  (exists p', key_setDefaultCert k c p = (p', Err EInvalidArg) /\ inv p' t) \/
  (key_of_cert (pc_name c) = Some kn /\ exists p', key_setDefaultCert k c p = (p', Ok tt) /\ inv p' (t_setDefC kn (pc_name c) (t_addCert (identity_of_key' kn) kn c t))).
Proof.
  intros k kn c H R C. pose proof (s_setDefCert p t k c I R C) as G. useg key_setDefaultCert G. rewrite H in G. destruct (isopt (key_of_cert (pc_name c)) kn) eqn:F.
  - destruct (key_setDefaultCert k c p) as [q [[]|e]]; destruct G as [G1 G2]; [|exfalso; exact G1]. right. split; [now apply isopt_some|]. exists q. auto.
  - destruct (key_setDefaultCert k c p) as [q [[]|e]]; destruct G as [G1 G2]; [exfalso; exact G1|]. cbn in G1. subst e. left. exists q. auto.
Qed.
End G.
(* reads leave the entries alone *)
Lemma sem_read : forall o t, match o with PGetId _ | PGetDefId | PIdNames | PIdName _ | PKeyInfo _ | PGetKey _ _ | PKeyNames _ | PGetDefKey _ | PGetCert _ _ | PCertNames _ | PGetDefCert _ => True | _ => False end ->
  fst (sem o t) = t.
Proof.
  intros [] t H; try destruct H; cbn [sem]; unfold on_id, on_key, exists_, owned, ownedC;
    repeat match goal with |- context [match ?x with _ => _ end] => destruct x end; reflexivity.
Qed.

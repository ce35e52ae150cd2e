(* Every call of the PIB, except the known defects, answers as documented. *)
From Verif Require Import Base BaseLemmas M_Tlv M_Name S_Name M_Ims P_Ims M_Pib S_Pib P_Pib P_PibR P_PibK.
From Coq Require Import Lia ZifyBool ZifyNat ZifyN String.
Open Scope list_scope.
Open Scope N_scope.

Definition good (o : pop) (p : pib) (t : tree) : Prop :=
  let (t1, r) := sem o t in let (p', a) := pb_step o p in fits t1 r a /\ inv p' (noted t1 r a).

Ltac opn H := unfold good; cbn [sem pb_step]; unfold H, as_, andthen, assert_.
Lemma bytes_dec_eq : forall a b, bytes_eqb a b = if list_eq_dec byte_dec a b then true else false.
Proof. intros. destruct (list_eq_dec byte_dec a b) as [->|N]; [now apply bytes_eqb_eq|]. destruct (bytes_eqb a b) eqn:E; auto. apply bytes_eqb_eq in E. congruence. Qed.

Lemma s_addId : forall p t n, inv p t -> good (PAddId n) p t.
Proof. intros p t n I. opn pb_addIdentity. rewrite (ids_ok _ _ I). destruct (L_icadd p t n I) as (p' & h & -> & A & B). split; auto. Qed.
Lemma s_removeId : forall p t n, inv p t -> good (PRemoveId n) p t.
Proof. intros p t n I. unfold good. cbn [sem pb_step]. unfold as_. destruct (L_removeId p t n I) as (p' & -> & A). split; [reflexivity|exact A]. Qed.
Lemma s_getId : forall p t n, inv p t -> good (PGetId n) p t.
Proof.
  intros p t n I. opn pb_getIdentity. rewrite (ids_ok _ _ I). destruct (t_id t n) eqn:E.
  - destruct (L_icget p t n I E) as (p' & h & -> & A & B & _). split; auto.
  - unfold ic_get. destruct (id_named n p) as [i|] eqn:F. { destruct (id_named_some _ _ _ _ I F) as (_ & _ & G). apply (w_hid _ (v_t _ _ I)) in G. congruence. }
    rewrite (r_ids _ _ (v_b _ _ I)), E. split; [reflexivity|exact I].
Qed.
Lemma inv_setDef : forall p t h n, inv p t -> t_hid t h = Some n ->
  inv (wBe (mkBe (b_ids (p_be p)) (Some n) (b_keys (p_be p)) (b_defK (p_be p)) (b_certs (p_be p)) (b_defC (p_be p))) (wDef (Some h) p)) (t_setDef n t).
Proof.
  intros p t h n I H. pose proof (w_hid _ (v_t _ _ I) _ _ H) as K. pose proof (w_hidu _ (v_t _ _ I) _ _ H) as U. destruct I as [A B C D E F]. constructor; auto.
  - destruct A; constructor; auto.
  - destruct B as [B1 B2 B3 B4 B5 B6 B7 B8 B9 B10 B11]. constructor; tr; eauto. congruence.
  - destruct C; constructor; auto.
  - intros h' X. cbn in X. injection X as <-. split; auto. intros m M. change (t_hid t h = Some m) in M. cbn. congruence.
Qed.
Lemma s_setDefId : forall p t n, inv p t -> good (PSetDefId n) p t.
Proof.
  intros p t n I. opn pb_setDefaultIdentity. rewrite (ids_ok _ _ I). destruct (L_icadd p t n I) as (p1 & h & -> & A & B). set (t1 := if t_id t n then t else t_addId n t) in *.
  set (t2 := noted t1 (RId n) (Ok (AId h))) in *. unfold trybe, be_setDefId. change (p_be (wDef (Some h) p1)) with (p_be p1).
  assert (Hh : t_hid t2 h = Some n) by (cbn; unfold updN; destruct (N.eq_dec h h); congruence).
  rewrite (r_ids _ _ (v_b _ _ B)), (w_hid _ (v_t _ _ B) _ _ Hh). destruct (hid_find _ _ _ _ B Hh) as (x & X1 & X2 & X3). unfold find_id. tr.
  change (find (fun i => i_uid i =? h) (p_ids p1)) with (find_id h p1). rewrite X1. cbn [ret]. split.
  - destruct (t_id t n); exact A.
  - eapply inv_ext; [|exact (inv_setDef _ _ _ _ B Hh)]. unfold t2, t1. constructor; tr; auto; destruct (t_id t n) eqn:E; tr; auto.
    intros x0. ud. destruct (nm_dec x0 n); congruence.
Qed.
Lemma wDef_inv : forall p t h n, inv p t -> t_hid t h = Some n -> t_def t = Some n -> inv (wDef (Some h) p) t.
Proof.
  intros p t h n [A B C D E F] H G. constructor; auto. { destruct C; constructor; auto. } intros h' X. cbn in X. injection X as <-. split; [eapply w_hidu; eauto|congruence].
Qed.
Lemma s_getDefId : forall p t, inv p t -> good PGetDefId p t.
Proof.
  intros p t I. opn pb_getDefaultIdentity. rewrite (ids_ok _ _ I).
  assert (K : forall p', (match p_def p with Some h => find_id h p = None | None => True end) ->
    p' = p -> let (t1, r) := exists_ t (t_def t) (fun d => (t, RId d)) in
    let (q, a) := (match (match asks be_getDefId p with (p'0, Ok a) => match ic_get a p'0 with (p'1, Ok a0) => (wDef (Some a0) p'1, Ok tt) | (p'1, Err e) => (p'1, Err e) end | (p'0, Err e) => (p'0, Err e) end) with
      | (p'0, Ok _) => match p_def p'0 with
           | Some h => match find_id h p'0 with
                | Some i => match asks be_getDefId p'0 with (p'1, Ok a0) => match (if names_eqb (i_name i) a0 then (p'1, Ok tt) else (p'1, Err EAssert)) with (p'2, Ok _) => ret h p'2 | (p'2, Err e) => (p'2, Err e) end | (p'1, Err e) => (p'1, Err e) end
                | None => (p'0, Err EAssert) end
           | None => (p'0, Err EAssert) end
      | (p'0, Err e) => (p'0, Err e) end) in
    fits t1 r (match a with Ok a => Ok (AId a) | Err e => Err e end) /\ inv q (noted t1 r (match a with Ok a => Ok (AId a) | Err e => Err e end))).
  { intros p' _ _. unfold asks, be_getDefId. rewrite (r_def _ _ (v_b _ _ I)). destruct (t_def t) as [d|] eqn:E; cbn [exists_].
    - destruct (L_icget p t d I) as (p1 & h & -> & A & B & C & _). { eapply w_def; eauto. apply I. }
      set (t2 := noted t (RId d) (Ok (AId h))) in *. assert (Hh : t_hid t2 h = Some d) by (cbn; unfold updN; destruct (N.eq_dec h h); congruence).
      destruct (hid_find _ _ _ _ B Hh) as (x & X1 & X2 & X3). cbn [p_def wDef]. change (find_id h (wDef (Some h) p1)) with (find_id h p1). rewrite X1.
      change (p_be (wDef (Some h) p1)) with (p_be p1). rewrite C, (r_def _ _ (v_b _ _ I)), E, X2, names_eqb_refl. cbn [ret]. split; auto. apply wDef_inv with d; auto.
    - split; [reflexivity|exact I]. }
  specialize (K p). destruct (p_def p) as [h|] eqn:P.
  - destruct (find_id h p) as [i|] eqn:X.
    + pose proof (find_hid _ _ _ _ I X) as H. destruct (v_d _ _ I _ P) as [_ Q]. specialize (Q _ H). cbn [ret]. rewrite P, X. unfold asks, be_getDefId. rewrite (r_def _ _ (v_b _ _ I)), Q.
      rewrite names_eqb_refl. cbn [exists_ ret]. split; [now left|now apply reuse_id].
    + specialize (K eq_refl eq_refl). revert K. destruct (exists_ _ _ _). cbn beta. intros K.
      match goal with K : let (q, a) := ?m in _ |- _ => destruct m as [q [a|e]] end; exact K.
  - specialize (K Logic.I eq_refl). revert K. destruct (exists_ _ _ _). cbn beta. intros K. match goal with K : let (q, a) := ?m in _ |- _ => destruct m as [q [a|e]] end; exact K.
Qed.
Lemma s_idNames : forall p t, inv p t -> good PIdNames p t.
Proof. intros p t I. opn pb_idNames. rewrite (ids_ok _ _ I). split; [|exact I]. intros x. rewrite <- nmem_In, (h_names _ _ (v_h _ _ I)). tauto. Qed.
Lemma s_reset : forall p t, inv p t -> good PReset p t.
Proof.
  intros p t I. opn pb_reset. split; [reflexivity|]. constructor; [constructor|constructor|constructor| | |]; unfold emptyT; tr; try discriminate; try reflexivity; try congruence; try (intros x []).
  apply (h_used _ _ (v_h _ _ I)).
Qed.
Lemma s_reopen : forall p t, inv p t -> good PReopen p t.
Proof.
  intros p t I. opn pb_reopen. split; [reflexivity|]. destruct I as [A B C D E F]. constructor.
  - destruct A; constructor; auto.
  - destruct B as [B1 B2 B3 B4 B5 B6 B7 B8 B9 B10 B11]. constructor; tr; eauto; congruence.
  - constructor; tr; auto; try (intros x []). apply A. apply C.
  - discriminate.
  - discriminate.
  - discriminate.
Qed.
Lemma s_idName : forall p t h, inv p t -> good (PIdName h) p t.
Proof.
  intros p t h I. opn @with_id. unfold on_id. destruct (t_hid t h) as [i|] eqn:H.
  - destruct (hid_find _ _ _ _ I H) as (x & X1 & X2 & X3). rewrite X1. split; [cbn; congruence|exact I].
  - rewrite (hid_none _ _ _ I H). split; [reflexivity|exact I].
Qed.
Lemma s_keyInfo : forall p t h, inv p t -> good (PKeyInfo h) p t.
Proof.
  intros p t h I. opn @with_key. unfold on_key. destruct (t_hkey t h) as [i|] eqn:H.
  - destruct (hkey_find _ _ _ _ I H) as (x & X1 & X2 & X3). rewrite X1. destruct (v_k _ _ I _ _ X1) as (_ & _ & X & _). rewrite <- X2, X. cbn. auto.
  - rewrite (hkey_none _ _ _ I H). split; [reflexivity|exact I].
Qed.
(* ---- keys ---- *)
Ltac on_id_start h I :=
  unfold with_id, on_id; destruct (t_hid _ h) as [i|] eqn:Hh;
  [ destruct (hid_find _ _ _ _ I Hh) as (x & Fx & Xn & Xu); rewrite Fx; subst i; subst h; rewrite ?(keys_ok _ _ _ _ I Fx)
  | rewrite (hid_none _ _ _ I Hh); split; [reflexivity|exact I] ].
Ltac own x kn :=
  unfold owned; destruct (isopt (identity_of_key kn) (i_name x)) eqn:Ho; [apply isopt_eq in Ho|].
Lemma s_addKey : forall p t h b kn, inv p t -> good (PAddKey h b kn) p t.
Proof.
  intros p t h b kn I. opn id_addKey. on_id_start h I. own x kn.
  - destruct (L_kcadd p t x kn b I Fx Ho) as (p' & k & -> & A & B). split; auto.
  - unfold kc_add, andthen. rewrite (check_bad _ _ _ Ho). split; [reflexivity|exact I].
Qed.
Lemma s_getKey : forall p t h kn, inv p t -> good (PGetKey h kn) p t.
Proof.
  intros p t h kn I. opn id_getKey. on_id_start h I. own x kn.
  - destruct (t_key t kn) as [b|] eqn:K; cbn [exists_].
    + destruct (L_kcget p t x kn I Fx Ho) as (p' & k & -> & A & B & _); [congruence|]. split; auto.
    + rewrite (L_kcget_none _ _ _ _ I Fx Ho K). split; [reflexivity|exact I].
  - unfold kc_get, andthen. rewrite (check_bad _ _ _ Ho). split; [reflexivity|exact I].
Qed.
Lemma s_keyNames : forall p t h, inv p t -> good (PKeyNames h) p t.
Proof.
  intros p t h I. opn id_keyNames. on_id_start h I. split; [|exact I]. intros y. destruct (v_i _ _ I _ _ Fx) as [A _]. rewrite <- nmem_In, A. tauto.
Qed.
Lemma s_removeKey : forall p t h kn, inv p t -> careful_op t (PRemoveKey h kn) -> good (PRemoveKey h kn) p t.
Proof.
  intros p t h kn I Cf. opn id_removeKey. cbn [careful_op] in Cf. on_id_start h I. own x kn.
  - specialize (Cf _ eq_refl Ho). set (fg := match i_def x with Some _ => _ | None => false end). set (x' := if fg then _ else x).
    assert (Xu' : i_uid x' = i_uid x) by (unfold x'; destruct fg; auto). assert (Xn' : i_name x' = i_name x) by (unfold x'; destruct fg; auto).
    assert (Xk' : i_knames x' = i_knames x) by (unfold x'; destruct fg; auto). assert (Xd' : i_def x' = i_def x \/ i_def x' = None) by (unfold x'; destruct fg; auto).
    clearbody x'. unfold kc_remove, andthen. rewrite check_ok by congruence. rewrite Xk', Xu', Xn'. destruct (nmem kn (i_knames x)) eqn:M.
    + unfold modbe. split; [reflexivity|]. pose proof (find_hid _ _ _ _ I Fx) as Hx. pose proof (L_cut _ _ _ _ _ I Hx Ho) as I1.
      assert (NH : forall h, t_hkey (drop_handles kn t) h <> Some kn).
      { intros h. tr. ud. destruct (isopt (t_hkey t h) kn) eqn:E; cbn; [discriminate|]. now apply isopt_neq. }
      rewrite put_put_id by (cbn; auto). change (p_keys (put_id x' p)) with (p_keys p).
      eapply inv_ext; [|refine (L_rmKey _ _ x (mkId (i_uid x) (i_name x) (nrem kn (i_knames x)) (i_def x')) kn I1 NH Fx Ho Cf eq_refl eq_refl _ Xd')].
      2: { intros z. cbn. apply nmem_nrem. }
      * constructor; tr; auto. intros n. ud. destruct (isopt (t_hkey t n) kn) eqn:E; cbn; auto. rewrite E. reflexivity.
    + assert (KN : t_key t kn = None).
      { destruct (v_i _ _ I _ _ Fx) as [A _]. rewrite A in M. destruct (t_key t kn); auto. cbn in M. apply isopt_neq in M. congruence. }
      assert (NH : forall h, t_hkey t h <> Some kn). { intros h H. elim (w_hkey _ (v_t _ _ I) _ _ H KN). }
      change (key_named (i_uid x) kn (put_id x' p)) with (key_named (i_uid x) kn p).
      destruct (key_named (i_uid x) kn p) as [k|] eqn:E. { destruct (key_named_some _ _ _ _ _ I E) as (_ & _ & G). elim (NH _ G). }
      unfold modbe. split; [reflexivity|]. change (p_be (put_id x' p)) with (p_be p). apply L_rmKey; auto.
      intros z. rewrite Xk'. destruct (nm_dec z kn) as [->|]; auto.
  - set (fg := match i_def x with Some _ => _ | None => false end). unfold kc_remove, andthen. rewrite check_bad by (destruct fg; auto).
    split; [reflexivity|]. destruct fg.
    + (* the cached default key is forgotten although the name is refused *)
      change (inv (put_id (mkId (i_uid x) (i_name x) (i_knames x) None) p) t).
      set (y := mkId _ _ _ _). destruct I as [A B C D E F]. constructor; auto.
      * destruct C as [C1 C2 C3 C4 C5 C6]. constructor; auto.
        -- intros h. rewrite find_put_id. cbn [y i_uid]. destruct (h =? i_uid x) eqn:X; auto. apply N.eqb_eq in X. subst h. now rewrite Fx, Hh.
        -- now apply (uniq_put i_uid).
      * intros h z. rewrite find_put_id. cbn [y i_uid]. destruct (h =? i_uid x) eqn:X; [|apply D].
        destruct (find_id h p) as [w|] eqn:W; [|discriminate]. intros H; injection H as <-. destruct (D _ _ Fx) as [Y Z]. split; unfold y; tr; auto. discriminate.
    + change (inv (put_id x p) t). rewrite (put_id_same _ _ _ I Fx). exact I.
Qed.
Lemma s_setDefKey : forall p t h kn, inv p t -> good (PSetDefKey h kn) p t.
Proof.
  intros p t h kn I. opn id_setDefaultKey. on_id_start h I. own x kn.
  - destruct (t_key t kn) as [b|] eqn:K; cbn [exists_].
    + destruct (L_kcget p t x kn I Fx Ho) as (p' & k & -> & A & B & C & D); [congruence|].
      assert (Fx' : find_id (i_uid x) p' = Some x) by (unfold find_id; rewrite D; exact Fx).
      destruct (L_setDefK p' _ x kn k B Fx') as (q & -> & Q); [|exact Ho|]. cbn. unfold updN. destruct (N.eq_dec k k); congruence. split; [exact A|exact Q].
    + rewrite (L_kcget_none _ _ _ _ I Fx Ho K). split; [reflexivity|exact I].
  - unfold kc_get, andthen. rewrite (check_bad _ _ _ Ho). split; [reflexivity|exact I].
Qed.
Lemma s_setDefKeyBits : forall p t h b kn, inv p t -> good (PSetDefKeyBits h b kn) p t.
Proof.
  intros p t h b kn I. opn id_setDefaultKeyBits. on_id_start h I. own x kn.
  - destruct (L_kcadd p t x kn b I Fx Ho) as (p' & k & -> & A & B). set (t1 := t_addKey (i_name x) kn b t) in *.
    assert (Hh' : t_hid (noted t1 (RKey kn) (Ok (AKey k))) (i_uid x) = Some (i_name x)) by exact Hh.
    destruct (hid_find _ _ _ _ B Hh') as (y & Fy & Yn & Yu). rewrite <- Yu, <- Yn in *.
    destruct (L_setDefK p' _ y kn k B Fy) as (q & -> & Q); [|congruence|]. cbn. unfold updN. destruct (N.eq_dec k k); congruence. split; [exact A|exact Q].
  - unfold kc_add, andthen. rewrite (check_bad _ _ _ Ho). split; [reflexivity|exact I].
Qed.
Lemma s_getDefKey : forall p t h, inv p t -> good (PGetDefKey h) p t.
Proof.
  intros p t h I. opn id_getDefaultKey. on_id_start h I.
  destruct (match i_def x with Some d => find_key d p | None => None end) as [k|] eqn:G.
  - destruct (i_def x) as [d|] eqn:Di; [|discriminate]. pose proof (find_hkey _ _ _ _ I G) as Hk. destruct (v_i _ _ I _ _ Fx) as [_ Z]. destruct (Z d Di) as [_ W]. specialize (W _ Hk).
    assert (k_uid k = d) by now apply (fnd_in k_uid) in G. subst d. unfold with_key. rewrite G. unfold asks, be_getDefKey. rewrite (r_defK _ _ (v_b _ _ I)), W, names_eqb_refl. cbn [exists_ ret].
    split; [now left|now apply reuse_key].
  - unfold asks, be_getDefKey. rewrite (r_defK _ _ (v_b _ _ I)). destruct (t_defK t (i_name x)) as [kn|] eqn:DK; cbn [exists_]; [|split; [reflexivity|exact I]].
    destruct (w_defK _ (v_t _ _ I) _ _ DK) as [K1 K2]. destruct (L_kcget p t x kn I Fx K2 K1) as (p' & k & -> & A & B & C & D). cbn [ret].
    assert (Fx' : find_id (i_uid x) p' = Some x) by (unfold find_id; rewrite D; exact Fx).
    set (t2 := noted t (RKey kn) (Ok (AKey k))) in *. assert (Hk : t_hkey t2 k = Some kn) by (cbn; unfold updN; destruct (N.eq_dec k k); congruence).
    destruct (hkey_find _ _ _ _ B Hk) as (y & Fy & Yn & Yu). unfold with_key. change (find_key k (put_id ?z p')) with (find_key k p'). rewrite Fy.
    change (p_be (put_id ?z p')) with (p_be p'). rewrite C, (r_defK _ _ (v_b _ _ I)), DK, Yn, names_eqb_refl. split; [exact A|]. apply cache_defK with kn; auto.
Qed.
(* ---- certificates ---- *)
Ltac on_key_start h I :=
  unfold with_key, on_key; destruct (t_hkey _ h) as [i|] eqn:Hh;
  [ destruct (hkey_find _ _ _ _ I Hh) as (x & Fx & Xn & Xu); rewrite Fx; subst i; subst h; rewrite ?(certs_ok _ _ _ _ I Fx); destruct (v_k _ _ I _ _ Fx) as (X1 & X2 & X3 & X4 & X5 & X6)
  | rewrite (hkey_none _ _ _ I Hh); split; [reflexivity|exact I] ].
Ltac ownC x kn :=
  unfold ownedC; destruct (isopt (key_of_cert kn) (k_name x)) eqn:Ho; [apply isopt_eq in Ho|].
Lemma cert_mismatch : forall x c, real_cert c -> isopt (key_of_cert (pc_name c)) (k_name x) = false -> names_eqb (k_name x) (pc_key c) = false.
Proof.
  intros x c R H. unfold real_cert in R. destruct (key_of_cert (pc_name c)) as [k|] eqn:E; [|congruence]. unfold pc_key. rewrite (cert_drop _ _ E). apply isopt_neq in H. apply names_eqb_neq. congruence.
Qed.
Lemma s_addCert : forall p t k c, inv p t -> real_op (PAddCert k c) -> careful_op t (PAddCert k c) -> good (PAddCert k c) p t.
Proof.
  intros p t h c I R Cf. cbn [real_op careful_op] in R, Cf. opn key_addCert. on_key_start h I. rewrite X3. cbn [exists_]. rewrite bytes_dec_eq.
  destruct (list_eq_dec byte_dec (k_bits x) (pc_bits c)) as [Eb|]; [|split; [reflexivity|exact I]]. unfold cc_add. ownC x (pc_name c).
  - assert (PK : pc_key c = k_name x) by (apply cert_drop; auto). rewrite PK, names_eqb_refl. cbn [negb]. destruct (identity_of_key (k_name x)) as [i|] eqn:Ei; [|congruence].
    split; [reflexivity|]. unfold identity_of_key'. rewrite Ei. apply (L_addCert p t x c i (k_def x)); auto. right. split; auto. intros c' P Q. eapply Cf; eauto.
  - rewrite (cert_mismatch _ _ R Ho). split; [reflexivity|exact I].
Qed.
Lemma s_removeCert : forall p t k cn, inv p t -> good (PRemoveCert k cn) p t.
Proof.
  intros p t h cn I. opn key_removeCert. on_key_start h I.
  set (x' := match k_def x with Some d => if names_eqb (pc_name d) cn then _ else x | None => x end).
  assert (Yu : k_uid x' = k_uid x /\ k_owner x' = k_owner x /\ k_name x' = k_name x /\ k_bits x' = k_bits x /\ k_cnames x' = k_cnames x /\ k_certs x' = k_certs x /\
    (forall c, k_def x' = Some c -> k_def x = Some c /\ pc_name c <> cn)).
  { unfold x'. destruct (k_def x) as [d|] eqn:E; [destruct (names_eqb (pc_name d) cn) eqn:G|]; splits; auto; cbn; try discriminate; try congruence.
    apply names_eqb_neq in G. rewrite E. intros c H. injection H as <-. auto. }
  assert (XX : x' = withC x (k_cnames x) (k_certs x) (k_def x')). { unfold x'. destruct (k_def x) as [d|] eqn:E; [destruct (names_eqb (pc_name d) cn)|]; unfold withC; cbn; auto; destruct x; cbn in *; congruence. }
  clearbody x'. destruct Yu as (Y1 & Y2 & Y3 & Y4 & Y5 & Y6 & Y7). unfold cc_remove, andthen. ownC x cn.
  - rewrite ccheck_ok by congruence. rewrite Y1, Y2, Y3, Y4, Y5, Y6. destruct (nmem cn (k_cnames x)) eqn:M.
    + rewrite put_put_key by auto. split; [reflexivity|]. change (p_be (put_key ?z p)) with (p_be p). apply L_rmCert; auto; intros z; cbn; [apply nmem_nrem|apply nget_ndel].
    + assert (CN : t_cert t cn = None). { rewrite X4 in M. destruct (t_cert t cn); auto. cbn in M. apply isopt_neq in M. congruence. }
      assert (CX : nget cn (k_certs x) = None). { destruct (nget cn (k_certs x)) as [c|] eqn:E; auto. destruct (X5 _ _ E). congruence. }
      rewrite has_isome, CX. cbn [isome]. split; [reflexivity|]. change (p_be (put_key ?z p)) with (p_be p). apply L_rmCert; auto.
      * intros z. rewrite Y5. destruct (nm_dec z cn) as [->|]; auto.
      * intros z. rewrite Y6. destruct (nm_dec z cn) as [->|]; auto.
  - rewrite ccheck_bad by congruence. split; [reflexivity|]. rewrite XX. apply L_cacheC; auto. intros c H. destruct (Y7 _ H). auto.
Qed.
Lemma L_ccget : forall p t x cn, inv p t -> find_key (k_uid x) p = Some x -> key_of_cert cn = Some (k_name x) ->
  match t_cert t cn with
  | Some c => exists p' x', cc_get x cn p = (p', Ok c) /\ inv p' t /\ p_be p' = p_be p /\ find_key (k_uid x) p' = Some x' /\ k_name x' = k_name x /\ k_uid x' = k_uid x
  | None => cc_get x cn p = (p, Err ERuntime)
  end.
Proof.
  intros p t x cn I Fx Ho. destruct (v_k _ _ I _ _ Fx) as (X1 & X2 & X3 & X4 & X5 & X6). unfold cc_get, andthen. rewrite (ccheck_ok _ _ _ Ho).
  destruct (nget cn (k_certs x)) as [c|] eqn:E.
  - destruct (X5 _ _ E) as [A _]. rewrite A. exists p, x. splits; auto.
  - unfold asks, be_getCert. rewrite (r_certs _ _ (v_b _ _ I)). destruct (t_cert t cn) as [c|] eqn:G; [|reflexivity].
    eexists _, _. split; [reflexivity|]. split; [|split; [reflexivity|split]].
    + apply (L_cacheC p t x (nset cn c (k_certs x)) (k_def x)); auto. intros z e. rewrite nget_nset. destruct (nm_dec z cn) as [->|]; [|apply X5]. intros H; injection H as <-. auto.
    + rewrite find_put_key. cbn [k_uid]. rewrite N.eqb_refl, Fx. reflexivity.
    + split; reflexivity.
Qed.
Lemma s_getCert : forall p t k cn, inv p t -> good (PGetCert k cn) p t.
Proof.
  intros p t h cn I. opn key_getCert. on_key_start h I. ownC x cn.
  - pose proof (L_ccget p t x cn I Fx Ho) as L. destruct (t_cert t cn) as [c|]; cbn [exists_].
    + destruct L as (p' & x' & -> & A & _). split; [reflexivity|exact A].
    + rewrite L. split; [reflexivity|exact I].
  - unfold cc_get, andthen. rewrite (ccheck_bad _ _ _ Ho). split; [reflexivity|exact I].
Qed.
Lemma s_certNames : forall p t h, inv p t -> good (PCertNames h) p t.
Proof. intros p t h I. opn key_certNames. on_key_start h I. split; [|exact I]. intros y. rewrite <- nmem_In, X4. tauto. Qed.
Lemma L_keySetDef : forall p t x c, inv p t -> find_key (k_uid x) p = Some x -> t_cert t (pc_name c) = Some c -> key_of_cert (pc_name c) = Some (k_name x) ->
  exists p', key_setDef (k_uid x) c p = (p', Ok c) /\ inv p' (t_setDefC (k_name x) (pc_name c) t).
Proof.
  intros p t x c I Fx Hc Hk. unfold key_setDef, with_key. rewrite Fx. unfold andthen, assert_. rewrite (certs_ok _ _ _ _ I Fx). unfold trybe. change (p_be (put_key ?z p)) with (p_be p).
  destruct (be_setDefCert (k_name x) (pc_name c) (p_be p)) as [b|e] eqn:E.
  - eexists; split; [reflexivity|]. now apply (L_setDefC p t x c).
  - exfalso. unfold be_setDefCert in E. rewrite has_isome, (r_certs _ _ (v_b _ _ I)), Hc in E. discriminate.
Qed.
Lemma s_setDefCertName : forall p t k cn, inv p t -> good (PSetDefCertName k cn) p t.
Proof.
  intros p t h cn I. opn key_setDefaultCertName. on_key_start h I. ownC x cn.
  - pose proof (L_ccget p t x cn I Fx Ho) as L. destruct (t_cert t cn) as [c|] eqn:C; cbn [exists_].
    + destruct L as (p' & x' & -> & A & B & D & E & G). destruct (w_cert _ (v_t _ _ I) _ _ C) as [N _]. subst cn. rewrite <- G, <- E in *.
      destruct (L_keySetDef p' t x' c) as (q & -> & Q); auto. split; [reflexivity|exact Q].
    + rewrite L. split; [reflexivity|exact I].
  - unfold cc_get, andthen. rewrite (ccheck_bad _ _ _ Ho). split; [reflexivity|exact I].
Qed.
Lemma s_setDefCert : forall p t k c, inv p t -> real_op (PSetDefCert k c) -> careful_op t (PSetDefCert k c) -> good (PSetDefCert k c) p t.
Proof.
  intros p t h c I R Cf. cbn [real_op careful_op] in R, Cf. opn key_setDefaultCert. on_key_start h I. unfold cc_add. ownC x (pc_name c).
  - assert (PK : pc_key c = k_name x) by (apply cert_drop; auto). rewrite PK, names_eqb_refl. cbn [negb]. destruct (identity_of_key (k_name x)) as [i|] eqn:Ei; [|congruence].
    unfold identity_of_key'. rewrite Ei. pose proof (Cf _ eq_refl Ho) as Eb.
    assert (Eb' : k_bits x = pc_bits c) by congruence.
    pose proof (L_addCert p t x c i None I Fx Ho Ei Eb' (or_introl eq_refl)) as I1. set (y0 := withC _ _ _ _) in I1.
    set (q := wBe (be_addCert c (p_be p)) (put_key y0 p)) in *.
    assert (Fy : find_key (k_uid y0) q = Some y0) by (unfold q; change (find_key (k_uid y0) (wBe ?b ?z)) with (find_key (k_uid y0) z); rewrite find_put_key, N.eqb_refl; cbn [y0 withC k_uid]; now rewrite Fx).
    destruct (L_keySetDef q _ y0 c I1 Fy) as (q' & Q1 & Q2); auto. { tr. ud. destruct (nm_dec (pc_name c) (pc_name c)); congruence. }
    unfold key_setDef, with_key in Q1 |- *. rewrite Fy in Q1. change (find_key (k_uid x) (wBe ?b ?z)) with (find_key (k_uid x) z). rewrite find_put_key. cbn [k_uid]. rewrite N.eqb_refl, Fx.
    unfold andthen, assert_ in Q1 |- *. unfold certs_consistent in Q1 |- *. cbn [k_cnames k_name y0 withC] in Q1 |- *. unfold q in Q1. cbn [p_be wBe] in Q1 |- *.
    destruct (same_set _ _); [|discriminate]. unfold trybe in Q1 |- *. cbn [p_be wBe put_key wKeys k_name k_uid k_owner k_bits k_certs withC y0] in Q1 |- *.
    destruct (be_setDefCert (k_name x) (pc_name c) (be_addCert c (p_be p))) as [b|e] eqn:E; [|discriminate]. cbn [ret] in Q1 |- *. split; [reflexivity|].
    assert (Q1' := f_equal fst Q1). cbn [fst] in Q1'.
    match goal with |- inv ?s ?u => replace s with q'; [exact Q2|] end. rewrite <- Q1'. unfold ret, put_key, wKeys, wBe. cbn [fst p_be p_names p_ids p_keys p_def p_next]. unfold y0, withC.
    f_equal. rewrite !map_map; apply map_ext; intros z; cbn [k_uid withC y0]; destruct (k_uid z =? k_uid x) eqn:Z; cbn [k_uid withC y0]; rewrite ?N.eqb_refl, ?Z; reflexivity.
  - rewrite (cert_mismatch _ _ R Ho). split; [reflexivity|exact I].
Qed.
Lemma s_getDefCert : forall p t k, inv p t -> good (PGetDefCert k) p t.
Proof.
  intros p t h I. opn key_getDefaultCert. on_key_start h I. unfold asks, be_getDefCert. destruct (k_def x) as [c|] eqn:Kd.
  - destruct (X6 _ eq_refl) as [A B]. cbn [ret]. rewrite (r_defC _ _ (v_b _ _ I)), A, (r_certs _ _ (v_b _ _ I)), B, names_eqb_refl. cbn [exists_]. rewrite B. split; [reflexivity|exact I].
  - rewrite (r_defC _ _ (v_b _ _ I)). destruct (t_defC t (k_name x)) as [cn|] eqn:A; cbn [exists_]; [|split; [reflexivity|exact I]].
    rewrite (r_certs _ _ (v_b _ _ I)). destruct (w_defC _ (v_t _ _ I) _ _ A) as [B1 B2]. destruct (t_cert t cn) as [c|] eqn:B; [|congruence]. destruct (w_cert _ (v_t _ _ I) _ _ B) as [N _]. cbn [ret exists_].
    change (p_be (put_key ?z p)) with (p_be p). rewrite (r_defC _ _ (v_b _ _ I)), A, (r_certs _ _ (v_b _ _ I)), B, names_eqb_refl. split; [reflexivity|].
    apply (L_cacheC p t x (k_certs x) (Some c)); auto. intros e H. injection H as <-. subst cn. auto.
Qed.
Lemma s_all : forall o p t, inv p t -> real_op o -> careful_op t o -> good o p t.
Proof.
  intros [] p t I R C.
  - now apply s_addId. - now apply s_removeId. - now apply s_getId. - now apply s_setDefId. - now apply s_getDefId. - now apply s_idNames. - now apply s_reset. - now apply s_reopen.
  - now apply s_idName. - now apply s_keyInfo. - now apply s_addKey. - now apply s_removeKey. - now apply s_getKey. - now apply s_keyNames. - now apply s_setDefKey. - now apply s_setDefKeyBits.
  - now apply s_getDefKey. - now apply s_addCert. - now apply s_removeCert. - now apply s_getCert. - now apply s_certNames. - now apply s_setDefCertName. - now apply s_setDefCert. - now apply s_getDefCert.
Qed.
Lemma run_documented : forall l p t, inv p t -> Forall real_op l -> careful l t p -> documented l t p.
Proof.
  induction l as [|o l IH]; intros p t I R C; cbn [documented]; auto. inversion R as [|? ? R1 R2]; subst. cbn [careful] in C. destruct C as [C1 C2]. pose proof (s_all o p t I R1 C1) as G. unfold good in G.
  destruct (sem o t) as [t1 r]. destruct (pb_step o p) as [p' a]. destruct G as [G1 G2]. split; auto.
Qed.

(* The operations on keys and certificates against the documented tree. *)
From Verif Require Import Base BaseLemmas M_Tlv M_Name S_Name M_Ims P_Ims M_Pib S_Pib P_Pib P_PibR.
From Coq Require Import Lia ZifyBool ZifyNat ZifyN String.
Open Scope list_scope.
Open Scope N_scope.

Lemma find_put_id : forall h x p, find_id h (put_id x p) = if h =? i_uid x then (match find_id h p with Some _ => Some x | None => None end) else find_id h p.
Proof. intros. apply (fnd_put i_uid). Qed.
Lemma find_put_key : forall h x p, find_key h (put_key x p) = if h =? k_uid x then (match find_key h p with Some _ => Some x | None => None end) else find_key h p.
Proof. intros. apply (fnd_put k_uid). Qed.
Lemma put_put_id : forall x y p, i_uid x = i_uid y -> put_id x (put_id y p) = put_id x p.
Proof.
  intros x y p H. unfold put_id, wIds. cbn [p_be p_names p_ids p_keys p_def p_next]. f_equal. rewrite map_map. apply map_ext. intros z.
  destruct (i_uid z =? i_uid y) eqn:E; [|reflexivity]. rewrite H, N.eqb_refl, E. reflexivity.
Qed.
Lemma put_put_key : forall x y p, k_uid x = k_uid y -> put_key x (put_key y p) = put_key x p.
Proof.
  intros x y p H. unfold put_key, wKeys. cbn [p_be p_names p_ids p_keys p_def p_next]. f_equal. rewrite map_map. apply map_ext. intros z.
  destruct (k_uid z =? k_uid y) eqn:E; [|reflexivity]. rewrite H, N.eqb_refl, E. reflexivity.
Qed.
Lemma put_id_same : forall p t x, inv p t -> find_id (i_uid x) p = Some x -> put_id x p = p.
Proof.
  intros p t x I F. unfold put_id, wIds. destruct p as [b ns is ks d nx]. cbn [p_be p_names p_ids p_keys p_def p_next] in *. f_equal.
  rewrite <- (map_id is) at 2. apply map_ext_in. intros z Hz. destruct (i_uid z =? i_uid x) eqn:E; auto. apply N.eqb_eq in E.
  pose proof (h_uid _ _ (v_h _ _ I) z Hz) as G. cbn [p_ids] in G. rewrite E in G. unfold find_id in F. cbn [p_ids] in F. unfold fnd in G. congruence.
Qed.
Lemma put_key_same : forall p t x, inv p t -> find_key (k_uid x) p = Some x -> put_key x p = p.
Proof.
  intros p t x I F. unfold put_key, wKeys. destruct p as [b ns is ks d nx]. cbn [p_be p_names p_ids p_keys p_def p_next] in *. f_equal.
  rewrite <- (map_id ks) at 2. apply map_ext_in. intros z Hz. destruct (k_uid z =? k_uid x) eqn:E; auto. apply N.eqb_eq in E.
  pose proof (h_ukey _ _ (v_h _ _ I) z Hz) as G. cbn [p_keys] in G. rewrite E in G. unfold find_key in F. cbn [p_keys] in F. unfold fnd in G. congruence.
Qed.

(* ---- keys ---- *)
Definition cut (u : N) (kn : nm) (p : pib) : pib := wKeys (filter (fun k => negb ((k_owner k =? u) && names_eqb kn (k_name k))) (p_keys p)) p.
Lemma L_cut : forall p t u i kn, inv p t -> t_hid t u = Some i -> identity_of_key kn = Some i -> inv (cut u kn p) (drop_handles kn t).
Proof.
  intros p t u i kn I Hu Hk.
  assert (FK : forall h, find_key h (cut u kn p) = if isopt (t_hkey t h) kn then None else find_key h p).
  { intros h. unfold cut, find_key at 1. tr. change (find ?f ?l) with (fnd k_uid h l). rewrite fnd_filter by apply (v_h _ _ I). change (fnd k_uid h (p_keys p)) with (find_key h p).
    destruct (find_key h p) as [k|] eqn:X. 2: dif; reflexivity. rewrite (owner_is _ _ _ _ _ _ _ I Hu Hk X). destruct (isopt (t_hkey t h) kn); reflexivity. }
  pose proof I as I0. destruct I as [A B C D E F]. constructor.
  - destruct A; constructor; auto.
  - destruct B as [B1 B2 B3 B4 B5 B6 B7 B8 B9 B10 B11]. constructor; tr; ud; eauto.
    + intros h n. dif; [eauto|discriminate].
    + intros h n. dif; [eauto|discriminate].
    + intros h h' n. dif; [|discriminate]. dif; [eauto|discriminate].
  - destruct C as [C1 C2 C3 C4 C5 C6]. constructor; tr; ud; auto.
    + intros h. rewrite FK, <- C3. destruct (isopt (option_map k_name (find_key h p)) kn); reflexivity.
    + now apply uniq_filter.
  - intros h x H. destruct (D h x H) as [X Y]. split; auto. intros d Hd. destruct (Y d Hd) as [Z W]. split; auto. tr. ud. intros k. dif; [auto|discriminate].
  - intros h k. rewrite FK. dif; [discriminate|]. apply E.
  - exact F.
Qed.
Lemma L_ensure : forall p t x kn bits, inv p t -> (forall h, t_hkey t h <> Some kn) -> find_id (i_uid x) p = Some x -> identity_of_key kn = Some (i_name x) ->
  inv (wBe (be_addKey (i_name x) kn bits (p_be p)) (put_id (mkId (i_uid x) (i_name x) (nadd kn (i_knames x)) (i_def x)) p)) (t_ensureKey (i_name x) kn bits t).
Proof.
  intros p t x kn bits I NH Fx Hk. set (y := mkId _ _ _ _). pose proof (find_hid _ _ _ _ I Fx) as Hx. pose proof (w_hid _ (v_t _ _ I) _ _ Hx) as Ix.
  pose proof I as I0. destruct I as [A B C D E F]. constructor.
  - destruct A as [A1 A2 A3 A4 A5 A6]. constructor; tr; ud; auto.
    + intros n. rewrite nmem_nadd, A1. reflexivity.
    + rewrite A2. destruct (t_def t); reflexivity.
    + intros n. rewrite nget_nset, A3. reflexivity.
    + intros n. rewrite has_isome, A4. unfold isome. destruct (t_defK t (i_name x)) as [d|] eqn:X.
      * rewrite A4. destruct (nm_dec n (i_name x)) as [->|]; auto.
      * rewrite nget_nset, A4. reflexivity.
  - destruct B as [B1 B2 B3 B4 B5 B6 B7 B8 B9 B10 B11]. constructor; tr; ud; eauto.
    + intros d. destruct (nm_dec d (i_name x)); auto. destruct (t_def t) eqn:G; auto. congruence.
    + intros k. destruct (nm_dec k kn) as [->|].
      * intros _. exists (i_name x). split; auto. destruct (nm_dec (i_name x) (i_name x)); congruence.
      * intros H. destruct (B2 _ H) as [i [X Y]]. exists i. split; auto. destruct (nm_dec i (i_name x)); auto.
    + intros i k. destruct (nm_dec i (i_name x)) as [->|].
      * destruct (t_defK t (i_name x)) as [d|] eqn:G; intros H; injection H as <-.
        -- destruct (B3 _ _ G) as [X Y]. split; auto. destruct (nm_dec d kn); congruence.
        -- split; auto. destruct (nm_dec kn kn); congruence.
      * intros H. destruct (B3 _ _ H) as [X Y]. split; auto. destruct (nm_dec k kn); congruence.
    + intros cn c H. destruct (B4 _ _ H) as [X [k [Y Z]]]. split; auto. exists k. split; auto. destruct (nm_dec k kn); congruence.
    + intros h n H. destruct (nm_dec n (i_name x)); eauto.
    + intros h n H. destruct (nm_dec n kn); [congruence|eauto].
  - destruct C as [C1 C2 C3 C4 C5 C6]. constructor; tr; ud; auto.
    + intros n. rewrite C1. destruct (nm_dec n (i_name x)); congruence.
    + intros h. change (find_id h (wBe _ ?q)) with (find_id h q). rewrite find_put_id. cbn [y i_uid]. destruct (h =? i_uid x) eqn:X; auto. apply N.eqb_eq in X. subst h. now rewrite Fx, Hx.
    + now apply (uniq_put i_uid).
  - intros h z. change (find_id h (wBe _ ?q)) with (find_id h q). rewrite find_put_id. cbn [y i_uid]. destruct (h =? i_uid x) eqn:X.
    + destruct (find_id h p) as [w|] eqn:W; [|discriminate]. intros H; injection H as <-. destruct (D _ _ Fx) as [Y Z]. split; unfold y; tr; ud.
      * intros k. rewrite nmem_nadd, Y. destruct (nm_dec k kn) as [->|]; auto. rewrite Hk. cbn. unfold is. destruct (nm_dec (i_name x) (i_name x)); congruence.
      * intros d Hd. destruct (Z d Hd) as [Z1 Z2]. split; auto. intros k K. rewrite (Z2 k K). destruct (nm_dec (i_name x) (i_name x)); congruence.
    + intros H. destruct (D _ _ H) as [Y Z]. assert (NE : i_name z <> i_name x).
      { intros G. pose proof (find_hid _ _ _ _ I0 H) as K. rewrite G in K. pose proof (w_hidi _ B _ _ _ K Hx). lia. }
      split; tr; ud.
      * intros k. rewrite Y. destruct (nm_dec k kn) as [->|]; auto. rewrite Hk. cbn. unfold is. destruct (nm_dec (i_name x) (i_name z)); [congruence|now rewrite !andb_false_r].
      * intros d Hd. destruct (Z d Hd) as [Z1 Z2]. split; auto. intros k K. rewrite (Z2 k K). destruct (nm_dec (i_name z) (i_name x)); congruence.
  - intros h k H. change (find_key h p = Some k) in H. pose proof (find_hkey _ _ _ _ I0 H) as K. destruct (E _ _ H) as (X1 & X2 & X3 & X4 & X5 & X6). unfold okK. tr. ud. splits; auto.
    destruct (nm_dec (k_name k) kn); auto. exfalso. apply (NH h). congruence.
  - intros h H. destruct (F h H) as [X Y]. split; auto. tr. ud. intros n K. rewrite (Y n K). reflexivity.
Qed.
Lemma L_newkey : forall p t u i kn bits, inv p t -> t_hid t u = Some i -> identity_of_key kn = Some i -> t_key t kn = Some bits -> (forall h, t_hkey t h <> Some kn) ->
  exists p', new_key u kn bits p = (p', Ok (p_next p)) /\ inv p' (noted t (RKey kn) (Ok (AKey (p_next p)))) /\ p_be p' = p_be p /\ p_ids p' = p_ids p /\ p_def p' = p_def p.
Proof.
  intros p t u i kn bits I Hu Hk Hb NH. destruct (fresh_none _ _ I) as (F1 & F2 & F3). unfold new_key. rewrite has_isome, (r_keys _ _ (v_b _ _ I)), Hb. cbn [negb isome].
  eexists; split; [reflexivity|]. split; [|splits; reflexivity].
  rewrite filter_id.
  2: { intros k K. apply negb_true_iff. pose proof (h_ukey _ _ (v_h _ _ I) _ K) as X. rewrite (owner_is _ _ _ _ _ _ _ I Hu Hk X). apply isopt_neq, NH. }
  set (y := mkK _ _ _ _ _ _ _).
  pose proof I as I0. destruct I as [A B C D E F]. constructor.
  - destruct A; constructor; auto.
  - destruct B as [B1 B2 B3 B4 B5 B6 B7 B8 B9 B10 B11]. constructor; tr; ud; eauto.
    + intros h n H. destruct (N.eq_dec h (p_next p)); eauto.
    + intros h n. destruct (N.eq_dec h (p_next p)); [congruence|eauto].
    + intros h n. destruct (N.eq_dec h (p_next p)); eauto.
    + intros h h' n. destruct (N.eq_dec h (p_next p)), (N.eq_dec h' (p_next p)); eauto; intros X Y; try congruence.
  - destruct C as [C1 C2 C3 C4 C5 C6]. constructor; tr; ud; auto.
    + intros h. unfold find_key. tr. change (find ?f ?l) with (fnd k_uid h l). rewrite fnd_app. change (fnd k_uid h (p_keys p)) with (find_key h p). cbn [y k_uid].
      destruct (N.eq_dec h (p_next p)) as [->|X].
      * rewrite F2, N.eqb_refl. reflexivity.
      * replace (p_next p =? h) with false by lia. rewrite <- C3. destruct (find_key h p); auto.
    + intros h. rewrite C4. destruct (N.eq_dec h (p_next p)); lia.
    + apply uniq_app; [exact C6|exact F2].
  - intros h x H. destruct (D h x H) as [X Y]. split; auto. intros d Hd. destruct (Y d Hd) as [Z W]. tr. ud. destruct (N.eq_dec d (p_next p)); [congruence|auto].
  - intros h k. unfold find_key. tr. change (find ?f ?l) with (fnd k_uid h l). rewrite fnd_app. change (fnd k_uid h (p_keys p)) with (find_key h p).
    destruct (find_key h p) as [j|] eqn:X; [intros Y; injection Y as <-; exact (E _ _ X)|]. cbn [y k_uid]. dif; [|discriminate]. intros Y; injection Y as <-.
    unfold okK, y. tr. splits; auto; try discriminate; try congruence.
    intros cn. now rewrite certsOf_mem, (r_certs _ _ A).
  - intros h H. destruct (F h H) as [X Y]. split; auto. tr. ud. destruct (N.eq_dec h (p_next p)); auto.
Qed.
(* adding or replacing a key *)
Lemma filter_twice : forall A (f : A -> bool) l, filter f (filter f l) = filter f l.
Proof. intros. apply filter_id. intros x H. now apply filter_In in H. Qed.
Lemma new_key_cut : forall u kn bits b x p, has kn (b_keys b) = true -> new_key u kn bits (wBe b (put_id x p)) = new_key u kn bits (wBe b (put_id x (cut u kn p))).
Proof. intros u kn bits b x p H. unfold new_key, cut. tr. rewrite H. cbn [negb]. now rewrite filter_twice. Qed.
Lemma check_ok : forall x kn p, identity_of_key kn = Some (i_name x) -> kc_check x kn p = (p, Ok tt).
Proof. intros x kn p H. unfold kc_check. rewrite extract_identity, H, names_eqb_refl. reflexivity. Qed.
Lemma check_bad : forall x kn p, isopt (identity_of_key kn) (i_name x) = false -> kc_check x kn p = (p, Err EInvalidArg).
Proof.
  intros x kn p H. unfold kc_check. rewrite extract_identity. destruct (identity_of_key kn) as [i|]; auto. cbn in H. rewrite is_names in H. apply names_eqb_neq in H.
  rewrite (proj2 (names_eqb_neq (i_name x) i)) by congruence. reflexivity.
Qed.
Lemma ccheck_ok : forall k cn p, key_of_cert cn = Some (k_name k) -> cc_check k cn p = (p, Ok tt).
Proof. intros x kn p H. unfold cc_check. rewrite extract_key, H, names_eqb_refl. reflexivity. Qed.
Lemma ccheck_bad : forall k cn p, isopt (key_of_cert cn) (k_name k) = false -> cc_check k cn p = (p, Err EInvalidArg).
Proof.
  intros x kn p H. unfold cc_check. rewrite extract_key. destruct (key_of_cert kn) as [i|]; auto. cbn in H. rewrite is_names in H. apply names_eqb_neq in H.
  rewrite (proj2 (names_eqb_neq (k_name x) i)) by congruence. reflexivity.
Qed.
Lemma L_kcadd : forall p t x kn bits, inv p t -> find_id (i_uid x) p = Some x -> identity_of_key kn = Some (i_name x) ->
  let t1 := t_addKey (i_name x) kn bits t in
  exists p' h, kc_add x bits kn p = (p', Ok h) /\ handle_for (t_hkey t1) (t_used t1) kn h /\ inv p' (noted t1 (RKey kn) (Ok (AKey h))).
Proof.
  intros p t x kn bits I Fx Hk t1. unfold kc_add, andthen. rewrite (check_ok _ _ _ Hk). unfold modbe.
  change (p_be (put_id ?y p)) with (p_be p).
  pose proof (find_hid _ _ _ _ I Fx) as Hx. pose proof (L_cut _ _ _ _ _ I Hx Hk) as I1.
  assert (NH : forall h, t_hkey (drop_handles kn t) h <> Some kn).
  { intros h. tr. ud. destruct (isopt (t_hkey t h) kn) eqn:E; cbn; [discriminate|]. now apply isopt_neq. }
  pose proof (L_ensure (cut (i_uid x) kn p) _ x kn bits I1 NH Fx Hk) as I2.
  rewrite new_key_cut. 2: { unfold be_addKey. tr. rewrite has_isome, nget_nset. destruct (nm_dec kn kn); [reflexivity|congruence]. }
  change (p_be (cut (i_uid x) kn p)) with (p_be p) in I2.
  destruct (L_newkey _ _ (i_uid x) (i_name x) kn bits I2) as (p' & A & B & _); auto.
  { tr. ud. destruct (nm_dec kn kn); congruence. }
  eexists p', _. split; [exact A|]. split; [|exact B]. right. split; [|exact NH]. now destruct (fresh_none _ _ I2) as (_ & _ & G).
Qed.
Lemma L_kcget : forall p t x kn, inv p t -> find_id (i_uid x) p = Some x -> identity_of_key kn = Some (i_name x) -> t_key t kn <> None ->
  exists p' h, kc_get x kn p = (p', Ok h) /\ handle_for (t_hkey t) (t_used t) kn h /\ inv p' (noted t (RKey kn) (Ok (AKey h))) /\ p_be p' = p_be p /\ p_ids p' = p_ids p.
Proof.
  intros p t x kn I Fx Hk Hb. unfold kc_get, andthen. rewrite (check_ok _ _ _ Hk). pose proof (find_hid _ _ _ _ I Fx) as Hx.
  destruct (key_named (i_uid x) kn p) as [k|] eqn:E.
  - destruct (key_named_some _ _ _ _ _ I E) as (A & B & C). exists p, (k_uid k). splits; auto. now left. now apply reuse_key.
  - pose proof (key_named_none _ _ _ _ _ I Hx Hk E) as NH. unfold asks, be_getKeyBits. rewrite (r_keys _ _ (v_b _ _ I)). destruct (t_key t kn) as [bits|] eqn:G; [|congruence].
    destruct (L_newkey _ _ _ _ _ _ I Hx Hk G NH) as (p' & A & B & C & D & _). exists p', (p_next p). splits; auto. right. split; auto. now destruct (fresh_none _ _ I) as (_ & _ & F).
Qed.
Lemma L_kcget_none : forall p t x kn, inv p t -> find_id (i_uid x) p = Some x -> identity_of_key kn = Some (i_name x) -> t_key t kn = None -> kc_get x kn p = (p, Err ERuntime).
Proof.
  intros p t x kn I Fx Hk Hb. unfold kc_get, andthen. rewrite (check_ok _ _ _ Hk).
  destruct (key_named (i_uid x) kn p) as [k|] eqn:E.
  - destruct (key_named_some _ _ _ _ _ I E) as (A & B & C). elim (w_hkey _ (v_t _ _ I) _ _ C Hb).
  - unfold asks, be_getKeyBits. now rewrite (r_keys _ _ (v_b _ _ I)), Hb.
Qed.
(* the default key *)
Lemma L_setDefK : forall p t x kn d, inv p t -> find_id (i_uid x) p = Some x -> t_hkey t d = Some kn -> identity_of_key kn = Some (i_name x) ->
  exists p', id_setDef (i_uid x) d p = (p', Ok d) /\ inv p' (t_setDefK (i_name x) kn t).
Proof.
  intros p t x kn d I Fx Hd Hk. unfold id_setDef, with_id. rewrite Fx. unfold andthen, assert_. rewrite (keys_ok _ _ _ _ I Fx).
  destruct (hkey_find _ _ _ _ I Hd) as (k & K1 & K2 & K3). rewrite K1. unfold trybe. change (p_be (put_id ?y p)) with (p_be p).
  unfold be_setDefKey. rewrite has_isome, (r_keys _ _ (v_b _ _ I)), K2. pose proof (w_hkey _ (v_t _ _ I) _ _ Hd) as Kb. destruct (t_key t kn) as [bits|] eqn:KB; [|congruence]. cbn [isome].
  eexists; split; [reflexivity|]. set (y := mkId _ _ _ _). pose proof (find_hid _ _ _ _ I Fx) as Hx.
  pose proof I as I0. destruct I as [A B C D E F]. constructor.
  - destruct A as [A1 A2 A3 A4 A5 A6]. constructor; tr; ud; auto. intros n. rewrite nget_nset, A4. reflexivity.
  - destruct B as [B1 B2 B3 B4 B5 B6 B7 B8 B9 B10 B11]. constructor; tr; ud; eauto.
    intros i n. destruct (nm_dec i (i_name x)) as [->|]; [|eauto]. intros H; injection H as <-. split; congruence.
  - destruct C as [C1 C2 C3 C4 C5 C6]. constructor; tr; ud; auto.
    + intros h. change (find_id h (wBe _ ?q)) with (find_id h q). rewrite find_put_id. cbn [y i_uid]. destruct (h =? i_uid x) eqn:X; auto. apply N.eqb_eq in X. subst h. now rewrite Fx, Hx.
    + now apply (uniq_put i_uid).
  - intros h z. change (find_id h (wBe _ ?q)) with (find_id h q). rewrite find_put_id. cbn [y i_uid]. destruct (h =? i_uid x) eqn:X.
    + destruct (find_id h p) as [w|] eqn:W; [|discriminate]. intros H; injection H as <-. destruct (D _ _ Fx) as [Y Z]. split; unfold y; tr; ud; auto.
      intros d' Hd'. injection Hd' as <-. split; [eapply w_hkeyu; eauto|]. intros k' K'. destruct (nm_dec (i_name x) (i_name x)); congruence.
    + intros H. destruct (D _ _ H) as [Y Z]. assert (NE : i_name z <> i_name x).
      { intros G. pose proof (find_hid _ _ _ _ I0 H) as K. rewrite G in K. pose proof (w_hidi _ B _ _ _ K Hx). lia. }
      split; tr; ud; auto. intros d' Hd'. destruct (Z d' Hd') as [Z1 Z2]. split; auto. intros k' K'. destruct (nm_dec (i_name z) (i_name x)); [congruence|auto].
  - exact E.
  - exact F.
Qed.
Lemma cache_defK : forall p t x kn d, inv p t -> find_id (i_uid x) p = Some x -> t_hkey t d = Some kn -> t_defK t (i_name x) = Some kn ->
  inv (put_id (mkId (i_uid x) (i_name x) (i_knames x) (Some d)) p) t.
Proof.
  intros p t x kn d I Fx Hd Hk. set (y := mkId _ _ _ _). pose proof (find_hid _ _ _ _ I Fx) as Hx. destruct I as [A B C D E F]. constructor; auto.
  - destruct C as [C1 C2 C3 C4 C5 C6]. constructor; auto.
    + intros h. rewrite find_put_id. cbn [y i_uid]. destruct (h =? i_uid x) eqn:X; auto. apply N.eqb_eq in X. subst h. now rewrite Fx, Hx.
    + now apply (uniq_put i_uid).
  - intros h z. rewrite find_put_id. cbn [y i_uid]. destruct (h =? i_uid x) eqn:X; [|apply D].
    destruct (find_id h p) as [w|] eqn:W; [|discriminate]. intros H; injection H as <-. destruct (D _ _ Fx) as [Y Z]. split; unfold y; tr; auto.
    intros d' Hd'. injection Hd' as <-. split; [eapply w_hkeyu; eauto|congruence].
Qed.
(* removing a key *)
Lemma L_rmKey : forall p t x y kn, inv p t -> (forall h, t_hkey t h <> Some kn) -> find_id (i_uid x) p = Some x -> identity_of_key kn = Some (i_name x) ->
  t_defK t (i_name x) = None \/ t_defK t (i_name x) = Some kn ->
  i_uid y = i_uid x -> i_name y = i_name x -> (forall z, nmem z (i_knames y) = if nm_dec z kn then false else nmem z (i_knames x)) -> i_def y = i_def x \/ i_def y = None ->
  inv (wBe (be_removeKey kn (p_be p)) (put_id y p)) (t_removeKey (i_name x) kn t).
Proof.
  intros p t x y kn I NH Fx Hk Hd Yu Yn Yk Yd. pose proof (find_hid _ _ _ _ I Fx) as Hx.
  destruct (rmKey_look (p_be p) kn _ (RB_WK _ _ (v_b _ _ I) (v_t _ _ I)) Hk) as (L1 & L2 & L3 & L4 & L5 & L6).
  assert (DK : keep (negb (isopt (t_defK t (i_name x)) kn)) (t_defK t (i_name x)) = None).
  { destruct Hd as [-> | ->]; cbn; auto. unfold is. destruct (nm_dec kn kn); [reflexivity|congruence]. }
  pose proof I as I0. destruct I as [A B C D E F]. constructor.
  - destruct A as [A1 A2 A3 A4 A5 A6]. constructor; tr; fold (keep (negb (isopt (t_defK t (i_name x)) kn)) (t_defK t (i_name x))); rewrite ?DK; ud; intros.
    + rewrite L1. auto.
    + rewrite L2. auto.
    + rewrite L3, A3. reflexivity.
    + rewrite L4, A4. reflexivity.
    + rewrite L5, A5. destruct (isopt (key_of_cert n) kn); reflexivity.
    + rewrite L6, A6. reflexivity.
  - destruct B as [B1 B2 B3 B4 B5 B6 B7 B8 B9 B10 B11]. constructor; tr; rewrite ?DK; ud; eauto.
    + intros k. destruct (nm_dec k kn); [congruence|auto].
    + intros i k. destruct (nm_dec i (i_name x)) as [->|]; [discriminate|]. intros H. destruct (B3 _ _ H) as [X Y]. split; auto. destruct (nm_dec k kn); congruence.
    + intros cn c. destruct (isopt (key_of_cert cn) kn) eqn:X; cbn; [discriminate|]. intros H. destruct (B4 _ _ H) as [Y [k [Z W]]]. split; auto. exists k. split; auto.
      apply isopt_neq in X. destruct (nm_dec k kn); congruence.
    + intros k cn. destruct (nm_dec k kn); [discriminate|]. intros H. destruct (B5 _ _ H) as [X Y]. split; auto. rewrite Y. cbn. unfold is. destruct (nm_dec k kn); cbn; congruence.
    + intros h n. dif; [|discriminate]. intros H. destruct (nm_dec n kn); [exfalso; apply (NH h); congruence|eauto].
    + intros h n. dif; [eauto|discriminate].
    + intros h h' n. dif; [|discriminate]. dif; [eauto|discriminate].
  - destruct C as [C1 C2 C3 C4 C5 C6]. constructor; tr; ud; auto.
    + intros h. change (find_id h (wBe _ ?q)) with (find_id h q). rewrite find_put_id, Yu. destruct (h =? i_uid x) eqn:X; auto. apply N.eqb_eq in X. subst h. rewrite Fx, Hx. cbn. congruence.
    + intros h. change (find_key h (wBe _ (put_id y p))) with (find_key h p). rewrite C3. destruct (isopt (t_hkey t h) kn) eqn:X; auto. apply isopt_eq in X. elim (NH _ X).
    + now apply (uniq_put i_uid).
  - intros h z. change (find_id h (wBe _ ?q)) with (find_id h q). rewrite find_put_id, Yu. destruct (h =? i_uid x) eqn:X.
    + destruct (find_id h p) as [w|] eqn:W; [|discriminate]. intros H; injection H as <-. destruct (D _ _ Fx) as [Y Z]. split; tr; rewrite ?DK; ud; rewrite ?Yn.
      * intros k. rewrite Yk, Y. destruct (nm_dec k kn); auto.
      * intros d Hd'. assert (K : i_def x = Some d) by (destruct Yd; congruence). destruct (Z d K) as [Z1 Z2]. split; auto. intros k. dif; [|discriminate]. intros G.
        pose proof (Z2 k G). exfalso. apply (NH d). destruct Hd; congruence.
    + intros H. destruct (D _ _ H) as [Y Z]. assert (NE : i_name z <> i_name x).
      { intros G. pose proof (find_hid _ _ _ _ I0 H) as K. rewrite G in K. pose proof (w_hidi _ B _ _ _ K Hx). lia. }
      split; tr; rewrite ?DK; ud.
      * intros k. rewrite Y. destruct (nm_dec k kn) as [->|]; auto. rewrite Hk. cbn. unfold is. destruct (nm_dec (i_name x) (i_name z)); [congruence|now rewrite !andb_false_r].
      * intros d' Hd'. destruct (Z d' Hd') as [Z1 Z2]. split; auto. intros k' K'. destruct (nm_dec (i_name z) (i_name x)); [congruence|]. revert K'. dif; [auto|discriminate].
  - intros h k H. change (find_key h p = Some k) in H. pose proof (find_hkey _ _ _ _ I0 H) as K. destruct (E _ _ H) as (X1 & X2 & X3 & X4 & X5 & X6).
    assert (NE : k_name k <> kn) by (intros G; apply (NH h); congruence). unfold okK. tr. ud. splits; auto.
    + destruct (nm_dec (k_name k) kn); congruence.
    + intros cn. rewrite X4. destruct (isopt (key_of_cert cn) kn) eqn:W; cbn; auto. apply isopt_eq in W. rewrite W. cbn. unfold is. destruct (nm_dec kn (k_name k)); [congruence|now rewrite andb_false_r].
    + intros cn c G. destruct (X5 _ _ G) as [W1 W2]. split; auto. rewrite W2. cbn. unfold is. destruct (nm_dec (k_name k) kn); cbn; congruence.
    + intros c G. destruct (X6 _ G) as [W1 W2]. destruct (w_defC _ B _ _ W1) as [_ W3]. rewrite W3. cbn. unfold is. destruct (nm_dec (k_name k) kn); cbn; [congruence|auto].
  - intros h H. destruct (F h H) as [X Y]. split; auto.
Qed.

(* ---- certificates ---- *)
(* replacing the object of a key by one that agrees with the tree *)
Lemma RH_put_key : forall p t t' k y, RH p t -> find_key (k_uid k) p = Some k -> k_uid y = k_uid k -> k_name y = k_name k ->
  (forall n, t_id t' n = t_id t n) -> (forall n, t_hid t' n = t_hid t n) -> (forall n, t_hkey t' n = t_hkey t n) -> (forall n, t_used t' n = t_used t n) ->
  forall b, RH (wBe b (put_key y p)) t'.
Proof.
  intros p t t' k y [C1 C2 C3 C4 C5 C6] Fk Yu Yn E1 E2 E3 E4 b. constructor.
  - intros n. rewrite E1. apply C1.
  - intros h. rewrite E2. apply C2.
  - intros h. rewrite E3, <- C3. change (find_key h (wBe _ ?q)) with (find_key h q). rewrite find_put_key, Yu. destruct (h =? k_uid k) eqn:X; auto. apply N.eqb_eq in X. subst h. rewrite Fk. cbn. congruence.
  - intros h. rewrite E4. apply C4.
  - exact C5.
  - now apply (uniq_put k_uid).
Qed.
Lemma find_put_cases : forall p k y b h z, find_key (k_uid k) p = Some k -> k_uid y = k_uid k -> find_key h (wBe b (put_key y p)) = Some z ->
  (h = k_uid k /\ z = y) \/ (h <> k_uid k /\ find_key h p = Some z).
Proof.
  intros p k y b h z Fk Yu. change (find_key h (wBe b (put_key y p))) with (find_key h (put_key y p)). rewrite find_put_key, Yu. destruct (h =? k_uid k) eqn:X.
  - apply N.eqb_eq in X. subst. rewrite Fk. intros H; injection H as <-. auto.
  - intros H. right. split; [lia|auto].
Qed.
Lemma other_name : forall p t k h z, inv p t -> find_key (k_uid k) p = Some k -> find_key h p = Some z -> h <> k_uid k -> k_name z <> k_name k.
Proof.
  intros p t k h z I Fk Fz N G. pose proof (find_hkey _ _ _ _ I Fk) as A. pose proof (find_hkey _ _ _ _ I Fz) as B. rewrite G in B. apply N. eapply w_hkeyi; eauto. apply I.
Qed.
Definition withC (k : kimpl) (ns : list nm) (cs : list (nm * pcert)) (d : option pcert) : kimpl := mkK (k_uid k) (k_owner k) (k_name k) (k_bits k) ns cs d.

Lemma L_addCert : forall p t k c i d, inv p t -> find_key (k_uid k) p = Some k -> key_of_cert (pc_name c) = Some (k_name k) -> identity_of_key (k_name k) = Some i -> k_bits k = pc_bits c ->
  d = None \/ (d = k_def k /\ forall c', t_defC t (k_name k) = Some (pc_name c) -> t_cert t (pc_name c) = Some c' -> c' = c) ->
  inv (wBe (be_addCert c (p_be p)) (put_key (withC k (nadd (pc_name c) (k_cnames k)) (nset (pc_name c) c (k_certs k)) d) p)) (t_addCert i (k_name k) c t).
Proof.
  intros p t k c i d I Fk Hc Hi Hb Hd. set (y := withC _ _ _ _).
  assert (PK : pc_key c = k_name k) by (apply cert_drop; auto).
  assert (PI : pc_identity c = i) by (pose proof (cert_identity _ _ Hc) as X; unfold pc_identity; congruence).
  pose proof I as I0. destruct I as [A B C D E F]. destruct (E _ _ Fk) as (X1 & X2 & X3 & X4 & X5 & X6).
  assert (Ii : t_id t i = true) by (destruct (w_key _ B (k_name k)) as [j [J1 J2]]; congruence).
  constructor.
  - destruct A as [A1 A2 A3 A4 A5 A6]. unfold be_addCert. rewrite PK, PI. constructor; tr; ud.
    + intros n. rewrite nmem_nadd, A1. reflexivity.
    + rewrite A2. destruct (t_def t); reflexivity.
    + intros n. rewrite nget_nset, A3. destruct (nm_dec n (k_name k)) as [->|]; congruence.
    + intros n. rewrite has_isome, A4. unfold isome. destruct (t_defK t i) as [e|] eqn:X.
      * rewrite A4. destruct (nm_dec n i) as [->|]; auto.
      * rewrite nget_nset, A4. reflexivity.
    + intros n. rewrite nget_nset, A5. reflexivity.
    + intros n. rewrite has_isome, A6. unfold isome. destruct (t_defC t (k_name k)) as [e|] eqn:X.
      * rewrite A6. destruct (nm_dec n (k_name k)) as [->|]; auto.
      * rewrite nget_nset, A6. reflexivity.
  - destruct B as [B1 B2 B3 B4 B5 B6 B7 B8 B9 B10 B11]. constructor; tr; ud; eauto.
    + intros e. destruct (nm_dec e i); auto. destruct (t_def t) eqn:G; auto. congruence.
    + intros kn H. destruct (B2 _ H) as [j [Y Z]]. exists j. split; auto. destruct (nm_dec j i); auto.
    + intros j kn. destruct (nm_dec j i) as [->|]; [|eauto]. destruct (t_defK t i) as [e|] eqn:G; [rewrite <- G; eauto|]. intros H; injection H as <-. split; [congruence|auto].
    + intros cn e. destruct (nm_dec cn (pc_name c)) as [->|]; [|eauto]. intros H; injection H as <-. split; auto. exists (k_name k). split; [auto|congruence].
    + intros kn cn. assert (GG : t_defC t kn = Some cn -> (if nm_dec cn (pc_name c) then Some c else t_cert t cn) <> None /\ key_of_cert cn = Some kn).
      { intros G. destruct (B5 _ _ G). split; auto. destruct (nm_dec cn (pc_name c)); [discriminate|auto]. }
      destruct (nm_dec kn (k_name k)) as [->|]; [|auto]. destruct (t_defC t (k_name k)) as [e|] eqn:G; [auto|]. intros H; injection H as <-.
      split; auto. destruct (nm_dec (pc_name c) (pc_name c)); congruence.
    + intros h n H. destruct (nm_dec n i); eauto.
  - apply RH_put_key with t k; auto. intros n. tr. ud. destruct (nm_dec n i) as [->|]; auto.
  - intros h x H. destruct (D h x H) as [Y Z]. split; auto. intros e He. destruct (Z e He) as [Z1 Z2]. split; auto. tr. ud. intros kn K. rewrite (Z2 kn K). destruct (nm_dec (i_name x) i) as [G|]; auto.
    rewrite <- G, (Z2 kn K). reflexivity.
  - intros h z H. apply (find_put_cases p k y) in H; auto. destruct H as [[-> ->]|[N H]].
    + unfold okK, y, withC. tr. ud. splits; auto.
      * intros cn. rewrite nmem_nadd, X4. destruct (nm_dec cn (pc_name c)) as [->|]; auto. rewrite Hc. cbn. unfold is. destruct (nm_dec (k_name k) (k_name k)); congruence.
      * intros cn e. rewrite nget_nset. destruct (nm_dec cn (pc_name c)) as [->|]; [|apply X5]. intros G; injection G as <-. auto.
      * intros e He. destruct Hd as [->|[-> Hd]]; [discriminate|]. destruct (X6 _ He) as [W1 W2]. rewrite W1.
        destruct (nm_dec (k_name k) (k_name k)); [|congruence]. split; auto. destruct (nm_dec (pc_name e) (pc_name c)) as [G|]; auto.
        rewrite G in *. now rewrite (Hd _ W1 W2).
    + pose proof (other_name _ _ _ _ _ I0 Fk H N) as NE. destruct (E _ _ H) as (Y1 & Y2 & Y3 & Y4 & Y5 & Y6). unfold okK. tr. ud. splits; auto.
      * intros cn. rewrite Y4. destruct (nm_dec cn (pc_name c)) as [->|]; auto. rewrite Hc. cbn. unfold is. destruct (nm_dec (k_name k) (k_name z)); [congruence|now rewrite !andb_false_r].
      * intros cn e G. destruct (Y5 _ _ G) as [W1 W2]. split; auto. destruct (nm_dec cn (pc_name c)) as [->|]; congruence.
      * intros e G. destruct (Y6 _ G) as [W1 W2]. destruct (nm_dec (k_name z) (k_name k)); [congruence|]. split; auto. destruct (w_defC _ B _ _ W1) as [_ W3].
        destruct (nm_dec (pc_name e) (pc_name c)) as [Q|]; auto. rewrite Q in *. congruence.
  - intros h H. destruct (F h H) as [X Y]. split; auto. tr. ud. intros n K. now rewrite (Y n K).
Qed.
Lemma L_setDefC : forall p t k c, inv p t -> find_key (k_uid k) p = Some k -> t_cert t (pc_name c) = Some c -> key_of_cert (pc_name c) = Some (k_name k) ->
  forall b, be_setDefCert (k_name k) (pc_name c) (p_be p) = Ok b -> inv (wBe b (put_key (withC k (k_cnames k) (k_certs k) (Some c)) p)) (t_setDefC (k_name k) (pc_name c) t).
Proof.
  intros p t k c I Fk Hc Hk b Hb. set (y := withC _ _ _ _). pose proof I as I0. destruct I as [A B C D E F]. destruct (E _ _ Fk) as (X1 & X2 & X3 & X4 & X5 & X6).
  unfold be_setDefCert in Hb. destruct (has (pc_name c) (b_certs (p_be p))); [|discriminate]. injection Hb as <-. constructor.
  - destruct A as [A1 A2 A3 A4 A5 A6]. constructor; tr; ud; auto. intros n. rewrite nget_nset, A6. reflexivity.
  - destruct B as [B1 B2 B3 B4 B5 B6 B7 B8 B9 B10 B11]. constructor; tr; ud; eauto.
    intros kn cn. destruct (nm_dec kn (k_name k)) as [->|]; [|eauto]. intros H; injection H as <-. split; congruence.
  - apply RH_put_key with t k; auto.
  - exact D.
  - intros h z H. apply (find_put_cases p k y) in H; auto. destruct H as [[-> ->]|[N H]].
    + unfold okK, y, withC. tr. ud. splits; auto. intros e He. injection He as <-. destruct (nm_dec (k_name k) (k_name k)); [auto|congruence].
    + pose proof (other_name _ _ _ _ _ I0 Fk H N) as NE. destruct (E _ _ H) as (Y1 & Y2 & Y3 & Y4 & Y5 & Y6). unfold okK. tr. ud. splits; auto.
      intros e G. destruct (nm_dec (k_name z) (k_name k)); [congruence|auto].
  - exact F.
Qed.
(* filling a cache *)
Lemma L_cacheC : forall p t k cs d, inv p t -> find_key (k_uid k) p = Some k ->
  (forall cn c, nget cn cs = Some c -> t_cert t cn = Some c /\ key_of_cert cn = Some (k_name k)) ->
  (forall c, d = Some c -> t_defC t (k_name k) = Some (pc_name c) /\ t_cert t (pc_name c) = Some c) ->
  inv (put_key (withC k (k_cnames k) cs d) p) t.
Proof.
  intros p t k cs d I Fk Hc Hd. set (y := withC _ _ _ _). replace (put_key y p) with (wBe (p_be p) (put_key y p)) by (destruct p; reflexivity). destruct I as [A B C D E F].
  destruct (E _ _ Fk) as (X1 & X2 & X3 & X4 & X5 & X6). constructor; auto.
  - apply RH_put_key with t k; auto.
  - intros h z H. apply (find_put_cases p k y) in H; auto. destruct H as [[-> ->]|[N H]]; [|eauto]. unfold okK, y, withC. tr. splits; auto.
Qed.
Lemma L_rmCert : forall p t k y cn, inv p t -> find_key (k_uid k) p = Some k -> key_of_cert cn = Some (k_name k) ->
  k_uid y = k_uid k -> k_owner y = k_owner k -> k_name y = k_name k -> k_bits y = k_bits k ->
  (forall z, nmem z (k_cnames y) = if nm_dec z cn then false else nmem z (k_cnames k)) -> (forall z, nget z (k_certs y) = if nm_dec z cn then None else nget z (k_certs k)) ->
  (forall c, k_def y = Some c -> k_def k = Some c /\ pc_name c <> cn) ->
  inv (wBe (be_removeCert cn (p_be p)) (put_key y p)) (t_removeCert (k_name k) cn t).
Proof.
  intros p t k y cn I Fk Hc Yu Yo Yn Yb Yc Yx Yd. pose proof I as I0. destruct I as [A B C D E F]. destruct (E _ _ Fk) as (X1 & X2 & X3 & X4 & X5 & X6). constructor.
  - destruct A as [A1 A2 A3 A4 A5 A6]. constructor; unfold be_removeCert; rewrite ?(cert_drop _ _ Hc); tr; ud; auto.
    + intros n. rewrite nget_ndel, A5. reflexivity.
    + intros n. rewrite A6. destruct (t_defC t (k_name k)) as [e|] eqn:G; cbn [isopt].
      * rewrite is_names. destruct (names_eqb e cn); cbn [negb]; [rewrite nget_ndel, A6; reflexivity|]. rewrite A6. destruct (nm_dec n (k_name k)) as [->|]; auto.
      * rewrite A6. destruct (nm_dec n (k_name k)) as [->|]; auto.
  - destruct B as [B1 B2 B3 B4 B5 B6 B7 B8 B9 B10 B11]. constructor; tr; ud; eauto.
    + intros n c. destruct (nm_dec n cn); [discriminate|eauto].
    + intros kn n. destruct (nm_dec kn (k_name k)) as [->|].
      * destruct (isopt (t_defC t (k_name k)) cn) eqn:G; cbn; [discriminate|]. intros H. apply isopt_neq in G. destruct (B5 _ _ H). split; auto. destruct (nm_dec n cn); congruence.
      * intros H. destruct (B5 _ _ H). split; auto. destruct (nm_dec n cn); congruence.
  - apply RH_put_key with t k; auto.
  - exact D.
  - intros h z H. apply (find_put_cases p k y) in H; auto. destruct H as [[-> ->]|[N H]].
    + unfold okK. rewrite Yo, Yn, Yb. tr. ud. splits; auto.
      * intros n. rewrite Yc, X4. destruct (nm_dec n cn); auto.
      * intros n c. rewrite Yx. destruct (nm_dec n cn); [discriminate|auto].
      * intros c G. destruct (Yd _ G) as [G1 G2]. destruct (X6 _ G1) as [W1 W2]. rewrite W1. destruct (nm_dec (k_name k) (k_name k)); [|congruence]. cbn [isopt]. unfold is.
        destruct (nm_dec (pc_name c) cn); [congruence|]. cbn. auto.
    + pose proof (other_name _ _ _ _ _ I0 Fk H N) as NE. destruct (E _ _ H) as (Y1 & Y2 & Y3 & Y4 & Y5 & Y6). unfold okK. tr. ud. splits; auto.
      * intros n. rewrite Y4. destruct (nm_dec n cn) as [->|]; auto. rewrite Hc. cbn. unfold is. destruct (nm_dec (k_name k) (k_name z)); [congruence|now rewrite !andb_false_r].
      * intros n c G. destruct (Y5 _ _ G) as [W1 W2]. split; auto. destruct (nm_dec n cn) as [->|]; congruence.
      * intros e G. destruct (Y6 _ G) as [W1 W2]. destruct (nm_dec (k_name z) (k_name k)); [congruence|]. split; auto. destruct (w_defC _ B _ _ W1) as [_ W3].
        destruct (nm_dec (pc_name e) cn) as [Q|]; auto. rewrite Q in *. congruence.
  - exact F.
Qed.

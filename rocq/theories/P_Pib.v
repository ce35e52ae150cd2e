(* Lemmas about the sets, maps, names and the back end of M_Pib, seen through lookups. *)
From Verif Require Import Base BaseLemmas M_Tlv M_Name S_Name M_Ims P_Ims M_Pib S_Pib.
From Coq Require Import Lia ZifyBool ZifyNat ZifyN String.
Open Scope list_scope.
Open Scope N_scope.

Lemma is_eq : forall a b, is a b = true <-> a = b.
Proof. intros. unfold is. destruct (nm_dec a b); split; intros; congruence. Qed.
Lemma is_names : forall a b, is a b = names_eqb a b.
Proof. intros. unfold is. destruct (nm_dec a b) as [->|n]; [now rewrite names_eqb_refl|now rewrite (proj2 (names_eqb_neq a b) n)]. Qed.
Lemma isopt_eq : forall a b, isopt a b = true <-> a = Some b.
Proof. intros [a|] b; cbn [isopt]; [rewrite is_eq; split; congruence|split; discriminate]. Qed.
Lemma isopt_neq : forall a b, isopt a b = false <-> a <> Some b.
Proof. intros. rewrite <- isopt_eq. destruct (isopt a b); split; congruence. Qed.
Lemma names_dec : forall a b (A : Type) (x y : A), (if names_eqb a b then x else y) = (if nm_dec a b then x else y).
Proof. intros. destruct (nm_dec a b) as [->|n]; [now rewrite names_eqb_refl|now rewrite (proj2 (names_eqb_neq a b) n)]. Qed.

Lemma nmem_In : forall n l, nmem n l = true <-> In n l.
Proof.
  intros. unfold nmem. rewrite existsb_exists. split; [intros [x [A B]]; apply names_eqb_eq in B; now subst|intros; exists n; split; [auto|apply names_eqb_refl]].
Qed.
Lemma bool_iff : forall a b : bool, (a = true <-> b = true) -> a = b.
Proof. intros [] []; intuition congruence. Qed.
Lemma nmem_nadd : forall x n l, nmem x (nadd n l) = if nm_dec x n then true else nmem x l.
Proof.
  intros. apply bool_iff. unfold nadd. destruct (nmem n l) eqn:E; destruct (nm_dec x n) as [->|N]; try tauto; rewrite ?nmem_In, ?in_app_iff; cbn [In]; intuition congruence.
Qed.
Lemma nmem_filter : forall f x l, nmem x (filter f l) = f x && nmem x l.
Proof. intros. apply bool_iff. rewrite andb_true_iff, !nmem_In, filter_In. tauto. Qed.
Lemma nmem_nrem : forall x n l, nmem x (nrem n l) = if nm_dec x n then false else nmem x l.
Proof.
  intros. unfold nrem. rewrite nmem_filter. destruct (nm_dec x n) as [->|N]; [now rewrite names_eqb_refl|].
  rewrite (proj2 (names_eqb_neq n x)) by congruence. reflexivity.
Qed.
Lemma same_set_iff : forall a b, same_set a b = true <-> forall x, nmem x a = nmem x b.
Proof.
  intros. unfold same_set. rewrite andb_true_iff, !forallb_forall. split.
  - intros [A B] x. apply bool_iff. split; intros H; [apply A|apply B]; now apply nmem_In.
  - intros H; split; intros x X; apply nmem_In in X; [rewrite <- H|rewrite H]; auto.
Qed.
Lemma nget_ndel : forall A x n (l : list (nm * A)), nget x (ndel n l) = if nm_dec x n then None else nget x l.
Proof.
  intros. induction l as [|[k v] l IH]; cbn; [destruct (nm_dec x n); auto|]. fold (ndel n l).
  rewrite names_dec. destruct (nm_dec n k) as [->|N].
  - rewrite names_eqb_refl. cbn [negb]. rewrite IH. destruct (nm_dec x k); auto.
  - rewrite (proj2 (names_eqb_neq n k) N). cbn [negb nget]. rewrite names_dec, IH. destruct (nm_dec x k), (nm_dec x n); subst; congruence.
Qed.
Lemma nget_nset : forall A x n v (l : list (nm * A)), nget x (nset n v l) = if nm_dec x n then Some v else nget x l.
Proof. intros. unfold nset. cbn [nget]. rewrite names_dec. destruct (nm_dec x n); auto. rewrite nget_ndel. destruct (nm_dec x n); congruence. Qed.
Lemma has_isome : forall A n (l : list (nm * A)), has n l = isome (nget n l).
Proof. intros. unfold has, isome. reflexivity. Qed.
Lemma nmem_fst : forall A n (l : list (nm * A)), nmem n (map fst l) = isome (nget n l).
Proof.
  intros. induction l as [|[k v] l IH]; cbn; auto. rewrite names_dec. fold (nmem n (map fst l)). rewrite IH. destruct (nm_dec n k) as [->|N]; [now rewrite names_eqb_refl|].
  now rewrite (proj2 (names_eqb_neq n k) N).
Qed.

(* ---- the shape of names ---- *)
Lemma key_eqb_dec : forall a b, key_eqb a b = if key_dec a b then true else false.
Proof.
  intros. destruct (key_dec a b) as [->|N]; [now apply key_eqb_eq|]. destruct (key_eqb a b) eqn:E; auto. apply key_eqb_eq in E. congruence.
Qed.
Lemma drop_rev : forall k n, (k <= List.length n)%nat -> drop_end k n = rev (skipn k (rev n)).
Proof.
  intros. unfold drop_end. pose proof (firstn_rev (List.length n - k) (rev n)) as E. rewrite rev_involutive, rev_length in E. rewrite E. f_equal. f_equal. lia.
Qed.
Lemma extract_identity : forall kn, extractIdentityFromKeyName kn = match identity_of_key kn with Some i => Ok i | None => Err EInvalidArg end.
Proof.
  intros. unfold extractIdentityFromKeyName, isValidKeyName, identity_of_key, from_end. destruct (rev kn) as [|a [|b r]] eqn:E; cbn [nth_error isKEY]; auto.
  rewrite key_eqb_dec. destruct (key_dec b KEYC); auto. rewrite drop_rev, E; auto. rewrite <- rev_length, E. cbn. lia.
Qed.
Lemma extract_key : forall cn, extractKeyNameFromCertName cn = match key_of_cert cn with Some i => Ok i | None => Err EInvalidArg end.
Proof.
  intros. unfold extractKeyNameFromCertName, isValidCertName, key_of_cert, from_end. destruct (rev cn) as [|a [|b [|c [|d r]]]] eqn:E; cbn [nth_error isKEY]; auto.
  rewrite key_eqb_dec. destruct (key_dec d KEYC); auto. rewrite drop_rev, E; auto. rewrite <- rev_length, E. cbn. lia.
Qed.
Lemma of_identity_is : forall i kn, of_identity i kn = isopt (identity_of_key kn) i.
Proof. intros. unfold of_identity. rewrite extract_identity. destruct (identity_of_key kn); cbn; auto. now rewrite is_names. Qed.
Lemma of_key_is : forall i kn, of_key i kn = isopt (key_of_cert kn) i.
Proof. intros. unfold of_key. rewrite extract_key. destruct (key_of_cert kn); cbn; auto. now rewrite is_names. Qed.
Lemma identity_drop : forall kn i, identity_of_key kn = Some i -> drop_end 2 kn = i.
Proof.
  intros kn i H. pose proof (extract_identity kn) as E. rewrite H in E. unfold extractIdentityFromKeyName in E. destruct (isValidKeyName kn); congruence.
Qed.
Lemma cert_drop : forall cn kn, key_of_cert cn = Some kn -> drop_end 2 cn = kn.
Proof.
  intros kn i H. pose proof (extract_key kn) as E. rewrite H in E. unfold extractKeyNameFromCertName in E. destruct (isValidCertName kn); congruence.
Qed.
Lemma cert_identity : forall cn kn, key_of_cert cn = Some kn -> identity_of_key kn = Some (drop_end 4 cn).
Proof.
  intros cn kn. unfold key_of_cert, identity_of_key. destruct (rev cn) as [|a [|b [|c [|d r]]]] eqn:E; try discriminate.
  destruct (key_dec d KEYC) as [->|]; try discriminate. intros H. injection H as <-. rewrite drop_rev by (rewrite <- rev_length, E; cbn; lia). rewrite E.
  change (rev r ++ [KEYC]) with (rev (KEYC :: r)). change (rev (KEYC :: r) ++ [c]) with (rev (c :: KEYC :: r)).
  rewrite rev_involutive. destruct (key_dec KEYC KEYC); [reflexivity|congruence].
Qed.
Lemma keysOf_mem : forall i b x, nmem x (be_keysOf i b) = isome (nget x (b_keys b)) && isopt (identity_of_key x) i.
Proof. intros. unfold be_keysOf. rewrite nmem_filter, nmem_fst, of_identity_is. apply andb_comm. Qed.
Lemma certsOf_mem : forall k b x, nmem x (be_certsOf k b) = isome (nget x (b_certs b)) && isopt (key_of_cert x) k.
Proof. intros. unfold be_certsOf. rewrite nmem_filter, nmem_fst, of_key_is. apply andb_comm. Qed.

(* ---- the back end ---- *)
(* what is stored hangs together *)
Record WK (b : be) : Prop := mkWK {
  wb_defK : forall i kn, nget i (b_defK b) = Some kn -> nget kn (b_keys b) <> None /\ identity_of_key kn = Some i;
  wb_cert : forall cn c, nget cn (b_certs b) = Some c -> pc_name c = cn /\ exists kn, key_of_cert cn = Some kn /\ nget kn (b_keys b) <> None;
  wb_defC : forall kn cn, nget kn (b_defC b) = Some cn -> nget cn (b_certs b) <> None /\ key_of_cert cn = Some kn }.

Lemma fold_rmCert : forall kn L b, (forall x, In x L -> key_of_cert x = Some kn) ->
  (forall y cn, nget y (b_defC b) = Some cn -> key_of_cert cn = Some y) ->
  let b' := fold_left (fun b cn => be_removeCert cn b) L b in
  b_ids b' = b_ids b /\ b_def b' = b_def b /\ b_keys b' = b_keys b /\ b_defK b' = b_defK b /\
  (forall x, nget x (b_certs b') = if nmem x L then None else nget x (b_certs b)) /\
  (forall y, nget y (b_defC b') = match nget y (b_defC b) with Some d => if nmem d L then None else Some d | None => None end).
Proof.
  intros kn L. induction L as [|c L IH]; intros b HL HD; cbn [fold_left]; cbv zeta.
  - splits; auto. intros y. now destruct (nget y (b_defC b)).
  - assert (Kc : key_of_cert c = Some kn) by (apply HL; left; auto).
    assert (DC : forall y, nget y (b_defC (be_removeCert c b)) = match nget y (b_defC b) with Some d => if nm_dec d c then None else Some d | None => None end).
    { intros y. unfold be_removeCert. cbn [b_defC]. rewrite (cert_drop _ _ Kc).
      destruct (nget kn (b_defC b)) as [d|] eqn:E.
      - rewrite names_dec. destruct (nm_dec d c) as [->|N].
        + rewrite nget_ndel. destruct (nm_dec y kn) as [->|N]; [rewrite E; destruct (nm_dec c c); congruence|].
          destruct (nget y (b_defC b)) as [d|] eqn:E2; auto. destruct (nm_dec d c) as [->|]; auto. apply HD in E2. congruence.
        + destruct (nget y (b_defC b)) as [d'|] eqn:E2; auto. destruct (nm_dec d' c) as [->|]; auto. pose proof (HD _ _ E2). assert (y = kn) by congruence. congruence.
      - destruct (nget y (b_defC b)) as [d|] eqn:E2; auto. destruct (nm_dec d c) as [->|]; auto. pose proof (HD _ _ E2). assert (y = kn) by congruence. congruence. }
    destruct (IH (be_removeCert c b)) as (A & B & C & D & E & F).
    { intros; apply HL; right; auto. }
    { intros y cn. rewrite DC. destruct (nget y (b_defC b)) as [d|] eqn:E; try discriminate. destruct (nm_dec d c); try discriminate. intros H; injection H as <-. eauto. }
    splits; auto.
    + intros x. rewrite E. unfold be_removeCert. cbn [b_certs]. rewrite nget_ndel. unfold nmem. cbn [existsb]. fold (nmem x L).
      destruct (nm_dec x c) as [->|N]; [rewrite names_eqb_refl; cbn; destruct (nmem c L); auto|]. now rewrite (proj2 (names_eqb_neq x c) N).
    + intros y. rewrite F, DC. destruct (nget y (b_defC b)) as [d|]; auto. unfold nmem. cbn [existsb]. fold (nmem d L).
      destruct (nm_dec d c) as [->|N]; [rewrite names_eqb_refl; cbn; auto|]. now rewrite (proj2 (names_eqb_neq d c) N).
Qed.
Lemma rmKey_look : forall b kn i, WK b -> identity_of_key kn = Some i ->
  let b' := be_removeKey kn b in
  b_ids b' = b_ids b /\ b_def b' = b_def b /\
  (forall x, nget x (b_keys b') = if nm_dec x kn then None else nget x (b_keys b)) /\
  (forall x, nget x (b_defK b') = if nm_dec x i then None else nget x (b_defK b)) /\
  (forall x, nget x (b_certs b') = if isopt (key_of_cert x) kn then None else nget x (b_certs b)) /\
  (forall x, nget x (b_defC b') = if nm_dec x kn then None else nget x (b_defC b)).
Proof.
  intros b kn i W Hi. unfold be_removeKey. cbv zeta. rewrite (identity_drop _ _ Hi).
  set (b1 := mkBe _ _ _ _ _ _).
  destruct (fold_rmCert kn (be_certsOf kn b1) b1) as (A & B & C & D & E & F).
  { intros x X. apply nmem_In in X. rewrite certsOf_mem in X. apply andb_true_iff in X. now apply isopt_eq. }
  { intros y cn H. now destruct (wb_defC _ W _ _ H). }
  splits; auto.
  - intros x. rewrite C. cbn [b1 b_keys]. now rewrite nget_ndel.
  - intros x. rewrite D. cbn [b1 b_defK]. now rewrite nget_ndel.
  - intros x. rewrite E, certsOf_mem. cbn [b1 b_certs]. destruct (nget x (b_certs b)); cbn; destruct (isopt (key_of_cert x) kn); auto.
  - intros x. rewrite F. cbn [b1 b_defC]. destruct (nget x (b_defC b)) as [d|] eqn:G.
    + destruct (wb_defC _ W _ _ G) as [H1 H2]. rewrite certsOf_mem. cbn [b1 b_certs]. destruct (nget d (b_certs b)); [|congruence]. cbn [isome andb].
      rewrite H2. cbn [isopt]. unfold is. destruct (nm_dec x kn); auto.
    + destruct (nm_dec x kn); auto.
Qed.
Lemma WK_rmKey : forall b kn i, WK b -> identity_of_key kn = Some i -> WK (be_removeKey kn b).
Proof.
  intros b kn i W Hi. destruct (rmKey_look b kn i W Hi) as (A & B & C & D & E & F). constructor.
  - intros j k. rewrite D, C. destruct (nm_dec j i); [discriminate|]. intros H. destruct (wb_defK _ W _ _ H). split; auto.
    destruct (nm_dec k kn); auto. congruence.
  - intros cn c. rewrite E. destruct (isopt (key_of_cert cn) kn) eqn:G; [discriminate|]. intros H. destruct (wb_cert _ W _ _ H) as [H1 [k [H2 H3]]]. split; auto.
    exists k. split; auto. rewrite C. apply isopt_neq in G. destruct (nm_dec k kn); auto. congruence.
  - intros k cn. rewrite F, E. destruct (nm_dec k kn) as [|N]; [discriminate|]. intros H. destruct (wb_defC _ W _ _ H) as [H1 H2]. split; auto.
    rewrite H2. cbn [isopt]. unfold is. destruct (nm_dec k kn); congruence.
Qed.
Lemma fold_rmKey : forall i L b, WK b -> (forall x, In x L -> identity_of_key x = Some i) ->
  let b' := fold_left (fun b kn => be_removeKey kn b) L b in
  b_ids b' = b_ids b /\ b_def b' = b_def b /\
  (forall x, nget x (b_keys b') = if nmem x L then None else nget x (b_keys b)) /\
  (forall x, nget x (b_defK b') = if (match L with [] => false | _ => true end) && is x i then None else nget x (b_defK b)) /\
  (forall x, nget x (b_certs b') = if (match key_of_cert x with Some k => nmem k L | None => false end) then None else nget x (b_certs b)) /\
  (forall x, nget x (b_defC b') = if nmem x L then None else nget x (b_defC b)).
Proof.
  intros i L. induction L as [|c L IH]; intros b W HL; cbn [fold_left]; cbv zeta.
  - splits; auto. intros x. now destruct (key_of_cert x).
  - assert (Kc : identity_of_key c = Some i) by (apply HL; left; auto).
    destruct (rmKey_look b c i W Kc) as (A & B & C & D & E & F).
    destruct (IH (be_removeKey c b)) as (A' & B' & C' & D' & E' & F'); [now apply WK_rmKey with i|intros; apply HL; right; auto|].
    assert (M : forall x, nmem x (c :: L) = if nm_dec x c then true else nmem x L).
    { intros x. unfold nmem. cbn [existsb]. destruct (nm_dec x c) as [->|N]; [now rewrite names_eqb_refl|now rewrite (proj2 (names_eqb_neq x c) N)]. }
    splits; try congruence.
    + intros x. rewrite C', C, M. destruct (nm_dec x c), (nmem x L); auto.
    + intros x. rewrite D', D. cbn [andb]. unfold is. destruct L, (nm_dec x i); auto.
    + intros x. rewrite E', E. destruct (key_of_cert x) as [k|]; cbn [isopt]; auto. rewrite M. unfold is. destruct (nm_dec k c), (nmem k L); auto.
    + intros x. rewrite F', F, M. destruct (nm_dec x c), (nmem x L); auto.
Qed.
Lemma rmId_look : forall b n, WK b ->
  let b' := be_removeIdentity n b in
  (forall x, nmem x (b_ids b') = if nm_dec x n then false else nmem x (b_ids b)) /\
  b_def b' = keep (negb (isopt (b_def b) n)) (b_def b) /\
  (forall x, nget x (b_keys b') = keep (negb (under n x)) (nget x (b_keys b))) /\
  (forall x, nget x (b_defK b') = if nm_dec x n then None else nget x (b_defK b)) /\
  (forall x, nget x (b_certs b') = keep (negb (cert_under n x)) (nget x (b_certs b))) /\
  (forall x, nget x (b_defC b') = keep (negb (under n x)) (nget x (b_defC b))).
Proof.
  intros b n W. unfold be_removeIdentity. cbv zeta. set (b1 := mkBe _ _ _ _ _ _).
  assert (W1 : WK b1) by (destruct W; constructor; auto).
  destruct (fold_rmKey n (be_keysOf n b1) b1 W1) as (A & B & C & D & E & F).
  { intros x X. apply nmem_In in X. rewrite keysOf_mem in X. apply andb_true_iff in X. now apply isopt_eq. }
  splits.
  - intros x. rewrite A. cbn [b1 b_ids]. apply nmem_nrem.
  - rewrite B. cbn [b1 b_def]. destruct (b_def b) as [d|]; cbn [isopt]; auto. rewrite names_dec. unfold is. destruct (nm_dec n d), (nm_dec d n); cbn; congruence.
  - intros x. rewrite C, keysOf_mem. cbn [b1 b_keys]. unfold under. destruct (nget x (b_keys b)); cbn; destruct (isopt (identity_of_key x) n); auto.
  - intros x. rewrite D. cbn [b1 b_defK]. unfold is. destruct (nm_dec x n) as [->|]; rewrite ?andb_false_r; auto. rewrite andb_true_r.
    destruct (be_keysOf n b1) eqn:G; auto. destruct (nget n (b_defK b)) as [d|] eqn:H; auto. destruct (wb_defK _ W _ _ H) as [H1 H2].
    pose proof (keysOf_mem n b1 d) as M. rewrite G in M. cbn [b1 b_keys] in M. rewrite H2 in M. cbn [isopt] in M. unfold is in M.
    destruct (nget d (b_keys b)); [|congruence]. destruct (nm_dec n n); [discriminate|congruence].
  - intros x. rewrite E. cbn [b1 b_certs]. unfold cert_under, under. destruct (key_of_cert x) as [k|] eqn:G; auto. rewrite keysOf_mem. cbn [b1 b_keys].
    destruct (nget x (b_certs b)) as [c|] eqn:H; [|destruct (isome (nget k (b_keys b)) && _); destruct (negb _); reflexivity].
    destruct (wb_cert _ W _ _ H) as [_ [k' [H1 H2]]]. assert (k' = k) by congruence. subst. destruct (nget k (b_keys b)); [|congruence]. cbn.
    destruct (isopt (identity_of_key k) n); auto.
  - intros x. rewrite F, keysOf_mem. cbn [b1 b_defC b_keys]. unfold under. destruct (nget x (b_defC b)) as [d|] eqn:H.
    + destruct (wb_defC _ W _ _ H) as [H1 H2]. destruct (nget d (b_certs b)) as [c|] eqn:H3; [|congruence]. destruct (wb_cert _ W _ _ H3) as [_ [k' [H4 H5]]].
      assert (k' = x) by congruence. subst. destruct (nget x (b_keys b)); [|congruence]. cbn. destruct (isopt (identity_of_key x) n); auto.
    + destruct (_ && _); destruct (negb _); auto.
Qed.

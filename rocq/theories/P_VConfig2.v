From Coq Require Import List Lia ZifyBool ZifyNat ZifyN String.
From Verif Require Import Base BaseLemmas M_Tlv M_Str P_Str M_Name S_Name P_NameUri M_Packet M_Ims S_Ims P_Ims M_Signer M_IntPolicy M_Regex S_Regex P_Regex P_Regex2 P_Regex3 P_Regex4 M_Pib P_IntPolicy M_Validator M_VConfig S_VConfig P_VConfig.
Import ListNotations.
Open Scope list_scope.
Open Scope N_scope.

(* ---- names ---- *)
Lemma keys_len : forall n, nlen (keys n) = nlen n.
Proof. intro n. unfold keys, nlen. now rewrite map_length. Qed.
Lemma keys_app : forall a b, keys (a ++ b) = keys a ++ keys b.
Proof. intros. apply map_app. Qed.
Lemma cn_eqb_iff : forall a b, cn_eqb a b = true <-> keys a = keys b.
Proof. intros. apply names_eqb_eq. Qed.
Lemma cn_prefix_iff : forall a b, cn_prefix a b = true <-> under (keys a) (keys b).
Proof. intros. apply prefixb_iff. Qed.
Lemma rel_iff2 : forall r a b, checkNameRelation r a b = true <-> related r (keys a) (keys b).
Proof.
  intros [] a b; cbn [checkNameRelation related].
  - apply cn_eqb_iff.
  - apply cn_prefix_iff.
  - rewrite andb_true_iff, cn_prefix_iff. split.
    + intros [(c & E) L]. exists c. split; [|exact E]. intros ->. rewrite app_nil_r in E. apply (f_equal nlen) in E. rewrite !keys_len in E. lia.
    + intros (c & Ne & E). split; [exists c; exact E|]. apply (f_equal nlen) in E. unfold nlen in *. rewrite app_length in E. unfold keys in E. rewrite !map_length in E. destruct c; [contradiction|]. cbn in E. lia.
Qed.
Lemma findKey_iff : forall k r i, findKey k r = Ok i <-> exists t c, r = t ++ c :: rev i /\ ckey c = KEY /\ (List.length t < k)%nat /\ ~ In KEY (keys t).
Proof.
  induction k as [|k IH]; intros r i; cbn [findKey].
  - split; [discriminate|]. intros (t & c & _ & _ & L & _). lia.
  - destruct r as [|c r]; [split; [discriminate|]; intros (t & c & E & _); destruct t; discriminate|]. destruct (key_eqb (ckey c) KEYC) eqn:K.
    + apply key_eqb_eq in K. split; [intro H; injection H as <-; exists [], c; rewrite rev_involutive; splits; [reflexivity|exact K|cbn; lia|intros []]|]. intros (t & c' & E & K' & L & Nk). destruct t as [|x t]; [injection E as <- ->; now rewrite rev_involutive|]. injection E as <- ->. exfalso. apply Nk. left. exact K.
    + assert (K2 : ckey c <> KEY) by (intro X; change KEY with KEYC in X; rewrite <- key_eqb_eq in X; congruence). rewrite IH. split.
      * intros (t & c' & -> & K' & L & Nk). exists (c :: t), c'. splits; auto; [cbn; lia|]. intros [X|X]; contradiction.
      * intros (t & c' & E & K' & L & Nk). destruct t as [|x t]; [injection E as -> ->; contradiction|]. injection E as <- ->. exists t, c'. splits; auto; [cbn in L; lia|]. intro X. apply Nk. now right.
Qed.
Lemma reserved_iff : forall kl, cn_eqb kl digestComps || cn_eqb kl hmacComps = true <-> reserved (keys kl).
Proof. intro kl. rewrite orb_true_iff, !cn_eqb_iff. unfold reserved. change (keys digestComps) with (localhost_identity (str "digest-sha256")). change (keys hmacComps) with (localhost_identity (str "hmac")). tauto. Qed.
Lemma reserved_no : forall kl, cn_eqb kl digestComps || cn_eqb kl hmacComps = false <-> ~ reserved (keys kl).
Proof. intro kl. rewrite <- reserved_iff. destruct (_ || _); split; congruence. Qed.
Lemma keys_inv : forall l a b, keys l = a ++ b -> exists x y, l = x ++ y /\ keys x = a /\ keys y = b.
Proof. intros l a b H. apply map_eq_app in H. destruct H as (x & y & -> & <- & <-). eauto. Qed.
Lemma cons_inj : forall {A} (a b : A) l m, a :: l = b :: m -> a = b /\ l = m.
Proof. intros A a b l m H. injection H. auto. Qed.
Lemma extract_sound : forall kl i, extractIdentity kl = Ok i -> identity_of (keys kl) (keys i).
Proof.
  intros kl i H. unfold extractIdentity in H. destruct (_ || _) eqn:R.
  - injection H as <-. left. split; [now apply reserved_iff|reflexivity].
  - right. split; [now apply reserved_no|]. apply findKey_iff in H. destruct H as (t & c & E & K & L & Nk). apply (f_equal (@rev comp)) in E. rewrite rev_involutive, rev_app_distr in E. cbn [rev] in E. rewrite rev_involutive, <- app_assoc in E. exists (keys (rev t)). splits.
    + rewrite E, keys_app. cbn [app keys map]. rewrite K. reflexivity.
    + rewrite keys_len. unfold nlen. rewrite rev_length. lia.
    + unfold keys. rewrite map_rev. intro X. apply in_rev in X. contradiction.
Qed.
Lemma extract_complete : forall kl j, identity_of (keys kl) j -> exists i, extractIdentity kl = Ok i /\ keys i = j.
Proof.
  intros kl j [[R ->]|(R & t & E & L & Nk)]; unfold extractIdentity.
  - apply reserved_iff in R. rewrite R. eauto.
  - apply reserved_no in R. rewrite R. apply keys_inv in E. destruct E as (x & y & -> & Ex & Ey). destruct y as [|c y]; [discriminate|]. cbn [keys map] in Ey. apply cons_inj in Ey. destruct Ey as [K Ey]. exists x. split; [|exact Ex]. apply findKey_iff. exists (rev y), c. splits; auto.
    + rewrite rev_app_distr. cbn [rev]. now rewrite <- app_assoc.
    + rewrite rev_length. apply (f_equal nlen) in Ey. fold (keys y) in Ey. rewrite keys_len in Ey. unfold nlen in *. lia.
    + unfold keys. rewrite map_rev, <- in_rev. fold (keys y). now rewrite <- Ey in Nk.
Qed.
Lemma findKey_err : forall k r e, findKey k r = Err e -> e = ETlv.
Proof. induction k as [|k IH]; intros [|c r] e H; cbn [findKey] in H; try congruence. destruct (key_eqb _ _); [discriminate|eauto]. Qed.
Lemma extract_err : forall kl e, extractIdentity kl = Err e -> e = ETlv /\ forall i, ~ identity_of (keys kl) i.
Proof. intros kl e H. split; [unfold extractIdentity in H; destruct (_ || _); [discriminate|eapply findKey_err; eauto]|]. intros j D. apply extract_complete in D. destruct D as (i & E & _). congruence. Qed.
Lemma identity_unique : forall kl i j, identity_of kl i -> identity_of kl j -> i = j.
Proof.
  intros kl i j [[R ->]|(R & t & E & L & Nk)] [[R' ->]|(R' & t' & E' & L' & Nk')]; try contradiction; auto. rewrite E in E'. clear -E' Nk Nk'. revert j E'. induction i as [|x i IH]; intros [|y j] E; cbn [app] in E; auto.
  - injection E as _ ->. exfalso. apply Nk. apply in_or_app. right. now left.
  - injection E as _ E. subst t'. exfalso. apply Nk'. apply in_or_app. right. now left.
  - injection E as -> E. f_equal. auto.
Qed.
(* ---- the URI KEY ---- *)
Lemma uri_KEY : forall uf c, comp_toUri uf c = str "KEY" -> ckey c = KEY.
Proof.
  intros uf c H. assert (NoEq : ~ In cEqual (comp_toUri uf c)) by (rewrite H; intros [X|[X|[X|[]]]]; discriminate). assert (B : forall p q, ~ In cEqual (p ++ cEqual :: q) -> False) by (intros p q X; apply X; apply in_or_app; right; now left).
  destruct uf; cbn [comp_toUri] in *; [exfalso; eapply B; exact NoEq|]. unfold writeUriAlt in *. destruct (ctype_of_cases (c_type c)) as [(p & E & _)|[(E & T)|[(p & E & _)|(E & _)]]]; rewrite E in *.
  - exfalso; eapply B; exact NoEq.
  - unfold writeUriEscapedValue in H. destruct (allPeriods (c_val c)); [discriminate|]. cbn [app] in H. apply (f_equal unescape) in H. rewrite unescape_escape in H. unfold ckey, KEY. rewrite T, H. reflexivity.
  - destruct (toNumber c); exfalso; eapply B; exact NoEq.
  - exfalso; eapply B; exact NoEq.
Qed.
Lemma KEY_uri : forall c, ckey c = KEY -> comp_toUri ALTERNATE c = str "KEY".
Proof. intros c E. unfold ckey, KEY in E. injection E as E1 E2. cbn [comp_toUri]. unfold writeUriAlt. rewrite E1, E2. reflexivity. Qed.

(* ---- the name that rules are about ---- *)
Lemma two_last : forall (l : list comp), 2 <= nlen l -> exists a c d, l = a ++ [c; d].
Proof. intros l L. destruct l as [|d l _] using rev_ind; [cbn in L; lia|]. destruct l as [|c l _] using rev_ind; [cbn in L; lia|]. exists l, c, d. now rewrite <- app_assoc. Qed.
Lemma subject_iff : forall p n, subject p = Some n <-> about_name p n.
Proof.
  intros p n. split.
  - unfold subject. destruct p as [m si|m si|m]; cbn [pp_name].
    + intro H. injection H as <-. constructor.
    + unfold lastComp. destruct (rev (n_comps m)) as [|c r] eqn:R; [discriminate|]. destruct (N.eqb_spec (c_type c) tParametersSha256DigestComponent) as [T|]; [|discriminate]. intro H. injection H as <-. apply (f_equal (@rev comp)) in R. rewrite rev_involutive in R. cbn [rev] in R. rewrite R, removelast_last. eapply AN_int3; eauto.
    + destruct (N.ltb_spec (nlen (n_comps m)) 2) as [|L]; [discriminate|]. intro H. injection H as <-. destruct (two_last _ L) as (a & c & d & E). rewrite E. change (a ++ [c; d]) with (a ++ [c] ++ [d]). rewrite app_assoc, removelast_last, removelast_last. eapply AN_int2; eauto.
  - intros [m si|m si a c E T|m a c d E]; unfold subject; cbn [pp_name]; [reflexivity| |].
    + unfold lastComp. rewrite E, rev_app_distr. cbn [rev app]. rewrite T. change (2 =? tParametersSha256DigestComponent) with true. now rewrite removelast_last.
    + rewrite E. destruct (N.ltb_spec (nlen (a ++ [c; d])) 2) as [L|_]; [unfold nlen in L; rewrite app_length in L; cbn in L; lia|]. change (a ++ [c; d]) with (a ++ [c] ++ [d]). now rewrite app_assoc, removelast_last, removelast_last.
Qed.
Lemma about_unique : forall p n m, about_name p n -> about_name p m -> n = m.
Proof. intros p n m A B. apply subject_iff in A, B. congruence. Qed.
Lemma get_second : forall n a c d, n_comps n = a ++ [c; d] -> nm_get (-2) n = Ok c.
Proof. intros n a c d E. apply (P_IntPolicy.nm_at_back n a c [d] (-2)%Z E). reflexivity. Qed.
Lemma info_iff : forall p si, pp_sigInfo p = Ok (PGo si) <-> info_of p si.
Proof.
  intros p si. split.
  - destruct p as [m s|m s|m]; cbn [pp_sigInfo getSignatureInfo]; [intro H; injection H as <-; constructor|intro H; injection H as <-; constructor|]. destruct (N.ltb_spec (nlen (n_comps m)) 2) as [|L]; [discriminate|]. destruct (two_last _ L) as (a & c & d & E). rewrite (get_second _ _ _ _ E). cbn [bind]. destruct (blockFromValue _) as [b|[]] eqn:B; try discriminate. destruct (si_decode SiData b) as [s [e|]] eqn:D; [destruct e; discriminate|]. intro H. injection H as ->. eapply IO_int2; eauto.
  - intros [m s|m s|m a c d b s E B D]; [reflexivity|reflexivity|]. cbn [pp_sigInfo getSignatureInfo]. destruct (N.ltb_spec (nlen (n_comps m)) 2) as [L|_]; [rewrite E in L; unfold nlen in L; rewrite app_length in L; cbn in L; lia|]. rewrite (get_second _ _ _ _ E). cbn [bind]. now rewrite B, D.
Qed.
Lemma signed_iff : forall si sig kl, klName si = PGo kl /\ sig = sigValue si <-> signed_as si sig kl.
Proof.
  intros si sig kl. unfold klName, signed_as, sigValue. split.
  - intros [H ->]. split; [reflexivity|]. destruct (match si_type si with Some t => t =? tDigestSha256 | None => false end) eqn:T.
    + left. destruct (si_type si) as [t|]; [|discriminate]. apply N.eqb_eq in T. subst. injection H as <-. auto.
    + right. split; [intro X; rewrite X in T; discriminate|]. destruct (si_key si) as [k|]; [|discriminate]. destruct (kl_loc k) eqn:K; try discriminate. injection H as <-. eauto.
  - intros [-> [[T ->]|(T & k & n & K & L & ->)]]; (split; [|reflexivity]); [rewrite T; reflexivity|]. assert (X : match si_type si with Some t => t =? tDigestSha256 | None => false end = false) by (destruct (si_type si) as [t|]; auto; apply N.eqb_neq; intro Y; apply T; now rewrite Y). now rewrite X, K, L.
Qed.

Section D.
Variable re_count : bytes -> option N.
Variable re_match : bytes -> bytes -> option (list bytes).
Variable uf : uri_format.
Variable stack : nat.
Notation rt_match := (rt_match re_match uf stack).
Notation is_expr := (is_expr re_count).
Notation says_f := (says_f re_count).
Notation says_k := (says_k re_count).
Notation says_c := (says_c re_count).
Notation says_r := (says_r re_count).
Notation matches := (matches re_match uf).
Notation expands := (expands re_count re_match uf).
Notation template := (template re_count).
Hypothesis Std : std_regex re_count re_match uf.

Lemma is_match : forall t e n b t', is_expr t e -> rt_match n t = Ok (b, t') -> is_expr t' e /\ t_expand t' = t_expand t.
Proof. intros t e n b t' I H. apply rt_match_same in H. split; [eapply compiled_same; eauto|apply H]. Qed.
Lemma is_sound : forall t e n t', is_expr t e -> rt_match n t = Ok (true, t') -> matches e n.
Proof. intros t e n t' I H. eapply match_sound; eauto. Qed.
Lemma is_exact : forall t e n, is_expr t e -> solid_expr re_match uf e -> deep_enough stack n -> exists b t', rt_match n t = Ok (b, t') /\ (b = true <-> matches e n).
Proof. intros t e n I So [D1 D2]. apply (match_exact re_count re_match uf stack t (x_caret e) (x_dollar e) (x_pats e) n I So D1 D2). apply Std. Qed.
Notation wd e := (sum (map (width (marks_of re_count)) (x_pats e))).
Lemma says_items : forall n w c items, Forall (fun x => match x with TRef i => i <= w /\ i < two64 | TLit u => balanced cLt cGt u /\ exists m, nm_fromUri u = Ok m end) items -> exists vs, Forall2 (item_says n w c) items vs.
Proof.
  induction 1 as [|x items H _ (vs & F)]; [exists []; constructor|]. destruct x as [i|u].
  - destruct (N.eq_dec i 0) as [->|Ne]; [exists (n :: vs)|exists (c (i - 1) :: vs)]; constructor; auto; cbn; [left; auto|right; splits; auto; lia].
  - destruct H as (B & m & E). exists (n_comps m :: vs). constructor; auto. cbn. eauto.
Qed.
Lemma expand_ok : forall t e n t' items, is_expr t e -> rt_match n t = Ok (true, t') -> template e (t_expand t) items -> exists v, rt_expand [] t' = Ok v /\ expands e n items v.
Proof.
  intros t e n t' items I H (Et & Last & F). destruct (match_captures re_count re_match uf stack t _ _ _ n t' (proj1 (proj1 Std)) I H) as (R & W & u & v & x & E & C1 & C2 & Cap). destruct (says_items n (wd e) (active t') items F) as (vs & Fv). exists (List.concat vs). split.
  - pose proof (proj2 (is_match _ _ _ _ _ I H)) as X. unfold rt_expand. rewrite X, Et. pose proof (expand_items t' n (wd e) (active t') items vs R W (fun j _ => eq_refl) Fv Last) as Y. unfold rt_expand in Y. destruct (List.concat (map item_text items)) eqn:Z; [|exact Y]. exfalso. destruct Last as (l & i & ->). rewrite map_app, concat_app in Z. apply app_eq_nil in Z. destruct Z as [_ Z]. discriminate.
  - exists (active t'), u, v, x, vs. splits; auto.
Qed.
(* hierarchical *)
Lemma hier_template_p : template (mkEx true hier_p true) ref1 [TRef 1].
Proof. unfold S_VConfig.template. splits; [reflexivity|exists [], 1; reflexivity|]. constructor; [|constructor]. cbn [x_pats hier_p hier_k map width sum fold_right]. change two64 with 18446744073709551616. lia. Qed.
Lemma hier_template_k : template (mkEx true hier_k true) ref1 [TRef 1].
Proof. unfold S_VConfig.template. splits; [reflexivity|exists [], 1; reflexivity|]. constructor; [|constructor]. cbn [x_pats hier_p hier_k map width sum fold_right]. change two64 with 18446744073709551616. lia. Qed.
Lemma ref_says : forall n w c v, 1 <= w -> Forall2 (item_says n w c) [TRef 1] v -> v = [c 0].
Proof. intros n w c v W H. inversion H as [|? y ? z A B]; subst. inversion B; subst. cbn in A. destruct A as [[A _]|(_ & _ & ->)]; [discriminate|reflexivity]. Qed.
Lemma expands_hier_p : forall n v, expands (mkEx true hier_p true) n [TRef 1] v -> v = n.
Proof.
  intros n v (c & a & b & z & vs & -> & A & Z & Cap & F & ->). cbn [x_caret x_dollar x_pats] in *. rewrite (A eq_refl), (Z eq_refl) in *. cbn [app]. rewrite app_nil_r. apply ref_says in F; [|cbn; lia]. subst vs. cbn [List.concat]. rewrite app_nil_r. cbn [captured_all hier_p] in Cap. destruct Cap as (u & w & -> & Cap & ->). cbn [captured] in Cap. destruct Cap as [<- _]. now rewrite app_nil_r.
Qed.
Lemma lang_count : forall e mn mx w, lang (acc re_match) uf (PRep (PSet true [e]) mn mx) w <-> mn <= nlen w /\ at_most (nlen w) mx /\ Forall (comp_in (acc re_match) uf e) w.
Proof.
  intros e mn mx w. cbn [lang]. split.
  - intros (ws & -> & F & M1 & M2). assert (X : nlen (List.concat ws) = nlen ws /\ Forall (comp_in (acc re_match) uf e) (List.concat ws)).
    { clear M1 M2. induction F as [|x ws (c & -> & e' & [<-|[]] & Cin) F [IH1 IH2]]; [split; [reflexivity|constructor]|]. cbn [List.concat app]. split; [unfold nlen in *; cbn [List.length]; lia|constructor; auto]. }
    destruct X as [X1 X2]. rewrite X1. auto.
  - intros (M1 & M2 & F). exists (map (fun c => [c]) w). assert (X : nlen (map (fun c => [c]) w) = nlen w) by (unfold nlen; now rewrite map_length). rewrite X. splits; auto.
    + clear. induction w as [|c w IH]; [reflexivity|]. cbn. now rewrite <- IH.
    + clear M1 M2 X. induction F as [|c w H F IH]; constructor; auto. exists c. split; [reflexivity|]. exists e. split; [now left|exact H].
Qed.
Lemma any_in : forall w, Forall (comp_in (acc re_match) uf []) w.
Proof. intro w. apply Forall_forall. intros c _. now left. Qed.
Lemma KEY_in : forall c, comp_in (acc re_match) uf (str "KEY") c -> ckey c = KEY.
Proof. intros c [X|X]; [discriminate|]. apply (uri_KEY uf). assert (L : literal (str "KEY") (str "KEY")) by (repeat (apply L_plain; [intro Y; repeat (destruct Y as [Y|Y]; [discriminate|]); exact Y|]); constructor). now apply (proj1 (proj2 Std) (str "KEY") (str "KEY")) in X. Qed.
Lemma in_KEY : forall c, uf = ALTERNATE -> ckey c = KEY -> comp_in (acc re_match) uf (str "KEY") c.
Proof. intros c -> K. right. assert (L : literal (str "KEY") (str "KEY")) by (repeat (apply L_plain; [intro Y; repeat (destruct Y as [Y|Y]; [discriminate|]); exact Y|]); constructor). apply (proj1 (proj2 Std) (str "KEY") (str "KEY")); [discriminate|exact L|]. now apply KEY_uri. Qed.
Lemma expands_hier_k : forall n v, expands (mkEx true hier_k true) n [TRef 1] v -> key_of (keys n) (keys v).
Proof.
  intros n v (c & a & b & z & vs & -> & A & Z & Cap & F & ->). cbn [x_caret x_dollar x_pats] in *. rewrite (A eq_refl), (Z eq_refl) in *. cbn [app]. rewrite app_nil_r. apply ref_says in F; [|cbn; lia]. subst vs. cbn [List.concat]. rewrite app_nil_r. unfold hier_k in Cap. destruct Cap as (u & w & -> & Cap & u2 & w2 & -> & Cap2 & u3 & w3 & -> & Cap3 & ->). destruct Cap as [<- _].
  assert (L2 : lang (acc re_match) uf (PRep (PSet true [str "KEY"]) 1 (Some 1)) u2) by (destruct Cap2 as (ws & E & F2 & M1 & M2 & _); exists ws; splits; auto). assert (L3 : lang (acc re_match) uf (PRep (PSet true [[]]) 1 (Some 3)) u3) by (destruct Cap3 as (ws & E & F2 & M1 & M2 & _); exists ws; splits; auto).
  apply lang_count in L2, L3. destruct L2 as (M1 & M2 & L2), L3 as (M3 & M4 & _). cbn [at_most] in *. destruct u2 as [|k [|k' u2]]; unfold nlen in M1, M2; cbn [List.length] in M1, M2; try lia. inversion L2 as [|? ? Kk _]; subst. apply KEY_in in Kk. exists (keys u3). rewrite app_nil_r, !keys_app. cbn [keys map app]. rewrite Kk. split; [reflexivity|]. rewrite keys_len. auto.
Qed.
Lemma matches_hier_p : forall n, matches (mkEx true hier_p true) n.
Proof.
  intro n. exists [], n, []. cbn [x_caret x_dollar x_pats app]. rewrite app_nil_r. splits; auto. exists n, []. rewrite app_nil_r. splits; [reflexivity| |reflexivity]. exists n, []. rewrite app_nil_r. splits; [reflexivity| |reflexivity]. apply lang_count. splits; [lia|exact I|apply any_in].
Qed.
Lemma matches_hier_k : forall n i, uf = ALTERNATE -> key_of (keys n) i -> matches (mkEx true hier_k true) n.
Proof.
  intros n i U (t & E & L). apply keys_inv in E. destruct E as (x & y & -> & Ex & Ey). destruct y as [|k y]; [discriminate|]. cbn [keys map] in Ey. apply cons_inj in Ey. destruct Ey as [K Ey]. fold (keys y) in Ey. rewrite <- Ey, keys_len in L. exists [], (x ++ k :: y), []. cbn [x_caret x_dollar x_pats app]. rewrite app_nil_r. splits; auto.
  exists x, (k :: y). splits; [reflexivity| |].
  - exists x, []. rewrite app_nil_r. splits; [reflexivity| |reflexivity]. apply lang_count. splits; [lia|exact I|apply any_in].
  - exists [k], y. splits; [reflexivity| |].
    + apply lang_count. splits; [cbn; lia|cbn; lia|]. constructor; auto. now apply in_KEY.
    + exists y, []. rewrite app_nil_r. splits; [reflexivity| |reflexivity]. apply lang_count. splits; [lia|cbn; lia|apply any_in].
Qed.
Lemma hier_solid_p : solid_expr re_match uf (mkEx true hier_p true).
Proof. unfold solid_expr. cbn [x_pats hier_p]. repeat constructor; cbn; auto; try (intros (c & X & _); discriminate). Qed.
Lemma hier_solid_k : solid_expr re_match uf (mkEx true hier_k true).
Proof. unfold solid_expr. cbn [x_pats hier_k]. repeat constructor; cbn; auto; try (intros (c & X & _); discriminate). Qed.

(* ---- filters and checkers ---- *)
Definition fholds (p : ppkt) (s : sfilter) : Prop := exists n, about_name p n /\ filter_holds re_match uf n s.
Lemma fl_keeps : forall p f s, says_f f s -> says_f (fst (fl_match re_match uf stack p f)) s.
Proof.
  intros p f s H. unfold fl_match. destruct (subject p) as [n|]; [|exact H]. destruct f as [m r|t]; [exact H|]. destruct (M_Regex.rt_match re_match uf stack n t) as [[b t']|e] eqn:R; [|exact H]. destruct s as [|e]; [destruct H|]. cbn [fst]. eapply is_match; eauto.
Qed.
Lemma fl_true : forall p f s, says_f f s -> snd (fl_match re_match uf stack p f) = Ok true -> fholds p s.
Proof.
  intros p f s H. unfold fl_match. destruct (subject p) as [n|] eqn:Sb; [|discriminate]. apply subject_iff in Sb. destruct f as [m r|t]; destruct s as [m' r'|e]; try destruct H.
  - subst. cbn [snd]. intro X. injection X as X. exists n. split; auto. now apply rel_iff2.
  - destruct (M_Regex.rt_match re_match uf stack n t) as [[b t']|] eqn:R; [|discriminate]. cbn [snd]. intro X. injection X as ->. exists n. split; auto. eapply is_sound; eauto. split; eauto.
Qed.
Lemma fl_exact : forall p f s, says_f f s -> solid_filter re_match uf s -> deep_enough stack (pp_name p) -> exists b, snd (fl_match re_match uf stack p f) = Ok b /\ (b = true <-> fholds p s).
Proof.
  intros p f s H So De. unfold fl_match, fholds. destruct (subject p) as [n|] eqn:Sb.
  - assert (Dn : deep_enough stack n) by (apply subject_iff in Sb; destruct Sb as [m si|m si a c E _|m a c d E]; cbn [pp_name] in De; auto; rewrite E in De; unfold deep_enough, nlen in *; rewrite app_length in De; lia). apply subject_iff in Sb.
    destruct f as [m r|t], s as [m' r'|e]; cbn [P_VConfig.says_f] in H; try (exfalso; exact H).
    + destruct H as [<- <-]. exists (checkNameRelation r m n). split; [reflexivity|]. rewrite rel_iff2. split; [intro X; exists n; auto|intros (n' & A & B); now rewrite (about_unique _ _ _ Sb A)].
    + destruct (is_exact t e n H So Dn) as (b & t' & -> & Eb). exists b. split; [reflexivity|]. rewrite Eb. split; [intro X; exists n; auto|intros (n' & A & B); now rewrite (about_unique _ _ _ Sb A)].
  - exists false. split; [reflexivity|]. split; [discriminate|]. intros (n & A & _). apply subject_iff in A. congruence.
Qed.
Lemma ck_keeps_k : forall n kl k s, says_k k s -> says_k (fst (ck_names re_match uf stack n kl k)) s.
Proof.
  intros n kl k s H. destruct k as [|m r|t|tp tk r]; cbn [ck_names]; [exact H|exact H| |].
  - destruct (M_Regex.rt_match re_match uf stack kl t) as [[b t']|] eqn:R; [|exact H]. destruct s as [| |e| |]; try (exfalso; exact H). cbn [fst P_VConfig.says_k] in *. eapply is_match; eauto.
  - destruct (M_Regex.rt_match re_match uf stack n tp) as [[b tp']|] eqn:R; [|exact H]. assert (H1 : says_k (CHyper tp' tk r) s).
    { destruct s as [| | |ep tp0 ek tk0 r'|]; try (exfalso; exact H); cbn [P_VConfig.says_k] in *; destruct H as (A & B & C); destruct (is_match _ _ _ _ _ A R) as [A1 A2]; (split; [exact A1|split; [congruence|exact C]]). }
    destruct b; [|exact H1]. destruct (M_Regex.rt_match re_match uf stack kl tk) as [[b tk']|] eqn:R2; [|exact H1]. assert (H2 : says_k (CHyper tp' tk' r) s).
    { destruct s as [| | |ep tp0 ek tk0 r'|]; try (exfalso; exact H1); cbn [P_VConfig.says_k] in *; destruct H1 as (A & B & C & D & E); destruct (is_match _ _ _ _ _ C R2) as [A1 A2]; splits; auto; congruence. }
    destruct b; exact H2.
Qed.
Lemma ck_true_k : forall n kl k s, says_k k s -> snd (ck_names re_match uf stack n kl k) = Ok true -> permits re_count re_match uf n kl s.
Proof.
  intros n kl k s H. destruct k as [|m r|t|tp tk r]; cbn [ck_names].
  - intros _. destruct s; try (exfalso; exact H). exact I.
  - destruct s as [|m' r'| | |]; try (exfalso; exact H). destruct H as [<- <-]. cbn [snd]. destruct (extractIdentity kl) as [i|] eqn:E; cbn [bind]; [|discriminate]. intro X. injection X as X. exists (keys i). split; [now apply extract_sound|now apply rel_iff2].
  - destruct s as [| |e| |]; try (exfalso; exact H). destruct (M_Regex.rt_match re_match uf stack kl t) as [[b t']|] eqn:R; [|discriminate]. cbn [snd]. intro X. injection X as ->. eapply is_sound; eauto.
  - destruct (M_Regex.rt_match re_match uf stack n tp) as [[[] tp']|] eqn:R; try discriminate. destruct (M_Regex.rt_match re_match uf stack kl tk) as [[[] tk']|] eqn:R2; try discriminate. cbn [snd]. intro X. destruct (rt_expand [] tk') as [ke|] eqn:Ke; cbn [bind] in X; [|discriminate]. destruct (rt_expand [] tp') as [pe|] eqn:Pe; cbn [bind] in X; [|discriminate]. injection X as X. apply rel_iff2 in X.
    destruct s as [| | |ep tp0 ek tk0 r'|]; try (exfalso; exact H); cbn [P_VConfig.says_k] in H.
    + destruct H as (A & <- & C & <- & <-). cbn [permits]. splits; [eapply is_sound; eauto|eapply is_sound; eauto|]. intros ip ik Tp Tk. destruct (expand_ok _ _ _ _ _ A R Tp) as (vp & Ep & Xp), (expand_ok _ _ _ _ _ C R2 Tk) as (vk & Ek & Xk). assert (vp = pe) by congruence. assert (vk = ke) by congruence. subst. eauto.
    + destruct H as (A & B & C & D & ->). pose proof hier_template_p as Tp. pose proof hier_template_k as Tk. rewrite <- B in Tp. rewrite <- D in Tk. destruct (expand_ok _ _ _ _ _ A R Tp) as (vp & Ep & Xp), (expand_ok _ _ _ _ _ C R2 Tk) as (vk & Ek & Xk). assert (vp = pe) by congruence. assert (vk = ke) by congruence. subst. apply expands_hier_p in Xp. apply expands_hier_k in Xk. subst. exists (keys ke). auto.
Qed.
Lemma ck_exact_k : forall n kl k s, says_k k s -> decided re_count re_match uf n kl s -> deep_enough stack n -> deep_enough stack kl -> exists b, snd (ck_names re_match uf stack n kl k) = Ok b /\ (b = true <-> permits re_count re_match uf n kl s).
Proof.
  intros n kl k s H De Dn Dk. destruct k as [|m r|t|tp tk r]; cbn [ck_names].
  - destruct s; try (exfalso; exact H). exists true. split; [reflexivity|]. cbn. tauto.
  - destruct s as [|m' r'| | |]; try (exfalso; exact H). destruct H as [<- <-]. cbn [snd]. destruct De as (j & De). destruct (extract_complete _ _ De) as (i & -> & Ei). cbn [bind]. eexists. split; [reflexivity|]. rewrite rel_iff2. cbn [permits]. rewrite Ei. split; [eauto|]. intros (j' & De' & X). now rewrite (identity_unique _ _ _ De De').
  - destruct s as [| |e| |]; try (exfalso; exact H). destruct (is_exact t e kl H De Dk) as (b & t' & -> & Eb). exists b. auto.
  - destruct s as [| | |ep tp0 ek tk0 r'|]; try (exfalso; exact H); cbn [P_VConfig.says_k] in H.
    + destruct H as (A & <- & C & <- & <-). destruct De as (S1 & S2 & (ip & Tp & Up) & (ik & Tk & Uk)). destruct (is_exact tp ep n A S1 Dn) as (b1 & tp' & R1 & E1). rewrite R1. destruct b1; [|exists false; split; [reflexivity|]; split; [discriminate|]; intros (X & _); apply E1 in X; discriminate]. destruct (is_exact tk ek kl C S2 Dk) as (b2 & tk' & R2 & E2). rewrite R2. destruct b2; [|exists false; split; [reflexivity|]; split; [discriminate|]; intros (_ & X & _); apply E2 in X; discriminate].
      destruct (expand_ok _ _ _ _ _ A R1 Tp) as (vp & Ep & Xp), (expand_ok _ _ _ _ _ C R2 Tk) as (vk & Ek & Xk). cbn [snd]. rewrite Ek, Ep. cbn [bind]. eexists. split; [reflexivity|]. rewrite rel_iff2. split.
      * intro X. pose proof (ck_true_k n kl (CHyper tp tk r) (SCHyper ep (t_expand tp) ek (t_expand tk) r)) as Y. apply Y; [cbn; splits; auto|]. cbn [ck_names]. rewrite R1, R2. cbn [snd]. rewrite Ek, Ep. cbn [bind]. f_equal. now apply rel_iff2.
      * intros (_ & _ & X). destruct (X ip ik Tp Tk) as (vp' & vk' & P1 & P2 & P3). now rewrite (Up _ _ Xp P1), (Uk _ _ Xk P2).
    + destruct H as (A & B & C & D & ->). destruct De as [U Un]. pose proof hier_template_p as Tp. pose proof hier_template_k as Tk. rewrite <- B in Tp. rewrite <- D in Tk. destruct (is_exact tp _ n A hier_solid_p Dn) as (b1 & tp' & R1 & E1). rewrite R1. destruct b1; [|pose proof (proj2 E1 (matches_hier_p n)); discriminate]. destruct (is_exact tk _ kl C hier_solid_k Dk) as (b2 & tk' & R2 & E2). rewrite R2. destruct b2; [|exists false; split; [reflexivity|]; split; [discriminate|]; intros (i & X & _); pose proof (proj2 E2 (matches_hier_k _ _ U X)); discriminate].
      destruct (expand_ok _ _ _ _ _ A R1 Tp) as (vp & Ep & Xp), (expand_ok _ _ _ _ _ C R2 Tk) as (vk & Ek & Xk). cbn [snd]. rewrite Ek, Ep. cbn [bind]. eexists. split; [reflexivity|]. rewrite rel_iff2. apply expands_hier_p in Xp. apply expands_hier_k in Xk. subst vp. cbn [related permits]. split; [eauto|]. intros (i & K & X). now rewrite (Un _ _ Xk K).
Qed.
Definition cholds (p : ppkt) (sig : N) (kl : list comp) (s : N * scheck) : Prop := fst s = sig /\ exists n, about_name p n /\ permits re_count re_match uf n kl (snd s).
Lemma ck_keeps : forall p sig kl c s, says_c c s -> says_c (fst (ck_check re_match uf stack p sig kl c)) s.
Proof. intros p sig kl c s [H1 H2]. unfold ck_check. destruct (negb _); [split; assumption|]. destruct (subject p) as [n|]; [|split; assumption]. cbn [fst]. split; [exact H1|]. cbn [ck_kind]. now apply ck_keeps_k. Qed.
Lemma ck_true : forall p sig kl c s, says_c c s -> snd (ck_check re_match uf stack p sig kl c) = Ok true -> cholds p sig kl s.
Proof.
  intros p sig kl c s [H1 H2]. unfold ck_check. destruct (N.eqb_spec sig (ck_sig c)) as [E|]; cbn [negb]; [|discriminate]. destruct (subject p) as [n|] eqn:Sb; [|discriminate]. apply subject_iff in Sb. cbn [snd]. intro X. split; [congruence|]. exists n. split; auto. eapply ck_true_k; eauto.
Qed.
Lemma about_deep : forall p n, about_name p n -> deep_enough stack (pp_name p) -> deep_enough stack n.
Proof. intros p n Sb De. destruct Sb as [m si|m si a c E _|m a c d E]; cbn [pp_name] in De; auto; rewrite E in De; unfold deep_enough, nlen in *; rewrite app_length in De; lia. Qed.
Lemma ck_exact : forall p sig kl c s, says_c c s -> (forall n, about_name p n -> decided re_count re_match uf n kl (snd s)) -> deep_enough stack (pp_name p) -> deep_enough stack kl -> exists b, snd (ck_check re_match uf stack p sig kl c) = Ok b /\ (b = true <-> cholds p sig kl s).
Proof.
  intros p sig kl c s [H1 H2] De Dp Dk. unfold ck_check, cholds. destruct (N.eqb_spec sig (ck_sig c)) as [E|Ne]; cbn [negb]; [|exists false; split; [reflexivity|]; split; [discriminate|]; intros [X _]; congruence]. destruct (subject p) as [n|] eqn:Sb.
  - apply subject_iff in Sb. destruct (ck_exact_k n kl (ck_kind c) (snd s) H2 (De n Sb) (about_deep _ _ Sb Dp) Dk) as (b & Eb & Ib). exists b. cbn [snd]. split; [exact Eb|]. rewrite Ib. split; [intro X; split; [congruence|exists n; auto]|]. intros [_ (n' & A & X)]. now rewrite (about_unique _ _ _ Sb A).
  - exists false. split; [reflexivity|]. split; [discriminate|]. intros [_ (n & A & _)]. apply subject_iff in A. congruence.
Qed.
(* ---- the first that answers true ---- *)
Lemma ft_keeps : forall {A B} (f : A -> A * res bool) (R : A -> B -> Prop), (forall x s, R x s -> R (fst (f x)) s) -> forall l ss, Forall2 R l ss -> Forall2 R (fst (first_true f l)) ss.
Proof.
  intros A B f R K. induction 1 as [|x s l ss H F IH]; [constructor|]. cbn [first_true]. pose proof (K _ _ H) as K0. destruct (f x) as [x' [[]|e]]; cbn [fst] in *; constructor; auto.
Qed.
Lemma ft_true : forall {A B} (f : A -> A * res bool) (R : A -> B -> Prop) (P : B -> Prop), (forall x s, R x s -> snd (f x) = Ok true -> P s) -> forall l ss, Forall2 R l ss -> snd (first_true f l) = Ok true -> exists s, In s ss /\ P s.
Proof.
  intros A B f R P T. induction 1 as [|x s l ss H F IH]; [discriminate|]. cbn [first_true]. pose proof (T _ _ H) as T0. destruct (f x) as [x' [[]|e]]; cbn [fst snd] in *; [exists s; split; [now left|auto]| |discriminate]. intro X. destruct (IH X) as (s' & I & P'). exists s'. split; [now right|exact P'].
Qed.
Lemma ft_exact : forall {A B} (f : A -> A * res bool) (R : A -> B -> Prop) (P : B -> Prop) l ss, Forall2 R l ss -> (forall x s, R x s -> In s ss -> exists b, snd (f x) = Ok b /\ (b = true <-> P s)) -> exists b, snd (first_true f l) = Ok b /\ (b = true <-> exists s, In s ss /\ P s).
Proof.
  intros A B f R P. induction 1 as [|x s l ss H F IH]; intro T; [exists false; split; [reflexivity|]; split; [discriminate|intros (s & [] & _)]|]. cbn [first_true]. destruct (T _ _ H (or_introl eq_refl)) as (b & Eb & Ib). destruct (f x) as [x' r]. cbn [snd] in Eb. subst r. destruct b.
  - exists true. split; [reflexivity|]. split; [intros _; exists s; split; [now left|tauto]|auto].
  - cbn [snd]. destruct (IH (fun x s R I => T x s R (or_intror I))) as (b & Eb & Ib2). exists b. split; [exact Eb|]. rewrite Ib2. split; [intros (s' & I & X); exists s'; split; [now right|exact X]|]. intros (s' & [<-|I] & X); [apply Ib in X; discriminate|eauto].
Qed.
(* ---- rules ---- *)
Lemma applies_iff : forall p s, applies re_match uf p s <-> sr_filters s = [] \/ exists f, In f (sr_filters s) /\ fholds p f.
Proof. intros p s. unfold applies, fholds. split; (intros [E|X]; [left; exact E|right]); [destruct X as (n & f & A & B & C)|destruct X as (f & B & n & A & C)]; eauto 6. Qed.
Lemma allows_iff : forall p sig kl s, allows re_count re_match uf p sig kl s <-> exists c, In c (sr_checkers s) /\ cholds p sig kl c.
Proof. intros p sig kl s. unfold allows, cholds. split; [intros (n & c & A & B & C); exists (sig, c); cbn [fst snd]; eauto 6|intros ([sg c] & B & E & n & A & C); cbn [fst snd] in *; subst; eauto]. Qed.
Lemma rm_keeps : forall p r s, says_r r s -> says_r (fst (rl_match re_match uf stack p r)) s.
Proof.
  intros p r s (H1 & H2 & H3). unfold rl_match. destruct (rl_filters r) as [|f fs] eqn:E; [cbn [fst]; split; [exact H1|split; [rewrite E; exact H2|exact H3]]|]. cbv zeta. cbn [fst]. split; [exact H1|split; [|exact H3]]. cbn [rl_filters]. exact (ft_keeps _ says_f (fl_keeps p) _ _ H2).
Qed.
Lemma rm_true : forall p r s, says_r r s -> snd (rl_match re_match uf stack p r) = Ok true -> applies re_match uf p s.
Proof.
  intros p r s (H1 & H2 & H3) H. apply applies_iff. unfold rl_match in H. destruct (rl_filters r) as [|f fs] eqn:E; [left; inversion H2; reflexivity|right]. cbv zeta in H. cbn [snd] in H. exact (ft_true _ says_f (fholds p) (fl_true p) _ _ H2 H).
Qed.
Lemma rm_exact : forall p r s, says_r r s -> Forall (solid_filter re_match uf) (sr_filters s) -> deep_enough stack (pp_name p) -> exists b, snd (rl_match re_match uf stack p r) = Ok b /\ (b = true <-> applies re_match uf p s).
Proof.
  intros p r s (H1 & H2 & H3) So De. unfold rl_match. destruct (rl_filters r) as [|f fs] eqn:E.
  - exists true. split; [reflexivity|]. split; auto. intros _. left. inversion H2. reflexivity.
  - cbv zeta. cbn [snd]. rewrite Forall_forall in So. destruct (ft_exact (fl_match re_match uf stack p) says_f (fholds p) _ _ H2) as (b & Eb & Ib); [intros x s0 R I; apply fl_exact; auto|]. exists b. split; [exact Eb|]. rewrite applies_iff, Ib. split; [auto|]. intros [X|X]; [|exact X]. rewrite X in H2. inversion H2.
Qed.
Lemma rc_keeps : forall p sig kl r s, says_r r s -> says_r (fst (rl_check re_match uf stack p sig kl r)) s.
Proof. intros p sig kl r s (H1 & H2 & H3). unfold rl_check. cbv zeta. cbn [fst]. split; [exact H1|split; [exact H2|]]. cbn [rl_checkers]. exact (ft_keeps _ says_c (ck_keeps p sig kl) _ _ H3). Qed.
Lemma rc_true : forall p sig kl r s, says_r r s -> snd (rl_check re_match uf stack p sig kl r) = Ok true -> allows re_count re_match uf p sig kl s.
Proof. intros p sig kl r s (H1 & H2 & H3) H. apply allows_iff. exact (ft_true _ says_c (cholds p sig kl) (ck_true p sig kl) _ _ H3 H). Qed.
Lemma rc_exact : forall p sig kl r s, says_r r s -> (forall n c, about_name p n -> In c (sr_checkers s) -> decided re_count re_match uf n kl (snd c)) -> deep_enough stack (pp_name p) -> deep_enough stack kl -> exists b, snd (rl_check re_match uf stack p sig kl r) = Ok b /\ (b = true <-> allows re_count re_match uf p sig kl s).
Proof.
  intros p sig kl r s (H1 & H2 & H3) De Dp Dk. unfold rl_check. cbv zeta. cbn [snd]. destruct (ft_exact (ck_check re_match uf stack p sig kl) says_c (cholds p sig kl) _ _ H3) as (b & Eb & Ib); [intros x s0 R I; apply ck_exact; auto|]. exists b. split; [exact Eb|]. now rewrite allows_iff.
Qed.
Lemma br_keeps : forall p sig kl l ss, Forall2 says_r l ss -> Forall2 says_r (fst (by_rules re_match uf stack p sig kl l)) ss.
Proof.
  intros p sig kl. induction 1 as [|r s l ss H F IH]; [constructor|]. cbn [by_rules]. pose proof (rm_keeps p r s H) as K1. destruct (rl_match re_match uf stack p r) as [r1 [[]|e]]; cbn [fst] in *; [|constructor; auto|constructor; auto]. pose proof (rc_keeps p sig kl r1 s K1) as K2. destruct (rl_check re_match uf stack p sig kl r1) as [r2 [[]|e]]; cbn [fst] in *; constructor; auto.
Qed.
Lemma br_request : forall p sig kl l ss, Forall2 says_r l ss -> forall rq, snd (by_rules re_match uf stack p sig kl l) = PARequest rq -> rq = certRequest kl /\ exists s, In s ss /\ applies re_match uf p s /\ allows re_count re_match uf p sig kl s.
Proof.
  intros p sig kl. induction 1 as [|r s l ss H F IH]; intros rq X; [discriminate|]. cbn [by_rules] in X. pose proof (rm_keeps p r s H) as K1. pose proof (rm_true p r s H) as T1. destruct (rl_match re_match uf stack p r) as [r1 [[]|e]]; cbn [fst snd] in *; [| |discriminate].
  - pose proof (rc_true p sig kl r1 s K1) as T2. destruct (rl_check re_match uf stack p sig kl r1) as [r2 [[]|e]]; cbn [snd] in *; try discriminate. injection X as <-. split; [reflexivity|]. exists s. splits; auto. now left.
  - destruct (IH _ X) as (E & s' & I & A). split; [exact E|]. exists s'. split; [now right|exact A].
Qed.
Lemma br_answers : forall p sig kl l, match snd (by_rules re_match uf stack p sig kl l) with PARequest rq => rq = certRequest kl | PAFail e => e = VE_POLICY_ERROR | PAThrow _ => True | _ => False end.
Proof. intros p sig kl. induction l as [|r l IH]; [reflexivity|]. cbn [by_rules]. destruct (rl_match re_match uf stack p r) as [r1 [[]|e]]; [|exact IH|exact I]. destruct (rl_check re_match uf stack p sig kl r1) as [r2 [[]|e]]; [reflexivity|reflexivity|exact I]. Qed.
Definition first_allowed (p : ppkt) (sig : N) (kl : list comp) (ss : list srule) : Prop := exists a r b, ss = a ++ r :: b /\ (forall x, In x a -> ~ applies re_match uf p x) /\ applies re_match uf p r /\ allows re_count re_match uf p sig kl r.
Lemma br_exact : forall p sig kl l ss, Forall2 says_r l ss -> deep_enough stack (pp_name p) -> deep_enough stack kl -> (forall s, In s ss -> decided_by re_count re_match uf p kl s) ->
  (snd (by_rules re_match uf stack p sig kl l) = PARequest (certRequest kl) /\ first_allowed p sig kl ss) \/ (snd (by_rules re_match uf stack p sig kl l) = PAFail VE_POLICY_ERROR /\ ~ first_allowed p sig kl ss).
Proof.
  intros p sig kl. induction 1 as [|r s l ss H F IH]; intros Dp Dk De; [right; split; [reflexivity|]; intros ([|] & r & b & E & _); discriminate|]. destruct (De s (or_introl eq_refl)) as [De1 De2]. cbn [by_rules]. pose proof (rm_keeps p r s H) as K1. destruct (rm_exact p r s H De1 Dp) as (b1 & E1 & I1). destruct (rl_match re_match uf stack p r) as [r1 x]. cbn [fst snd] in *. subst x. destruct b1.
  - assert (App : applies re_match uf p s) by tauto. destruct (rc_exact p sig kl r1 s K1 De2 Dp Dk) as (b2 & E2 & I2). destruct (rl_check re_match uf stack p sig kl r1) as [r2 y]. cbn [snd] in E2. subst y. destruct b2; [left; split; [reflexivity|]; exists [], s, ss; splits; [reflexivity|intros x []|exact App|tauto]|]. right. split; [reflexivity|]. intros (a & r0 & b & E & Na & A & Al). destruct a as [|x a]; [injection E as -> ->; apply I2 in Al; discriminate|]. injection E as -> ->. exact (Na x (or_introl eq_refl) App).
  - assert (Nap : ~ applies re_match uf p s) by (intro X; apply I1 in X; discriminate). cbn [snd]. destruct (IH Dp Dk (fun s I => De s (or_intror I))) as [[E Fa]|[E Fa]]; [left|right]; (split; [exact E|]).
    + destruct Fa as (a & r0 & b & -> & Na & A & Al). exists (s :: a), r0, b. splits; auto. intros x [<-|I]; auto.
    + intros (a & r0 & b & Es & Na & A & Al). apply Fa. destruct a as [|x a]; [injection Es as -> ->; contradiction|]. injection Es as -> ->. exists a, r0, b. splits; auto. intros y I. apply Na. now right.
Qed.
(* ---- the policy ---- *)
Notation says_p := (says_p re_count).
Lemma vp_keeps : forall p v b rs, says_p v b rs -> says_p (fst (vp_check re_match uf stack p v)) b rs.
Proof.
  intros p v b rs H. unfold vp_check. destruct (vp_bypass v) eqn:Bv; [exact H|]. destruct (pp_sigInfo p) as [[|si]|]; [exact H| |exact H]. destruct (klName si) as [|kl]; [exact H|]. destruct H as (H1 & H2 & H3). destruct (pp_isData p); cbv zeta; cbn [fst]; (split; [cbn; congruence|]); split; cbn [vp_data vp_int]; auto; now apply br_keeps.
Qed.
Lemma rules_for_split : forall p l, rules_for p l = if pp_isData p then List.filter sr_data (rules_of l) else List.filter (fun r => negb (sr_data r)) (rules_of l).
Proof.
  intros p l. unfold rules_for, rules_of. induction l as [|[r|a|] l IH]; cbn [flat_map app]; [destruct (pp_isData p); reflexivity| |exact IH|exact IH]. destruct (pp_isData p), (sr_data r) eqn:D; cbn [Bool.eqb app List.filter negb]; rewrite D; cbn [negb]; rewrite IH; reflexivity.
Qed.
Lemma vp_answer : forall p v si sig kl, vp_bypass v = false -> info_of p si -> signed_as si sig kl -> snd (vp_check re_match uf stack p v) = snd (by_rules re_match uf stack p sig kl (if pp_isData p then vp_data v else vp_int v)).
Proof. intros p v si sig kl B I S0. apply info_iff in I. apply signed_iff in S0. destruct S0 as [K ->]. unfold vp_check. rewrite B, I, K. destruct (pp_isData p); reflexivity. Qed.
Lemma vp_rules : forall p v b l, says_p v b (rules_of l) -> Forall2 says_r (if pp_isData p then vp_data v else vp_int v) (rules_for p l).
Proof. intros p v b l (_ & H2 & H3). rewrite rules_for_split. destruct (pp_isData p); assumption. Qed.
End D.

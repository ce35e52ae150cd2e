(* The containers, caches and back end of the PIB against the documented tree. *)
From Verif Require Import Base BaseLemmas M_Tlv M_Name S_Name M_Ims P_Ims M_Pib S_Pib P_Pib.
From Coq Require Import Lia ZifyBool ZifyNat ZifyN String.
Open Scope list_scope.
Open Scope N_scope.

(* ---- lists of objects found by their numbers ---- *)
Section Found.
Context {A : Type} (u : A -> N).
Definition fnd (h : N) (l : list A) : option A := find (fun x => u x =? h) l.
Definition uniq (l : list A) : Prop := forall x, In x l -> fnd (u x) l = Some x.
Lemma fnd_in : forall h l x, fnd h l = Some x -> In x l /\ u x = h.
Proof. intros h l x H. apply find_some in H. destruct H as [B C]. apply N.eqb_eq in C. auto. Qed.
Lemma fnd_put : forall h x l, fnd h (map (fun i => if u i =? u x then x else i) l) = if h =? u x then (match fnd h l with Some _ => Some x | None => None end) else fnd h l.
Proof.
  intros h x l. unfold fnd. induction l as [|y l IH]; cbn [map find]; [destruct (h =? u x); auto|].
  destruct (u y =? u x) eqn:E.
  - rewrite (N.eqb_sym (u x) h). destruct (h =? u x) eqn:F.
    + replace (u y =? h) with true by lia. reflexivity.
    + rewrite IH. replace (u y =? h) with false by lia. reflexivity.
  - rewrite IH. destruct (h =? u x) eqn:F; destruct (u y =? h) eqn:G; auto; lia.
Qed.
Lemma uniq_put : forall x l, uniq l -> uniq (map (fun i => if u i =? u x then x else i) l).
Proof.
  intros x l H y Hy. rewrite fnd_put. apply in_map_iff in Hy. destruct Hy as [z [E Hz]]. destruct (u z =? u x) eqn:F.
  - subst y. rewrite N.eqb_refl. apply N.eqb_eq in F. rewrite <- F, (H z Hz). reflexivity.
  - subst y. rewrite F. now apply H.
Qed.
Lemma fnd_app : forall h l x, fnd h (l ++ [x]) = match fnd h l with Some y => Some y | None => if u x =? h then Some x else None end.
Proof. intros h l x. unfold fnd. induction l as [|y l IH]; cbn [app find]; [reflexivity|]. destruct (u y =? h); auto. Qed.
Lemma uniq_app : forall l x, uniq l -> fnd (u x) l = None -> uniq (l ++ [x]).
Proof.
  intros l x H N y Hy. rewrite fnd_app. apply in_app_iff in Hy. destruct Hy as [Hy|[<-|[]]].
  - now rewrite (H y Hy).
  - now rewrite N, N.eqb_refl.
Qed.
Lemma fnd_filter : forall Q h l, uniq l -> fnd h (filter Q l) = match fnd h l with Some x => if Q x then Some x else None | None => None end.
Proof.
  intros Q h l U. destruct (fnd h (filter Q l)) as [y|] eqn:E.
  - apply fnd_in in E. destruct E as [E <-]. apply filter_In in E. destruct E as [E F]. rewrite (U y E), F. reflexivity.
  - destruct (fnd h l) as [x|] eqn:F; auto. destruct (Q x) eqn:G; auto. apply fnd_in in F. destruct F as [F <-].
    assert (I : In x (filter Q l)) by now apply filter_In. pose proof (find_none _ _ E x I) as K. cbn beta in K. rewrite N.eqb_refl in K. discriminate K.
Qed.
Lemma uniq_filter : forall Q l, uniq l -> uniq (filter Q l).
Proof. intros Q l U x Hx. rewrite fnd_filter by auto. apply filter_In in Hx. destruct Hx as [Hx E]. now rewrite (U x Hx), E. Qed.
End Found.

Lemma filter_id : forall A (f : A -> bool) l, (forall x, In x l -> f x = true) -> filter f l = l.
Proof. intros A f l. induction l as [|x l IH]; intros H; cbn; auto. rewrite (H x) by (left; auto). rewrite IH; auto. intros; apply H; right; auto. Qed.

(* ---- the invariant ---- *)
Record RB (b : be) (t : tree) : Prop := mkRB {
  r_ids : forall n, nmem n (b_ids b) = t_id t n;
  r_def : b_def b = t_def t;
  r_keys : forall n, nget n (b_keys b) = t_key t n;
  r_defK : forall n, nget n (b_defK b) = t_defK t n;
  r_certs : forall n, nget n (b_certs b) = t_cert t n;
  r_defC : forall n, nget n (b_defC b) = t_defC t n }.
Record WT (t : tree) : Prop := mkWT {
  w_def : forall d, t_def t = Some d -> t_id t d = true;
  w_key : forall kn, t_key t kn <> None -> exists i, identity_of_key kn = Some i /\ t_id t i = true;
  w_defK : forall i kn, t_defK t i = Some kn -> t_key t kn <> None /\ identity_of_key kn = Some i;
  w_cert : forall cn c, t_cert t cn = Some c -> pc_name c = cn /\ exists kn, key_of_cert cn = Some kn /\ t_key t kn <> None;
  w_defC : forall kn cn, t_defC t kn = Some cn -> t_cert t cn <> None /\ key_of_cert cn = Some kn;
  w_hid : forall h n, t_hid t h = Some n -> t_id t n = true;
  w_hidu : forall h n, t_hid t h = Some n -> t_used t h = true;
  w_hidi : forall h h' n, t_hid t h = Some n -> t_hid t h' = Some n -> h = h';
  w_hkey : forall h n, t_hkey t h = Some n -> t_key t n <> None;
  w_hkeyu : forall h n, t_hkey t h = Some n -> t_used t h = true;
  w_hkeyi : forall h h' n, t_hkey t h = Some n -> t_hkey t h' = Some n -> h = h' }.
Record RH (p : pib) (t : tree) : Prop := mkRH {
  h_names : forall n, nmem n (p_names p) = t_id t n;
  h_id : forall h, option_map i_name (find_id h p) = t_hid t h;
  h_key : forall h, option_map k_name (find_key h p) = t_hkey t h;
  h_used : forall h, t_used t h = (h <? p_next p);
  h_uid : uniq i_uid (p_ids p);
  h_ukey : uniq k_uid (p_keys p) }.
Definition okI (t : tree) (i : idimpl) : Prop :=
  (forall kn, nmem kn (i_knames i) = isome (t_key t kn) && isopt (identity_of_key kn) (i_name i)) /\
  (forall d, i_def i = Some d -> t_used t d = true /\ forall kn, t_hkey t d = Some kn -> t_defK t (i_name i) = Some kn).
Definition okK (t : tree) (k : kimpl) : Prop :=
  t_hid t (k_owner k) = identity_of_key (k_name k) /\ identity_of_key (k_name k) <> None /\ t_key t (k_name k) = Some (k_bits k) /\
  (forall cn, nmem cn (k_cnames k) = isome (t_cert t cn) && isopt (key_of_cert cn) (k_name k)) /\
  (forall cn c, nget cn (k_certs k) = Some c -> t_cert t cn = Some c /\ key_of_cert cn = Some (k_name k)) /\
  (forall c, k_def k = Some c -> t_defC t (k_name k) = Some (pc_name c) /\ t_cert t (pc_name c) = Some c).
Record inv (p : pib) (t : tree) : Prop := mkInv {
  v_b : RB (p_be p) t;
  v_t : WT t;
  v_h : RH p t;
  v_i : forall h i, find_id h p = Some i -> okI t i;
  v_k : forall h k, find_key h p = Some k -> okK t k;
  v_d : forall h, p_def p = Some h -> t_used t h = true /\ forall n, t_hid t h = Some n -> t_def t = Some n }.

Lemma inv_empty : inv (pib_new be_empty) emptyT.
Proof.
  constructor; [constructor|constructor|constructor| | |]; cbn; try discriminate; try reflexivity; try congruence; try (intros; now destruct h); try (intros x []).
Qed.

(* two trees that answer alike *)
Record teq (a b : tree) : Prop := mkTeq {
  e_id : forall n, t_id a n = t_id b n; e_def : t_def a = t_def b;
  e_key : forall n, t_key a n = t_key b n; e_defK : forall n, t_defK a n = t_defK b n;
  e_cert : forall n, t_cert a n = t_cert b n; e_defC : forall n, t_defC a n = t_defC b n;
  e_hid : forall n, t_hid a n = t_hid b n; e_hkey : forall n, t_hkey a n = t_hkey b n; e_used : forall n, t_used a n = t_used b n }.
Lemma inv_ext : forall p a b, teq a b -> inv p a -> inv p b.
Proof.
  intros p a b [E1 E2 E3 E4 E5 E6 E7 E8 E9] [[A1 A2 A3 A4 A5 A6] [B1 B2 B3 B4 B5 B6 B7 B8 B9 B10 B11] [C1 C2 C3 C4 C5 C6] D E F].
  Ltac toa b := repeat match goal with
    | X : (forall n, _ = t_id b n), H : context [t_id b ?x] |- _ => rewrite <- (X x) in H
    | X : (forall n, _ = t_key b n), H : context [t_key b ?x] |- _ => rewrite <- (X x) in H
    | X : (forall n, _ = t_defK b n), H : context [t_defK b ?x] |- _ => rewrite <- (X x) in H
    | X : (forall n, _ = t_cert b n), H : context [t_cert b ?x] |- _ => rewrite <- (X x) in H
    | X : (forall n, _ = t_defC b n), H : context [t_defC b ?x] |- _ => rewrite <- (X x) in H
    | X : (forall n, _ = t_hid b n), H : context [t_hid b ?x] |- _ => rewrite <- (X x) in H
    | X : (forall n, _ = t_hkey b n), H : context [t_hkey b ?x] |- _ => rewrite <- (X x) in H
    | X : (forall n, _ = t_used b n), H : context [t_used b ?x] |- _ => rewrite <- (X x) in H
    end.
  constructor; [constructor|constructor|constructor| | |]; intros; toa b;
    rewrite <- ?E1, <- ?E2, <- ?E3, <- ?E4, <- ?E5, <- ?E6, <- ?E7, <- ?E8, <- ?E9; eauto.
  - apply B1. congruence.
  - destruct (B2 kn H) as [i [X Y]]. exists i. rewrite <- E1. auto.
  - destruct (B4 cn c H) as [X [k [Y Z]]]. split; auto. exists k. rewrite <- E3. auto.
  - destruct (D h i H) as [X Y]. split; intros; toa b; [rewrite <- E3; auto|]. destruct (Y d H0) as [Z W]. split; [rewrite <- E9; auto|]. intros kn; rewrite <- E8, <- E4; auto.
  - destruct (E h k H) as (X1 & X2 & X3 & X4 & X5 & X6). unfold okK. rewrite <- E7, <- E3. splits; auto; intros; toa b; rewrite <- ?E5, <- ?E6; auto.
Qed.
Ltac tr := cbv zeta; cbn [t_addId t_removeId drop_handles t_ensureKey t_addKey t_removeKey t_setDefK t_setDef t_setDefC t_addCert t_removeCert t_no_handles noted t_id t_def t_key t_defK t_cert t_defC t_hid t_hkey t_used b_ids b_def b_keys b_defK b_certs b_defC be_addIdentity be_addKey be_addCert wBe wNames wIds wKeys wDef p_be p_names p_ids p_keys p_def p_next put_id put_key i_uid i_name i_knames i_def k_uid k_owner k_name k_bits k_cnames k_certs k_def].
Ltac dif := match goal with |- context [if ?b then _ else _] => destruct b end.
Ltac ud := unfold upd, updN, keep, or_else in *.
Lemma RB_WK : forall b t, RB b t -> WT t -> WK b.
Proof.
  intros b t [A1 A2 A3 A4 A5 A6] [B1 B2 B3 B4 B5 B6 B7 B8 B9 B10 B11]. constructor; intros.
  - rewrite A4 in H. rewrite A3. eauto.
  - rewrite A5 in H. destruct (B4 _ _ H) as [X [k [Y Z]]]. split; auto. exists k. rewrite A3. auto.
  - rewrite A6 in H. rewrite A5. eauto.
Qed.
(* ---- consistency checks ---- *)
Lemma ids_ok : forall p t, inv p t -> ids_consistent p = true.
Proof. intros p t I. unfold ids_consistent. apply same_set_iff. intros x. now rewrite (h_names _ _ (v_h _ _ I)), (r_ids _ _ (v_b _ _ I)). Qed.
Lemma keys_ok : forall p t h i, inv p t -> find_id h p = Some i -> keys_consistent i p = true.
Proof.
  intros p t h i I H. unfold keys_consistent. apply same_set_iff. intros x. destruct (v_i _ _ I _ _ H) as [A _]. now rewrite A, keysOf_mem, (r_keys _ _ (v_b _ _ I)).
Qed.
Lemma certs_ok : forall p t h k, inv p t -> find_key h p = Some k -> certs_consistent k p = true.
Proof.
  intros p t h k I H. unfold certs_consistent. apply same_set_iff. intros x. destruct (v_k _ _ I _ _ H) as (_ & _ & _ & A & _). now rewrite A, certsOf_mem, (r_certs _ _ (v_b _ _ I)).
Qed.
(* ---- handles ---- *)
Lemma hid_find : forall p t h n, inv p t -> t_hid t h = Some n -> exists i, find_id h p = Some i /\ i_name i = n /\ i_uid i = h.
Proof.
  intros p t h n I H. rewrite <- (h_id _ _ (v_h _ _ I)) in H. destruct (find_id h p) as [i|] eqn:E; [|discriminate]. injection H as <-. exists i. splits; auto.
  now apply (fnd_in i_uid) in E.
Qed.
Lemma hid_none : forall p t h, inv p t -> t_hid t h = None -> find_id h p = None.
Proof. intros p t h I H. rewrite <- (h_id _ _ (v_h _ _ I)) in H. destruct (find_id h p); [discriminate|auto]. Qed.
Lemma hkey_find : forall p t h n, inv p t -> t_hkey t h = Some n -> exists i, find_key h p = Some i /\ k_name i = n /\ k_uid i = h.
Proof.
  intros p t h n I H. rewrite <- (h_key _ _ (v_h _ _ I)) in H. destruct (find_key h p) as [i|] eqn:E; [|discriminate]. injection H as <-. exists i. splits; auto.
  now apply (fnd_in k_uid) in E.
Qed.
Lemma hkey_none : forall p t h, inv p t -> t_hkey t h = None -> find_key h p = None.
Proof. intros p t h I H. rewrite <- (h_key _ _ (v_h _ _ I)) in H. destruct (find_key h p); [discriminate|auto]. Qed.
Lemma find_hid : forall p t h i, inv p t -> find_id h p = Some i -> t_hid t h = Some (i_name i).
Proof. intros p t h i I H. now rewrite <- (h_id _ _ (v_h _ _ I)), H. Qed.
Lemma find_hkey : forall p t h i, inv p t -> find_key h p = Some i -> t_hkey t h = Some (k_name i).
Proof. intros p t h i I H. now rewrite <- (h_key _ _ (v_h _ _ I)), H. Qed.
Lemma id_named_some : forall p t n i, inv p t -> id_named n p = Some i -> find_id (i_uid i) p = Some i /\ i_name i = n /\ t_hid t (i_uid i) = Some n.
Proof.
  intros p t n i I H. apply find_some in H. destruct H as [A B]. apply names_eqb_eq in B. pose proof (h_uid _ _ (v_h _ _ I) _ A) as F. splits; auto.
  rewrite (find_hid _ _ _ _ I F). congruence.
Qed.
Lemma id_named_none : forall p t n, inv p t -> id_named n p = None -> forall h, t_hid t h <> Some n.
Proof.
  intros p t n I H h E. destruct (hid_find _ _ _ _ I E) as (i & A & B & C). apply (fnd_in i_uid) in A. destruct A as [A _].
  pose proof (find_none _ _ H _ A) as K. cbn beta in K. apply names_eqb_neq in K. congruence.
Qed.
Lemma key_named_some : forall p t u n k, inv p t -> key_named u n p = Some k -> find_key (k_uid k) p = Some k /\ k_name k = n /\ t_hkey t (k_uid k) = Some n.
Proof.
  intros p t u n i I H. apply find_some in H. destruct H as [A B]. apply andb_true_iff in B. destruct B as [_ B]. apply names_eqb_eq in B.
  pose proof (h_ukey _ _ (v_h _ _ I) _ A) as F. splits; auto. rewrite (find_hkey _ _ _ _ I F). congruence.
Qed.
Lemma owner_is : forall p t u i kn h k, inv p t -> t_hid t u = Some i -> identity_of_key kn = Some i -> find_key h p = Some k ->
  (k_owner k =? u) && names_eqb kn (k_name k) = isopt (t_hkey t h) kn.
Proof.
  intros p t u i kn h k I H N F. rewrite (find_hkey _ _ _ _ I F). cbn [isopt]. rewrite is_names. destruct (v_k _ _ I _ _ F) as (A & _).
  destruct (names_eqb kn (k_name k)) eqn:E.
  - apply names_eqb_eq in E. rewrite E in *. rewrite names_eqb_refl, N in *. rewrite (w_hidi _ (v_t _ _ I) _ _ _ A H). now rewrite N.eqb_refl.
  - rewrite andb_false_r. symmetry. apply names_eqb_neq in E. apply names_eqb_neq. congruence.
Qed.
Lemma key_named_none : forall p t u i n, inv p t -> t_hid t u = Some i -> identity_of_key n = Some i -> key_named u n p = None -> forall h, t_hkey t h <> Some n.
Proof.
  intros p t u i n I U N H h E. destruct (hkey_find _ _ _ _ I E) as (k & A & B & C). pose proof (owner_is _ _ _ _ _ _ _ I U N A) as O.
  apply (fnd_in k_uid) in A. destruct A as [A _]. pose proof (find_none _ _ H _ A) as K. cbn beta in K. rewrite O in K. apply isopt_neq in K. congruence.
Qed.
Lemma fresh_none : forall p t, inv p t -> find_id (p_next p) p = None /\ find_key (p_next p) p = None /\ t_used t (p_next p) = false.
Proof.
  intros p t I. pose proof (h_used _ _ (v_h _ _ I) (p_next p)) as U. rewrite N.ltb_irrefl in U. splits; auto.
  - apply hid_none with t; auto. destruct (t_hid t (p_next p)) eqn:E; auto. apply (w_hidu _ (v_t _ _ I)) in E. congruence.
  - apply hkey_none with t; auto. destruct (t_hkey t (p_next p)) eqn:E; auto. apply (w_hkeyu _ (v_t _ _ I)) in E. congruence.
Qed.
Lemma reuse_id : forall p t h n, inv p t -> t_hid t h = Some n -> inv p (noted t (RId n) (Ok (AId h))).
Proof.
  intros p t h n I H. apply inv_ext with t; auto. constructor; cbn; auto; intros x; ud; destruct (N.eq_dec x h) as [->|]; auto. eapply w_hidu; eauto. apply I.
Qed.
Lemma reuse_key : forall p t h n, inv p t -> t_hkey t h = Some n -> inv p (noted t (RKey n) (Ok (AKey h))).
Proof.
  intros p t h n I H. apply inv_ext with t; auto. constructor; cbn; auto; intros x; ud; destruct (N.eq_dec x h) as [->|]; auto. eapply w_hkeyu; eauto. apply I.
Qed.

(* ---- identities ---- *)
Lemma L_addId : forall p t n, inv p t -> inv (wBe (be_addIdentity n (p_be p)) (wNames (nadd n (p_names p)) p)) (t_addId n t).
Proof.
  intros p t n [A B C D E F]. constructor; tr.
  - destruct A as [A1 A2 A3 A4 A5 A6]. constructor; tr; auto.
    + intros x. rewrite nmem_nadd. ud. now rewrite A1.
    + ud. rewrite A2. now destruct (t_def t).
  - destruct B as [B1 B2 B3 B4 B5 B6 B7 B8 B9 B10 B11]. constructor; tr; eauto.
    + intros d. ud. destruct (nm_dec d n); auto. destruct (t_def t) eqn:G; auto. congruence.
    + intros kn H. destruct (B2 _ H) as [i [X Y]]. exists i. split; auto. ud. destruct (nm_dec i n); auto.
    + intros h m H. ud. destruct (nm_dec m n); eauto.
  - destruct C as [C1 C2 C3 C4 C5 C6]. constructor; auto. intros x. tr. rewrite nmem_nadd. ud. now rewrite C1.
  - exact D.
  - exact E.
  - intros h H. destruct (F h H) as [X Y]. split; auto. intros m G. cbn. apply Y in G. rewrite G. reflexivity.
Qed.
Lemma L_newid : forall p t n, inv p t -> t_id t n = true -> (forall h, t_hid t h <> Some n) ->
  exists p', new_id n p = (p', Ok (p_next p)) /\ inv p' (noted t (RId n) (Ok (AId (p_next p)))) /\ p_be p' = p_be p /\ p_def p' = p_def p.
Proof.
  intros p t n I Hn Hf. destruct (fresh_none _ _ I) as (F1 & F2 & F3). unfold new_id. rewrite (r_ids _ _ (v_b _ _ I)), Hn. cbn [negb].
  eexists; split; [reflexivity|]. split; [|split; reflexivity]. pose proof I as I0. destruct I as [A B C D E F]. constructor; tr.
  - destruct A; constructor; auto.
  - destruct B as [B1 B2 B3 B4 B5 B6 B7 B8 B9 B10 B11]. constructor; tr; eauto.
    + intros h m. ud. destruct (N.eq_dec h (p_next p)); eauto. congruence.
    + intros h m. ud. destruct (N.eq_dec h (p_next p)); eauto.
    + intros h h' m. ud. destruct (N.eq_dec h (p_next p)), (N.eq_dec h' (p_next p)); eauto; intros X Y; try congruence.
    + intros h m X. ud. destruct (N.eq_dec h (p_next p)); eauto.
  - destruct C as [C1 C2 C3 C4 C5 C6]. constructor; tr; auto.
    + intros h. unfold find_id. cbn [p_ids]. change (find ?f ?l) with (fnd i_uid h l). rewrite fnd_app. cbn [i_uid]. ud. change (fnd i_uid h (p_ids p)) with (find_id h p).
      destruct (N.eq_dec h (p_next p)) as [->|X].
      * rewrite F1, N.eqb_refl. reflexivity.
      * replace (p_next p =? h) with false by lia. rewrite <- C2. destruct (find_id h p); auto.
    + intros h. ud. rewrite C4. destruct (N.eq_dec h (p_next p)); lia.
    + apply uniq_app; [exact C5|exact F1].
  - intros h i. unfold find_id. cbn [p_ids]. change (find ?f ?l) with (fnd i_uid h l). rewrite fnd_app. change (fnd i_uid h (p_ids p)) with (find_id h p).
    assert (G : forall i, okI t i -> okI (noted t (RId n) (Ok (AId (p_next p)))) i).
    { intros j [X Y]. split; auto. intros d Hd. destruct (Y d Hd) as [Z W]. split; auto. tr. ud. destruct (N.eq_dec d (p_next p)); auto. }
    destruct (find_id h p) as [j|] eqn:X; [intros Y; injection Y as <-; eauto|]. cbn [i_uid]. destruct (p_next p =? h); [|discriminate]. intros Y; injection Y as <-.
    apply G. split; cbn [i_knames i_def i_name]; [|discriminate]. intros kn. now rewrite keysOf_mem, (r_keys _ _ A).
  - intros h k X. destruct (E h k X) as (X1 & X2 & X3). split; [|split]; auto. tr. ud. destruct (N.eq_dec (k_owner k) (p_next p)) as [Y|]; auto. rewrite Y in X1.
    exfalso. rewrite <- (h_id _ _ C), F1 in X1. cbn in X1. congruence.
  - intros h X. destruct (F h X) as [Y Z]. tr. ud. split; [destruct (N.eq_dec h (p_next p)); auto|]. intros m. destruct (N.eq_dec h (p_next p)); auto. congruence.
Qed.
Lemma L_icget : forall p t n, inv p t -> t_id t n = true ->
  exists p' h, ic_get n p = (p', Ok h) /\ handle_for (t_hid t) (t_used t) n h /\ inv p' (noted t (RId n) (Ok (AId h))) /\ p_be p' = p_be p /\ p_def p' = p_def p.
Proof.
  intros p t n I H. unfold ic_get. destruct (id_named n p) as [i|] eqn:E.
  - destruct (id_named_some _ _ _ _ I E) as (A & B & C). exists p, (i_uid i). splits; auto. now left. now apply reuse_id.
  - pose proof (id_named_none _ _ _ I E) as Z. rewrite (r_ids _ _ (v_b _ _ I)), H. destruct (L_newid p t n I H Z) as (p' & A & B & C & D). exists p', (p_next p). splits; auto.
    right. split; auto. now destruct (fresh_none _ _ I) as (_ & _ & F).
Qed.
Lemma L_icadd : forall p t n, inv p t -> let t1 := if t_id t n then t else t_addId n t in
  exists p' h, ic_add n p = (p', Ok h) /\ handle_for (t_hid t1) (t_used t1) n h /\ inv p' (noted t1 (RId n) (Ok (AId h))).
Proof.
  intros p t n I. unfold ic_add. rewrite (h_names _ _ (v_h _ _ I)). destruct (t_id t n) eqn:E.
  - destruct (L_icget p t n I E) as (p' & h & A & B & C & _). eauto.
  - pose proof (L_addId p t n I) as I2. set (p2 := wBe _ _) in *.
    assert (Z : forall h, t_hid (t_addId n t) h <> Some n). { intros h H. apply (w_hid _ (v_t _ _ I)) in H. congruence. }
    destruct (id_named n p2) as [i|] eqn:F. { destruct (id_named_some _ _ _ _ I2 F) as (_ & _ & G). elim (Z _ G). }
    destruct (L_newid p2 _ n I2) as (p' & A & B & _); auto. { tr. ud. destruct (nm_dec n n); congruence. }
    exists p', (p_next p2). splits; auto. right. split; auto. now destruct (fresh_none _ _ I2) as (_ & _ & G).
Qed.
Lemma L_removeId : forall p t n, inv p t ->
  exists p', pb_removeIdentity n p = (p', Ok tt) /\ inv p' (t_removeId n t).
Proof.
  intros p t n I. unfold pb_removeIdentity, andthen, assert_. rewrite (ids_ok _ _ I).
  set (p1 := match p_def p with Some _ => _ | None => p end).
  assert (P1 : p_be p1 = p_be p /\ p_names p1 = p_names p /\ p_ids p1 = p_ids p /\ p_keys p1 = p_keys p /\ p_next p1 = p_next p).
  { unfold p1. destruct (p_def p) as [h|]; [|auto]. destruct (find_id h p) as [i|]; [|auto]. dif; auto. }
  assert (PD : forall h, p_def p1 = Some h -> p_def p = Some h /\ t_hid t h <> Some n).
  { unfold p1. intros h. destruct (p_def p) as [d|] eqn:E; [|congruence]. destruct (find_id d p) as [i|] eqn:F.
    - pose proof (find_hid _ _ _ _ I F) as G. destruct (names_eqb (i_name i) n) eqn:K; cbn; [discriminate|]. rewrite E. intros X; injection X as <-. split; auto.
      apply names_eqb_neq in K. congruence.
    - rewrite E. intros X; injection X as <-. split; auto. rewrite <- (h_id _ _ (v_h _ _ I)), F. discriminate. }
  clearbody p1. destruct P1 as (Q1 & Q2 & Q3 & Q4 & Q5).
  set (gone := map i_uid (filter (fun i => names_eqb n (i_name i)) (p_ids p))).
  assert (GO : forall u, existsb (N.eqb u) gone = isopt (t_hid t u) n).
  { intros u. apply bool_iff. rewrite isopt_eq, existsb_exists. unfold gone. split.
    - intros [x [X Y]]. apply N.eqb_eq in Y. subst x. apply in_map_iff in X. destruct X as [i [X Y]]. apply filter_In in Y. destruct Y as [Y Z]. apply names_eqb_eq in Z.
      pose proof (h_uid _ _ (v_h _ _ I) _ Y) as F. rewrite <- X, (find_hid _ _ _ _ I F). congruence.
    - intros H. destruct (hid_find _ _ _ _ I H) as (i & X & Y & Z). apply (fnd_in i_uid) in X. destruct X as [X _]. exists u. split; [|apply N.eqb_refl].
      apply in_map_iff. exists i. split; auto. apply filter_In. split; auto. apply names_eqb_eq. auto. }
  assert (G : inv (mkPib (be_removeIdentity n (p_be p)) (nrem n (p_names p)) (filter (fun i => negb (names_eqb n (i_name i))) (p_ids p))
                     (filter (fun k => negb (existsb (N.eqb (k_owner k)) gone)) (p_keys p)) (p_def p1) (p_next p)) (t_removeId n t)).
  { pose proof (rmId_look (p_be p) n (RB_WK _ _ (v_b _ _ I) (v_t _ _ I))) as (A1 & A2 & A3 & A4 & A5 & A6). pose proof I as I0. destruct I as [A B C D E F].
    assert (FI : forall h, find_id h (mkPib (be_removeIdentity n (p_be p)) (nrem n (p_names p)) (filter (fun i => negb (names_eqb n (i_name i))) (p_ids p))
                     (filter (fun k => negb (existsb (N.eqb (k_owner k)) gone)) (p_keys p)) (p_def p1) (p_next p)) = if isopt (t_hid t h) n then None else find_id h p).
    { intros h. unfold find_id at 1. cbn [p_ids]. change (find ?f ?l) with (fnd i_uid h l). rewrite fnd_filter by apply C. change (fnd i_uid h (p_ids p)) with (find_id h p).
      destruct (find_id h p) as [i|] eqn:X. 2: destruct (isopt (t_hid t h) n); reflexivity. rewrite (find_hid _ _ _ _ I0 X). cbn [isopt]. rewrite is_names.
      destruct (names_eqb (i_name i) n) eqn:Y; [apply names_eqb_eq in Y; subst; now rewrite names_eqb_refl|].
      apply names_eqb_neq in Y. rewrite (proj2 (names_eqb_neq n (i_name i))) by congruence. reflexivity. }
    assert (FK : forall h, find_key h (mkPib (be_removeIdentity n (p_be p)) (nrem n (p_names p)) (filter (fun i => negb (names_eqb n (i_name i))) (p_ids p))
                     (filter (fun k => negb (existsb (N.eqb (k_owner k)) gone)) (p_keys p)) (p_def p1) (p_next p)) =
                     if (match t_hkey t h with Some kn => under n kn | None => false end) then None else find_key h p).
    { intros h. unfold find_key at 1. cbn [p_keys]. change (find ?f ?l) with (fnd k_uid h l). rewrite fnd_filter by apply C. change (fnd k_uid h (p_keys p)) with (find_key h p).
      destruct (find_key h p) as [k|] eqn:X. 2: destruct (match t_hkey t h with Some kn => under n kn | None => false end); reflexivity. rewrite (find_hkey _ _ _ _ I0 X).
      rewrite GO. unfold under. destruct (E _ _ X) as (X1 & _). rewrite X1. destruct (isopt (identity_of_key (k_name k)) n); reflexivity. }
    set (p3 := mkPib _ _ _ _ _ _) in *. constructor.
    - destruct A as [Y1 Y2 Y3 Y4 Y5 Y6]. constructor; cbn [p3 p_be t_removeId t_id t_def t_key t_defK t_cert t_defC]; intros; ud.
      + now rewrite A1, Y1.
      + now rewrite A2, Y2.
      + now rewrite A3, Y3.
      + now rewrite A4, Y4.
      + now rewrite A5, Y5.
      + now rewrite A6, Y6.
    - destruct B as [B1 B2 B3 B4 B5 B6 B7 B8 B9 B10 B11]. constructor; cbn [t_removeId t_id t_def t_key t_defK t_cert t_defC t_hid t_hkey t_used]; unfold under, cert_under; ud.
      + intros d. destruct (isopt (t_def t) n) eqn:X; cbn; [discriminate|]. intros H. apply isopt_neq in X. destruct (nm_dec d n); [congruence|auto].
      + intros kn. destruct (isopt (identity_of_key kn) n) eqn:X; cbn; [congruence|]. intros H. destruct (B2 _ H) as [i [Y Z]]. exists i. split; auto.
        apply isopt_neq in X. destruct (nm_dec i n); auto. congruence.
      + intros i kn. destruct (nm_dec i n); [discriminate|]. intros H. destruct (B3 _ _ H) as [X Y]. split; auto. rewrite Y. cbn [isopt]. unfold is. destruct (nm_dec i n); cbn; congruence.
      + intros cn c. destruct (key_of_cert cn) as [k|] eqn:K; cbn.
        * unfold under. destruct (isopt (identity_of_key k) n) eqn:X; cbn; [discriminate|]. intros H. destruct (B4 _ _ H) as [Y [k' [Z W]]]. split; auto. exists k'. split; [congruence|].
          assert (k' = k) by congruence. subst. rewrite X. auto.
        * intros H. destruct (B4 _ _ H) as [Y [k' [Z W]]]. congruence.
      + intros kn cn. destruct (isopt (identity_of_key kn) n) eqn:X; cbn; [discriminate|]. intros H. destruct (B5 _ _ H) as [Y Z]. split; auto. rewrite Z. unfold under. rewrite X. auto.
      + intros h m. destruct (isopt (t_hid t h) n) eqn:X; cbn; [discriminate|]. intros H. apply isopt_neq in X. destruct (nm_dec m n); [congruence|eauto].
      + intros h m. dif; [eauto|discriminate].
      + intros h h' m. dif; [|discriminate]. dif; [eauto|discriminate].
      + intros h m. destruct (t_hkey t h) as [k|] eqn:K; [|cbn; congruence]. destruct (isopt (identity_of_key k) n) eqn:X; cbn; [discriminate|]. intros H; injection H as <-. rewrite X. cbn. eapply B9; eauto.
      + intros h m. dif; [eauto|discriminate].
      + intros h h' m. dif; [|discriminate]. dif; [eauto|discriminate].
    - destruct C as [C1 C2 C3 C4 C5 C6]. constructor; cbn [p3 p_names p_ids p_keys p_next t_removeId t_id t_hid t_hkey t_used]; ud; auto.
      + intros x. now rewrite nmem_nrem, C1.
      + intros h. fold p3. rewrite FI, <- C2. destruct (isopt (option_map i_name (find_id h p)) n); reflexivity.
      + intros h. fold p3. rewrite FK, <- C3. destruct (find_key h p) as [k|]; cbn; [destruct (under n (k_name k)); reflexivity|reflexivity].
      + now apply uniq_filter.
      + now apply uniq_filter.
    - intros h i. rewrite FI. destruct (isopt (t_hid t h) n) eqn:X; [discriminate|]. intros H. destruct (D _ _ H) as [Y Z]. rewrite (find_hid _ _ _ _ I0 H) in X. apply isopt_neq in X.
      split; cbn [t_removeId t_key t_hkey t_defK t_used].
      + intros kn. rewrite Y. unfold under. ud. destruct (isopt (identity_of_key kn) n) eqn:W; cbn; auto. apply isopt_eq in W. rewrite W. cbn. unfold is.
        destruct (nm_dec n (i_name i)); [congruence|now rewrite andb_false_r].
      + intros d Hd. destruct (Z d Hd) as [Z1 Z2]. split; auto. intros kn. ud. dif; [|discriminate]. intros W. destruct (nm_dec (i_name i) n); [congruence|auto].
    - intros h k. rewrite FK, <- (h_key _ _ C). destruct (find_key h p) as [k'|] eqn:K; [|cbn; discriminate]. cbn [option_map]. destruct (under n (k_name k')) eqn:X; [discriminate|].
      intros H; injection H as <-. destruct (E _ _ K) as (X1 & X2 & X3 & X4 & X5 & X6). unfold okK. cbn [t_removeId t_hid t_key t_cert t_defC]. unfold under in X. ud. splits; auto.
      + rewrite X1, X. reflexivity.
      + unfold under. rewrite X. exact X3.
      + intros cn. rewrite X4. unfold cert_under. destruct (key_of_cert cn) as [c|]; cbn; [|now rewrite !andb_false_r]. unfold is. destruct (nm_dec c (k_name k')) as [->|]; [|now rewrite !andb_false_r].
        unfold under. rewrite X. reflexivity.
      + intros cn c H. destruct (X5 _ _ H) as [W1 W2]. split; auto. unfold cert_under. rewrite W2. unfold under. rewrite X. exact W1.
      + intros c H. destruct (X6 _ H) as [W1 W2]. unfold under, cert_under. rewrite X. split; auto. destruct (w_defC _ B _ _ W1) as [_ W3]. rewrite W3. unfold under. rewrite X. exact W2.
    - intros h H. destruct (PD h H) as [X Y]. destruct (F h X) as [Z W]. split; auto. intros m. cbn [t_removeId t_hid t_def]. ud. destruct (isopt (t_hid t h) n) eqn:V; cbn; [discriminate|].
      intros K. pose proof (W _ K) as L. rewrite L. cbn. unfold is. destruct (nm_dec m n); [subst; congruence|reflexivity]. }
  unfold ic_remove. rewrite Q2, Q3. destruct (nmem n (p_names p)) eqn:E.
  - eexists. split; [reflexivity|]. cbn [p_be wBe p_names p_ids p_keys p_def p_next]. rewrite Q1, Q4, Q5. exact G.
  - rewrite (h_names _ _ (v_h _ _ I)) in E.
    assert (NH : forall h, t_hid t h <> Some n) by (intros h H; apply (w_hid _ (v_t _ _ I)) in H; congruence).
    assert (IN : id_named n p1 = None).
    { destruct (id_named n p1) as [i|] eqn:X; auto. unfold id_named in X. rewrite Q3 in X. destruct (id_named_some _ _ _ _ I X) as (_ & _ & Y). elim (NH _ Y). }
    rewrite IN. eexists. split; [reflexivity|]. rewrite filter_id, filter_id in G.
    + replace (nrem n (p_names p)) with (p_names p) in G.
      * rewrite Q1. destruct p1; cbn in *. subst. exact G.
      * symmetry. apply filter_id. intros x X. apply negb_true_iff, names_eqb_neq. intros <-. apply nmem_In in X. rewrite (h_names _ _ (v_h _ _ I)) in X. congruence.
    + intros k K. rewrite GO. apply negb_true_iff, isopt_neq, NH.
    + intros i K. apply negb_true_iff, names_eqb_neq. intros ->. pose proof (h_uid _ _ (v_h _ _ I) _ K) as X. elim (NH _ (find_hid _ _ _ _ I X)).
Qed.

(* Proofs about the in-memory storage. *)
From Coq Require Import Lia ZifyBool ZifyNat ZifyN Sorting.Sorted Permutation.
From Verif Require Import Base BaseLemmas M_Tlv S_Tlv M_Str M_Name S_Name P_NameOrder M_Ims S_Ims.

(* ---------- comparisons ---------- *)
Lemma key_eqb_eq : forall a b, key_eqb a b = true <-> a = b.
Proof.
  intros [t v] [t' v']; unfold key_eqb; cbn [fst snd]. rewrite andb_true_iff, N.eqb_eq, bytes_eqb_eq.
  split; [intros [-> ->]; reflexivity | intro H; injection H; auto].
Qed.
Lemma names_eqb_eq : forall a b, names_eqb a b = true <-> a = b.
Proof.
  induction a as [|x a IH]; intros [|y b]; cbn [names_eqb]; try (split; (reflexivity || discriminate)).
  rewrite andb_true_iff, key_eqb_eq, IH. split; [intros [-> ->]; reflexivity | intro H; injection H; auto].
Qed.
Lemma names_eqb_refl : forall a, names_eqb a a = true.
Proof. intro; now apply names_eqb_eq. Qed.
Lemma names_eqb_neq : forall a b, names_eqb a b = false <-> a <> b.
Proof.
  intros a b. rewrite <- names_eqb_eq. destruct (names_eqb a b); split; intros; try congruence; try discriminate.
Qed.
Lemma prefixb_iff : forall a b, prefixb a b = true <-> is_prefix a b.
Proof.
  unfold is_prefix. induction a as [|x a IH]; intros b; cbn [prefixb].
  - split; [intros _; exists b; reflexivity | reflexivity].
  - destruct b as [|y b].
    + split; [discriminate | intros [t E]; discriminate].
    + rewrite andb_true_iff, key_eqb_eq, IH. split.
      * intros [-> [t ->]]. exists t; reflexivity.
      * intros [t E]. injection E as -> ->. split; [reflexivity | exists t; reflexivity].
Qed.
Lemma key_ltb_lt : forall a b, key_ltb a b = true <-> key_lt a b.
Proof.
  intros a b. unfold key_ltb, key_lt.
  rewrite orb_true_iff, andb_true_iff, orb_true_iff, andb_true_iff, N.ltb_lt, N.eqb_eq, N.ltb_lt, N.eqb_eq, Z.ltb_lt, memcmp_neg. tauto.
Qed.
Lemma names_ltb_lt : forall a b, names_ltb a b = true <-> names_lt a b.
Proof.
  induction a as [|x a IH]; intros [|y b]; rewrite names_lt_lexR; cbn [names_ltb].
  - split; [discriminate | intro H; exfalso; eapply lexR_nil_r; exact H].
  - split; [intros _; apply lexR_nil_l; discriminate | reflexivity].
  - split; [discriminate | intro H; exfalso; eapply lexR_nil_r; exact H].
  - rewrite lexR_cons, orb_true_iff, andb_true_iff, key_ltb_lt, key_eqb_eq, IH, names_lt_lexR. tauto.
Qed.
Lemma names_ltb_ge : forall a b, names_ltb a b = false <-> (b = a \/ names_lt b a).
Proof.
  intros a b. destruct (names_ltb a b) eqn:E.
  - apply names_ltb_lt in E. split; [discriminate|]. intros [-> | H]; exfalso.
    + exact (names_lt_irr _ E).
    + exact (names_lt_irr _ (names_lt_trans _ _ _ E H)).
  - split; [intros _|reflexivity]. destruct (names_lt_tri a b) as [H|[H|H]]; auto.
    apply names_ltb_lt in H. congruence.
Qed.
Lemma prefix_ge : forall a b, is_prefix a b -> b = a \/ names_lt a b.
Proof.
  intros a b [t ->]. destruct t; [left; apply app_nil_r | right; left; eexists; split; [|reflexivity]; discriminate].
Qed.

Lemma q_matches_iff : forall q p, q_matches q p = true <-> q_accepts q p.
Proof.
  intros q p. unfold q_matches, q_accepts.
  destruct (nlen (q_name q) =? nlen (pk_name p) + 1) eqn:EL.
  - assert (NE : q_name q <> pk_name p) by (intro E; rewrite E in EL; lia).
    assert (NP : ~ is_prefix (q_name q) (pk_name p)) by (intros [t E]; rewrite E, nlen_app in EL; lia).
    transitivity (q_name q = pk_full p).
    2:{ split; [auto | intros [H|[H|[_ H]]]; tauto]. }
    destruct (rev (q_name q)) as [|k r] eqn:Er.
    + split; [discriminate|]. intro E. rewrite E in Er. unfold pk_full in Er. rewrite rev_app_distr in Er. discriminate.
    + destruct (fst k =? tImplicitSha256DigestComponent) eqn:Ek.
      * apply names_eqb_eq.
      * split; [discriminate|]. intro E. rewrite E in Er. unfold pk_full in Er. rewrite rev_app_distr in Er.
        cbn in Er. injection Er as <- _. cbn in Ek. discriminate.
  - assert (NF : q_name q <> pk_full p) by (intro E; rewrite E in EL; unfold pk_full in EL; rewrite nlen_app in EL; unfold nlen in EL; cbn [length] in EL; lia).
    destruct (q_cbp q).
    + rewrite prefixb_iff. split; [auto|]. intros [H|[H|[_ H]]]; try tauto. exists []. rewrite app_nil_r. congruence.
    + rewrite names_eqb_eq. split; [auto|]. intros [H|[H|[H _]]]; try tauto. discriminate.
Qed.
Lemma accepts_prefix : forall q p, q_accepts q p -> is_prefix (q_name q) (pk_full p).
Proof.
  intros q p [->|[->|[_ [t E]]]].
  - exists []; symmetry; apply app_nil_r.
  - eexists; reflexivity.
  - unfold pk_full. rewrite E, <- app_assoc. eexists; reflexivity.
Qed.

(* ---------- the sorted cache ---------- *)
Definition elt (a b : ent) : Prop := names_lt (en_full a) (en_full b).
Definition sorted (l : list ent) : Prop := StronglySorted elt l.

Lemma sorted_cons : forall e l, sorted (e :: l) <-> sorted l /\ Forall (elt e) l.
Proof. intros; split; [intro H; inversion H; auto | intros [A B]; constructor; auto]. Qed.
Lemma sorted_app : forall a b, sorted (a ++ b) <-> sorted a /\ sorted b /\ forall x y, In x a -> In y b -> elt x y.
Proof.
  induction a as [|e a IH]; intros b; cbn [app].
  - split; [intro H; splits; [constructor|exact H|intros x y []] | tauto].
  - rewrite !sorted_cons, IH, Forall_app, !Forall_forall. split.
    + intros [[A [B C]] [D E]]. splits; auto. intros x y [<-|Hx] Hy; auto.
    + intros [[A D] [B C]]. splits; auto; intros; [apply C; [right|] | apply C; [left|]]; auto.
Qed.
Lemma sorted_filter : forall f l, sorted l -> sorted (filter f l).
Proof.
  induction l as [|e l IH]; intro H; cbn [filter]; [constructor|]. apply sorted_cons in H. destruct H as [A B].
  destruct (f e); [|auto]. apply sorted_cons; split; [auto|]. rewrite Forall_forall in *. intros x Hx. apply (filter_In f) in Hx. apply B; tauto.
Qed.
Lemma sorted_full_inj : forall l a b, sorted l -> In a l -> In b l -> en_full a = en_full b -> a = b.
Proof.
  induction l as [|e l IH]; intros a b S Ha Hb E; [destruct Ha|].
  apply sorted_cons in S. destruct S as [S F]. rewrite Forall_forall in F.
  destruct Ha as [<-|Ha], Hb as [<-|Hb]; auto.
  - exfalso. specialize (F _ Hb). unfold elt in F. rewrite E in F. exact (names_lt_irr _ F).
  - exfalso. specialize (F _ Ha). unfold elt in F. rewrite E in F. exact (names_lt_irr _ F).
Qed.
Lemma ent_insert_perm : forall e l, Permutation (ent_insert e l) (e :: l).
Proof.
  induction l as [|x l IH]; cbn [ent_insert]; [reflexivity|]. destruct (names_ltb _ _); [reflexivity|].
  rewrite IH. apply perm_swap.
Qed.
Lemma ent_insert_sorted : forall e l, sorted l -> (forall x, In x l -> en_full x <> en_full e) -> sorted (ent_insert e l).
Proof.
  induction l as [|x l IH]; intros S N; cbn [ent_insert].
  - apply sorted_cons; split; constructor.
  - apply sorted_cons in S. destruct S as [S F]. destruct (names_ltb _ _) eqn:E.
    + apply names_ltb_lt in E. apply sorted_cons; split; [apply sorted_cons; auto|]. constructor; [exact E|].
      rewrite Forall_forall in *. intros y Hy. eapply names_lt_trans; [exact E | apply F; exact Hy].
    + apply names_ltb_ge in E. apply sorted_cons; split.
      * apply IH; [exact S|]. intros y Hy. apply N; right; exact Hy.
      * rewrite Forall_forall in *. intros y Hy. apply (Permutation_in _ (ent_insert_perm e l)) in Hy.
        destruct Hy as [<-|Hy]; [|auto]. destruct E as [E|E]; [|exact E]. exfalso. apply (N x); [left; reflexivity | exact E].
Qed.

Lemma im_lower_spec : forall n l, sorted l ->
  l = fst (im_lower n l) ++ snd (im_lower n l) /\
  (forall x, In x (fst (im_lower n l)) -> names_lt (en_full x) n) /\
  (forall x, In x (snd (im_lower n l)) -> en_full x = n \/ names_lt n (en_full x)).
Proof.
  induction l as [|e l IH]; intro S; cbn [im_lower].
  - splits; cbn; auto; intros x [].
  - apply sorted_cons in S. destruct S as [S F]. destruct (names_ltb (en_full e) n) eqn:E.
    + specialize (IH S). destruct (im_lower n l) as [a b]. cbn [fst snd] in *. destruct IH as (IH & A & B).
      splits; auto; [cbn [app]; f_equal; exact IH|]. intros x [<-|Hx]; auto. apply names_ltb_lt; exact E.
    + apply names_ltb_ge in E. cbn [fst snd]. splits; [reflexivity | intros x [] |].
      rewrite Forall_forall in F.
      intros x [<-|Hx]; [destruct E; auto|]. right. specialize (F _ Hx). unfold elt in F. destruct E as [E|E]; [rewrite E; exact F | exact (names_lt_trans _ _ _ E F)].
Qed.

(* in a sorted list from lower_bound, the entries under the prefix come first *)
Lemma under_first : forall n e l, sorted (e :: l) -> (en_full e = n \/ names_lt n (en_full e)) ->
  ~ is_prefix n (en_full e) -> forall x, In x l -> ~ is_prefix n (en_full x).
Proof.
  intros n e l S G NP x Hx [t E]. apply sorted_cons in S. destruct S as [_ F]. rewrite Forall_forall in F. specialize (F _ Hx).
  unfold elt in F. rewrite E in F. apply NP.
  destruct (names_prefix_between n [] (en_full e) t) as [c Ec].
  - rewrite app_nil_r. destruct G as [G|G]; auto.
  - left; exact F.
  - exists c; exact Ec.
Qed.

Lemma find_in_iff : forall (f : ent -> bool) l, List.find f l = None <-> forall x, In x l -> f x = false.
Proof.
  intros f l; split; [apply find_none|]. induction l as [|e l IH]; intro H; cbn [List.find]; [reflexivity|].
  rewrite (H e) by (left; reflexivity). apply IH. intros; apply H; right; auto.
Qed.
Lemma im_lookup_some : forall f s e, im_lookup f s = Some e -> In e (im_cache s) /\ en_full e = f.
Proof. intros f s e H. apply find_some in H. destruct H as [A B]. apply names_eqb_eq in B. auto. Qed.
Lemma im_lookup_none : forall f s, im_lookup f s = None -> forall e, In e (im_cache s) -> en_full e <> f.
Proof. intros f s H e He. apply names_eqb_neq. exact (find_none _ _ H _ He). Qed.
Lemma im_lookup_in : forall s e, sorted (im_cache s) -> In e (im_cache s) -> im_lookup (en_full e) s = Some e.
Proof.
  intros s e S I. destruct (im_lookup (en_full e) s) as [x|] eqn:E.
  - apply im_lookup_some in E. destruct E as [A B]. f_equal. eapply sorted_full_inj; eauto.
  - exfalso. exact (im_lookup_none _ _ E _ I eq_refl).
Qed.

(* ---------- lookups ---------- *)
Lemma right_spec : forall q l, sorted l -> (forall x, In x l -> en_full x = q_name q \/ names_lt (q_name q) (en_full x)) ->
  match im_right q l with
  | Some e => exists a b, l = a ++ e :: b /\ q_matches q (en_pk e) = true /\ (q_mbf q = true -> en_fresh e = true) /\
              forall x, In x a -> q_matches q (en_pk x) = false \/ (q_mbf q = true /\ en_fresh x = false)
  | None => forall x, In x l -> q_matches q (en_pk x) = false \/ (q_mbf q = true /\ en_fresh x = false)
  end.
Proof.
  induction l as [|e l IH]; intros S G; cbn [im_right]; [intros x []|].
  assert (S' := S). apply sorted_cons in S. destruct S as [S F].
  assert (Gl : forall x, In x l -> en_full x = q_name q \/ names_lt (q_name q) (en_full x)) by (intros; apply G; right; auto).
  specialize (IH S Gl).
  assert (step : forall b, (q_matches q (en_pk e) = false \/ (q_mbf q = true /\ en_fresh e = false)) ->
     b = im_right q l -> match b with
  | Some e0 => exists a b, e :: l = a ++ e0 :: b /\ q_matches q (en_pk e0) = true /\ (q_mbf q = true -> en_fresh e0 = true) /\
              forall x, In x a -> q_matches q (en_pk x) = false \/ (q_mbf q = true /\ en_fresh x = false)
  | None => forall x, In x (e :: l) -> q_matches q (en_pk x) = false \/ (q_mbf q = true /\ en_fresh x = false)
  end).
  { intros b He ->. destruct (im_right q l) as [e0|].
    - destruct IH as (a & b & -> & A & B & C). exists (e :: a), b. splits; auto. intros x [<-|Hx]; auto.
    - intros x [<-|Hx]; auto. }
  destruct (q_mbf q && negb (en_fresh e)) eqn:Em.
  - apply andb_true_iff in Em. destruct Em as [Em Ef]. apply negb_true_iff in Ef. apply step; auto.
  - destruct (prefixb (q_name q) (en_full e)) eqn:Ep.
    + destruct (q_matches q (en_pk e)) eqn:Eq.
      * exists [], l. splits; auto; [|intros x []]. intro Hm. rewrite Hm in Em. cbn in Em. now apply negb_false_iff in Em.
      * apply step; auto.
    + assert (NP : ~ is_prefix (q_name q) (en_full e)) by (intro H; apply prefixb_iff in H; congruence).
      assert (nomatch : forall x, ~ is_prefix (q_name q) (en_full x) -> q_matches q (en_pk x) = false).
      { intros x Hx. destruct (q_matches q (en_pk x)) eqn:E; [|reflexivity]. exfalso. apply Hx. apply accepts_prefix, q_matches_iff; exact E. }
      intros x [<-|Hx]; left; apply nomatch; auto.
      eapply under_first; [exact S' | apply G; left; reflexivity | exact NP | exact Hx].
Qed.

Lemma nextFresh_spec : forall l, exists a, l = a ++ im_nextFresh l /\ (forall x, In x a -> en_fresh x = false) /\
  match im_nextFresh l with e :: _ => en_fresh e = true | [] => True end.
Proof.
  induction l as [|e l IH]; cbn [im_nextFresh].
  - exists []; splits; auto; intros x [].
  - destruct (en_fresh e) eqn:E.
    + exists []; splits; auto. intros x [].
    + destruct IH as (a & A & B & C). exists (e :: a). splits; auto; [cbn; f_equal; exact A|]. intros x [<-|Hx]; auto.
Qed.

(* the whole of selectChild, started one before lower_bound *)
Lemma select_spec : forall q pre from, sorted (pre ++ from) -> (length pre <= 1)%nat ->
  (forall x, In x pre -> names_lt (en_full x) (q_name q)) ->
  (forall x, In x from -> en_full x = q_name q \/ names_lt (q_name q) (en_full x)) ->
  match im_selectChild q (pre ++ from) with
  | Some e => exists a b, pre ++ from = a ++ e :: b /\ q_matches q (en_pk e) = true /\ (q_mbf q = true -> en_fresh e = true) /\
              forall x, In x a -> q_matches q (en_pk x) = false \/ (q_mbf q = true /\ en_fresh x = false)
  | None => forall x, In x (pre ++ from) -> q_matches q (en_pk x) = false \/ (q_mbf q = true /\ en_fresh x = false)
  end.
Proof.
  intros q pre from S L Hp Hf.
  unfold im_selectChild.
  assert (D : exists a, pre ++ from = a ++ (if q_mbf q then im_nextFresh (pre ++ from) else pre ++ from) /\
     (forall x, In x a -> q_mbf q = true /\ en_fresh x = false) /\
     match (if q_mbf q then im_nextFresh (pre ++ from) else pre ++ from) with e :: _ => q_mbf q = true -> en_fresh e = true | [] => True end).
  { destruct (q_mbf q).
    - destruct (nextFresh_spec (pre ++ from)) as (a & A & B & C). exists a. splits; auto. destruct (im_nextFresh _); auto.
    - exists []. splits; auto; [intros x [] | destruct (pre ++ from); auto; discriminate]. }
  destruct D as (a & A & B & C). destruct (if q_mbf q then _ else _) as [|e l] eqn:El.
  - rewrite app_nil_r in A. intros x Hx. right. apply B. congruence.
  - destruct (q_matches q (en_pk e)) eqn:Em.
    + exists a, l. splits; auto.
    + assert (Sl : sorted l) by (rewrite A in S; apply sorted_app in S; destruct S as (_ & S & _); apply sorted_cons in S; tauto).
      assert (Gl : forall x, In x l -> en_full x = q_name q \/ names_lt (q_name q) (en_full x)).
      { intros x Hx. destruct pre as [|y [|z pre]]; cbn [length] in L; try lia.
        - apply Hf. cbn [app] in A. rewrite A. apply in_or_app; right; right; exact Hx.
        - apply Hf. cbn [app] in A. destruct a as [|w a]; cbn [app] in A; injection A as -> ->; [exact Hx|].
          apply in_or_app; right; right; exact Hx. }
      pose proof (right_spec q l Sl Gl) as R. destruct (im_right q l) as [e0|].
      * destruct R as (a0 & b0 & R1 & R2 & R3 & R4). exists (a ++ e :: a0), b0. splits; auto.
        -- rewrite A, R1, <- app_assoc. reflexivity.
        -- intros x Hx. apply in_app_or in Hx. destruct Hx as [Hx|[<-|Hx]]; auto.
      * intros x Hx. rewrite A in Hx. apply in_app_or in Hx. destruct Hx as [Hx|[<-|Hx]]; auto.
Qed.

Definition answer {A B C} (r : res (A * B * C)) : option C := match r with Ok (_, _, c) => Some c | Err _ => None end.

Lemma findName_leftmost : forall n s, sorted (im_cache s) -> forall c, answer (im_findName n s) = Some c ->
  leftmost (fun p => In p (stored s) /\ is_prefix n (pk_full p)) c.
Proof.
  intros n s S c. unfold im_findName. destruct (im_lower_spec n (im_cache s) S) as (E & A & B).
  destruct (im_lower n (im_cache s)) as [a b]. cbn [fst snd] in *.
  assert (notA : forall e, In e a -> ~ is_prefix n (en_full e)).
  { intros e He Hp. specialize (A _ He). destruct (prefix_ge _ _ Hp) as [H|H]; [rewrite H in A; exact (names_lt_irr _ A) | exact (names_lt_irr _ (names_lt_trans _ _ _ A H))]. }
  destruct b as [|e b].
  - cbn. intro H; injection H as <-. cbn. intros p [Hp Hq]. unfold stored in Hp. apply in_map_iff in Hp. destruct Hp as (x & <- & Hx).
    rewrite E, app_nil_r in Hx. exact (notA _ Hx Hq).
  - assert (Seb : sorted (e :: b)) by (rewrite E in S; apply sorted_app in S; tauto).
    destruct (prefixb n (en_full e)) eqn:Ep.
    + apply prefixb_iff in Ep. unfold found. destruct (im_afterAccess _ _); cbn; [|discriminate]. intro H; injection H as <-. cbn.
      split; [split; [|exact Ep]|].
      * unfold stored. apply in_map. rewrite E. apply in_or_app; right; left; reflexivity.
      * intros p [Hp Hq]. unfold stored in Hp. apply in_map_iff in Hp. destruct Hp as (x & <- & Hx).
        rewrite E in Hx. apply in_app_or in Hx. destruct Hx as [Hx|[<-|Hx]]; [exfalso; exact (notA _ Hx Hq) | left; reflexivity|].
        right. apply sorted_cons in Seb. destruct Seb as [_ F]. rewrite Forall_forall in F. exact (F _ Hx).
    + cbn. intro H; injection H as <-. cbn. intros p [Hp Hq]. unfold stored in Hp. apply in_map_iff in Hp. destruct Hp as (x & <- & Hx).
      assert (NP : ~ is_prefix n (en_full e)) by (intro H; apply prefixb_iff in H; congruence).
      rewrite E in Hx. apply in_app_or in Hx. destruct Hx as [Hx|[<-|Hx]]; [exact (notA _ Hx Hq) | exact (NP Hq)|].
      refine (under_first n e b Seb _ NP x Hx Hq). apply B; left; reflexivity.
Qed.

Lemma eligible_ent : forall q s p, q_eligible q s p <->
  exists e, In e (im_cache s) /\ en_pk e = p /\ q_matches q p = true /\ (q_mbf q = true -> en_fresh e = true).
Proof.
  intros q s p. unfold q_eligible, holds, stored. rewrite <- q_matches_iff. split.
  - intros [M H]. destruct (q_mbf q).
    + destruct H as (e & A & B & C). exists e; auto.
    + apply in_map_iff in H. destruct H as (e & A & B). exists e; splits; auto; discriminate.
  - intros (e & A & B & C & D). split; [exact C|]. destruct (q_mbf q); [exists e; auto | apply in_map_iff; exists e; auto].
Qed.

Lemma findInterest_leftmost : forall q s, sorted (im_cache s) ->
  (forall p, pk_full p = q_name q -> q_mbf q = true -> ~ holds s p false) ->
  forall c, answer (im_findInterest q s) = Some c -> leftmost (q_eligible q s) c.
Proof.
  intros q s S X c. unfold im_findInterest. destruct (im_lookup (q_name q) s) as [e|] eqn:EL.
  - cbn. intro H; injection H as <-. apply im_lookup_some in EL. destruct EL as [I F]. cbn. split.
    + apply eligible_ent. exists e. splits; auto.
      * apply q_matches_iff. left. symmetry; exact F.
      * intro M. destruct (en_fresh e) eqn:Ef; [reflexivity|]. exfalso. apply (X (en_pk e)); [exact F | exact M | exists e; auto].
    + intros p' E. apply eligible_ent in E. destruct E as (x & A & <- & C & D).
      apply q_matches_iff, accepts_prefix, prefix_ge in C. rewrite <- F in C. unfold en_full in *.
      destruct C as [C|C]; [left; f_equal; eapply sorted_full_inj; eauto | right; exact C].
  - destruct (im_lower_spec (q_name q) (im_cache s) S) as (E & A & B).
    destruct (im_lower (q_name q) (im_cache s)) as [a b]. cbn [fst snd] in *.
    assert (notA : forall e, In e a -> q_matches q (en_pk e) = false).
    { intros e He. destruct (q_matches q (en_pk e)) eqn:M; [|reflexivity]. exfalso. apply q_matches_iff, accepts_prefix, prefix_ge in M.
      specialize (A _ He). unfold en_full in A. destruct M as [M|M]; [rewrite M in A; exact (names_lt_irr _ A) | exact (names_lt_irr _ (names_lt_trans _ _ _ A M))]. }
    destruct b as [|e0 b0].
    + cbn. intro H; injection H as <-. cbn. intros p Ep. apply eligible_ent in Ep. destruct Ep as (x & Hx & <- & M & _).
      rewrite E, app_nil_r in Hx. rewrite (notA _ Hx) in M; discriminate.
    + set (b := e0 :: b0) in *.
      assert (P : exists a' pre, a = a' ++ pre /\ (length pre <= 1)%nat /\ match rev a with x :: _ => x :: b | [] => b end = pre ++ b).
      { destruct a as [|x a _] using rev_ind; [exists [], []; splits; auto|]. rewrite rev_app_distr. cbn. exists a, [x]. splits; auto. }
      destruct P as (a' & pre & Ea & Lp & ->).
      assert (Sp : sorted (pre ++ b)) by (rewrite E, Ea, <- app_assoc in S; apply sorted_app in S; tauto).
      pose proof (select_spec q pre b Sp Lp) as R.
      assert (H1 : forall x, In x pre -> names_lt (en_full x) (q_name q)) by (intros; apply A; rewrite Ea; apply in_or_app; auto).
      specialize (R H1 B).
      destruct (im_selectChild q (pre ++ b)) as [e|].
      * unfold found. destruct (im_afterAccess _ _); cbn; [|discriminate]. intro H; injection H as <-. cbn.
        destruct R as (l1 & l2 & R1 & R2 & R3 & R4). split.
        -- apply eligible_ent. exists e. splits; auto. rewrite E, Ea, <- app_assoc, R1. apply in_or_app; right. apply in_or_app; right; left; reflexivity.
        -- intros p' Ep. apply eligible_ent in Ep. destruct Ep as (x & Hx & <- & M & D).
           rewrite E, Ea, <- app_assoc, R1 in Hx. apply in_app_or in Hx. destruct Hx as [Hx|Hx].
           { rewrite notA in M; [discriminate | rewrite Ea; apply in_or_app; auto]. }
           apply in_app_or in Hx. destruct Hx as [Hx|[<-|Hx]]; [|left; reflexivity|].
           { destruct (R4 _ Hx) as [H|[H H']]; [congruence | rewrite (D H) in H'; discriminate]. }
           right. rewrite R1 in Sp. apply sorted_app in Sp. destruct Sp as (_ & Sp & _). apply sorted_cons in Sp. destruct Sp as [_ F].
           rewrite Forall_forall in F. exact (F _ Hx).
      * cbn. intro H; injection H as <-. cbn. intros p Ep. apply eligible_ent in Ep. destruct Ep as (x & Hx & <- & M & D).
        rewrite E, Ea, <- app_assoc in Hx. apply in_app_or in Hx. destruct Hx as [Hx|Hx].
        { rewrite notA in M; [discriminate | rewrite Ea; apply in_or_app; auto]. }
        destruct (R _ Hx) as [H|[H H']]; [congruence | rewrite (D H) in H'; discriminate].
Qed.

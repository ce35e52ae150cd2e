(* The operations of the in-memory storage preserve its invariant, and what each does. *)
From Coq Require Import Lia ZifyBool ZifyNat ZifyN Sorting.Sorted Permutation.
From Verif Require Import Base BaseLemmas M_Tlv S_Tlv M_Str M_Name S_Name P_NameOrder M_Ims S_Ims P_Ims P_ImsI.

Definition fixedParts (s s' : ims) : Prop := im_limit s' = im_limit s /\ im_policy s' = im_policy s.
(* every eviction in o, which follows h, is of a victim *)
Definition evicts_ok (pol : policy) (h o : list iobs) : Prop :=
  forall o1 f o2, o = o1 ++ OEvict f :: o2 -> victim pol (h ++ o1) f.
Lemma evicts_none : forall pol h o, (forall f, ~ In (OEvict f) o) -> evicts_ok pol h o.
Proof. intros pol h o H o1 f o2 ->. exfalso. apply (H f). apply in_or_app; right; left; reflexivity. Qed.

Lemma Inv_init : forall pol sched L, 16 <= L -> (pol = PERSISTENT -> L = SIZE_MAX) -> Inv 0 [] (im_init pol sched L).
Proof.
  intros pol sched L H P. unfold im_init. change MIN_CAPACITY with 16.
  replace (negb (L =? SIZE_MAX) && (L <? 16)) with false by (destruct (L <? 16) eqn:E; [lia | rewrite andb_false_r; reflexivity]).
  unfold im_push. cbn [im_set im_policy im_limit im_cap im_n im_cache im_free im_new im_index im_sched].
  rewrite app_nil_r. constructor; cbn [im_set im_policy im_limit im_cap im_n im_cache im_free im_new im_index map app]; auto; try lia; try reflexivity.
  - constructor.
  - apply NoDup_rev, seq_NoDup.
  - intros p Hp. apply in_rev, in_seq in Hp. lia.
  - intro f; split; [intro X; destruct (present_nil _ X) | intros (e & [] & _)].
  - intros lru f; split; [intros [] | intro X; destruct (present_nil _ X)].
  - destruct pol; cbn; [constructor | constructor | | exact Logic.I]. unfold lfu_ok; splits; [constructor | constructor | intros x [] | intros x []].
Qed.

Lemma insert_spec : forall k h s p w, Inv k h s -> k < 2 ^ 60 ->
  exists s' o, im_insert p w s = Ok (s', o) /\ Inv (k + 1) (h ++ o) s' /\ fixedParts s s' /\ evicts_ok (im_policy s) h o /\
  ((In p (stored s) \/ exists x, In x (stored s) /\ pk_full x = pk_full p) /\ s' = s /\ o = [] \/
   (forall x, In x (stored s) -> pk_full x <> pk_full p) /\
   exists e, en_pk e = p /\ en_fresh e = true /\
   (im_n s < im_limit s /\ im_n s' = im_n s + 1 /\ im_cache s' = ent_insert e (im_cache s) \/
    im_n s = im_limit s /\ im_n s' = im_n s /\ exists v, In v (im_cache s) /\
    im_cache s' = ent_insert e (filter (fun x => negb (names_eqb (en_full x) (en_full v))) (im_cache s)))).
Proof.
  intros k h s p w I K. unfold im_insert. destruct (im_lookup (pk_full p) s) as [x|] eqn:EL.
  - exists s, []. apply im_lookup_some in EL. destruct EL as [A B]. splits; auto.
    + rewrite app_nil_r. eapply Inv_mono; [|exact I]. lia.
    + split; reflexivity.
    + apply evicts_none. intros f [].
    + left. splits; auto. right. exists (en_pk x). split; [apply in_map; exact A | exact B].
  - assert (NF := im_lookup_none _ _ EL).
    assert (NS : forall x, In x (stored s) -> pk_full x <> pk_full p) by (intros x Hx; apply in_map_iff in Hx; destruct Hx as (e & <- & He); exact (NF _ He)).
    destruct (i_min _ _ _ I) as [M1 M2]. assert (Mc := i_cap _ _ _ I). assert (Mk := i_k _ _ _ I). assert (Ml := i_len _ _ _ I).
    assert (S1 : exists s1, (if im_isFull s && negb (im_limit s =? im_cap s) then im_setCapacity (N.min ((2 * im_cap s) mod two64) (im_limit s)) s else Ok (s, [])) = Ok (s1, [])
       /\ Inv k h s1 /\ same s s1 /\ (im_n s1 < im_cap s1 \/ im_n s = im_limit s /\ s1 = s /\ im_cap s = im_limit s) /\ (im_limit s =? im_cap s = true -> s1 = s)).
    { unfold im_isFull. destruct (im_cap s <=? im_n s) eqn:E1; cbn [andb]; [destruct (im_limit s =? im_cap s) eqn:E2; cbn [negb]|].
      - exists s. splits; auto; [unfold same; splits; reflexivity|]. right. splits; auto; lia.
      - assert (X : (2 * im_cap s) mod two64 = 2 * im_cap s) by (apply N.mod_small; unfold two64; lia). rewrite X.
        destruct (Inv_setCapacity k h s (N.min (2 * im_cap s) (im_limit s)) I) as (s1 & A & B & C & D); try lia.
        exists s1. splits; auto; [|discriminate]. left. destruct C as (_ & _ & C & _). lia.
      - exists s. splits; auto; [unfold same; splits; reflexivity|]. left. lia. }
    destruct S1 as (s1 & -> & I1 & (C1 & C2 & C3 & C4 & C5) & Hfull & Hreach). cbn [bind fst snd].
    assert (NF1 : forall x, In x (im_cache s1) -> en_full x <> pk_full p) by (rewrite C1; exact NF).
    destruct (im_isFull s1 && (im_limit s =? im_cap s)) eqn:EF.
    + apply andb_true_iff in EF. destruct EF as [EF ER]. unfold im_isFull in EF. apply N.leb_le in EF.
      destruct Hfull as [Hfull|(F1 & -> & F3)]; [lia|].
      assert (NP : im_policy s <> PERSISTENT) by (intro P; pose proof (i_pers _ _ _ I P) as X; unfold SIZE_MAX, two64 in X; lia).
      destruct (Inv_evict k h s I NP) as (v & s2 & E & Hv & V & I2 & D1 & D2 & D3 & D4 & D5 & D6); [lia|].
      rewrite E. cbn [bind fst snd]. assert (Mf := i_cap _ _ _ I2). destruct (im_free s2) as [|ptr free] eqn:Ef; [unfold nlen in Mf; cbn in Mf; lia|].
      eexists; eexists; split; [reflexivity|]. cbn [app]. splits.
      * replace (h ++ [OEvict (en_full v); OIns (pk_full p)]) with ((h ++ [OEvict (en_full v)]) ++ [OIns (pk_full p)]) by (rewrite <- app_assoc; reflexivity).
        apply Inv_add; auto. intros x Hx. rewrite D1 in Hx. apply filter_In in Hx. apply NF. tauto.
      * unfold fixedParts, im_afterInsert, setIndex. cbn [im_set im_policy im_limit]. rewrite D5. destruct (im_policy s); cbn [im_set im_policy im_limit]; auto.
      * intros o1 f o2 Eo. destruct o1 as [|a o1]; cbn in Eo.
        -- injection Eo as <- _. rewrite app_nil_r. exact V.
        -- injection Eo as <- Eo. destruct o1 as [|b o1]; cbn in Eo; [discriminate|]. injection Eo as _ Eo. destruct o1; discriminate.
      * right. split; [exact NS|]. eexists. splits; [| |right; splits; [exact F1| |]].
        4:{ exists v. split; [exact Hv|]. rewrite <- D1. unfold im_afterInsert, setIndex. cbn [im_set im_policy]. destruct (im_policy s2); reflexivity. }
        -- reflexivity.
        -- reflexivity.
        -- transitivity (im_n s2 + 1); [unfold im_afterInsert, setIndex; cbn [im_set im_policy]; destruct (im_policy s2); reflexivity | lia].
    + cbn [bind fst snd]. assert (Hlt : im_n s1 < im_cap s1).
      { destruct Hfull as [H|(F1 & -> & F3)]; [exact H|]. exfalso. unfold im_isFull in EF. apply andb_false_iff in EF. destruct EF as [EF|EF]; lia. }
      assert (Mf := i_cap _ _ _ I1). destruct (im_free s1) as [|ptr free] eqn:Ef; [unfold nlen in Mf; cbn in Mf; lia|].
      eexists; eexists; split; [reflexivity|]. cbn [app]. splits.
      * apply Inv_add; auto.
      * unfold fixedParts, im_afterInsert, setIndex. cbn [im_set im_policy im_limit]. rewrite C4. destruct (im_policy s); cbn [im_set im_policy im_limit]; auto.
      * apply evicts_none. intros f [X|[]]; discriminate.
      * right. split; [exact NS|]. eexists. splits; [| |left; splits].
        5:{ rewrite <- C1. unfold im_afterInsert, setIndex. cbn [im_set im_policy]. destruct (im_policy s1); reflexivity. }
        -- reflexivity.
        -- reflexivity.
        -- destruct (i_min _ _ _ I1) as [_ M]. lia.
        -- transitivity (im_n s1 + 1); [unfold im_afterInsert, setIndex; cbn [im_set im_policy]; destruct (im_policy s1); reflexivity | lia].
Qed.

Lemma found_spec : forall k h s e, Inv k h s -> k < 2 ^ 60 -> In e (im_cache s) ->
  exists s', found e s = Ok (s', [OAcc (en_full e)], Some (en_pk e)) /\ Inv (k + 1) (h ++ [OAcc (en_full e)]) s' /\ im_cache s' = im_cache s /\ fixedParts s s'.
Proof.
  intros k h s e I K He. destruct (Inv_access k h s e I) as (s' & A & B & C); [unfold two64; lia | exact He|].
  unfold found. rewrite A. exists s'. splits; auto. clear - A. unfold im_afterAccess in A.
  destruct (im_policy s) eqn:EP; try (injection A as <-; split; auto; fail).
  - injection A as <-. unfold fixedParts, im_afterInsert, im_beforeErase. rewrite EP. cbn [setIndex im_set im_policy]. rewrite EP. cbn. auto.
  - destruct (idx_bump _ _ _); [|discriminate]. injection A as <-. split; reflexivity.
Qed.

Definition find_post (k : N) (h : list iobs) (s : ims) (r : res (ims * list iobs * option pkt)) : Prop :=
  exists s' o c, r = Ok (s', o, c) /\ Inv (k + 1) (h ++ o) s' /\ im_cache s' = im_cache s /\ fixedParts s s' /\ (forall f, ~ In (OEvict f) o).
Lemma found_post : forall k h s e, Inv k h s -> k < 2 ^ 60 -> In e (im_cache s) -> find_post k h s (found e s).
Proof.
  intros k h s e I K He. destruct (found_spec k h s e I K He) as (s' & A & B & C & D). rewrite A. eexists; eexists; eexists. splits; eauto.
  intros f [X|[]]; discriminate.
Qed.
Lemma miss_post : forall k h s c, Inv k h s -> find_post k h s (Ok (s, [], c)).
Proof.
  intros k h s c I. exists s, [], c. splits; auto; [rewrite app_nil_r; eapply Inv_mono; [|exact I]; lia | split; reflexivity].
Qed.
Lemma findName_spec : forall k h s n, Inv k h s -> k < 2 ^ 60 -> find_post k h s (im_findName n s).
Proof.
  intros k h s n I K. unfold im_findName. destruct (im_lower_spec n _ (i_sorted _ _ _ I)) as (E & _ & _).
  destruct (snd (im_lower n (im_cache s))) as [|e l]; [apply miss_post; exact I|].
  destruct (prefixb _ _); [|apply miss_post; exact I]. apply found_post; auto. rewrite E. apply in_or_app; right; left; reflexivity.
Qed.
Lemma im_right_in : forall q l e, im_right q l = Some e -> In e l.
Proof.
  induction l as [|x l IH]; cbn [im_right]; intros e H; [discriminate|]. destruct (_ && _); [right; auto|]. destruct (prefixb _ _); [|discriminate].
  destruct (q_matches _ _); [injection H as ->; left; reflexivity | right; auto].
Qed.
Lemma im_select_in : forall q l e, im_selectChild q l = Some e -> In e l.
Proof.
  intros q l e. unfold im_selectChild. assert (A : forall x, In x (if q_mbf q then im_nextFresh l else l) -> In x l).
  { destruct (q_mbf q); [|auto]. destruct (nextFresh_spec l) as (a & E & _). intros x Hx. rewrite E. apply in_or_app; auto. }
  destruct (if q_mbf q then _ else _) as [|x l']; [discriminate|]. destruct (q_matches _ _); intro H.
  - injection H as ->. apply A; left; reflexivity.
  - apply A; right. eapply im_right_in; exact H.
Qed.
Lemma findInterest_spec : forall k h s q, Inv k h s -> k < 2 ^ 60 -> find_post k h s (im_findInterest q s).
Proof.
  intros k h s q I K. unfold im_findInterest. destruct (im_lookup _ _); [apply miss_post; exact I|].
  destruct (im_lower_spec (q_name q) _ (i_sorted _ _ _ I)) as (E & _ & _). destruct (im_lower (q_name q) (im_cache s)) as [a b]. cbn [fst snd] in E.
  destruct b as [|e0 b]; [apply miss_post; exact I|].
  destruct (im_selectChild q _) as [e|] eqn:Es; [|apply miss_post; exact I].
  apply found_post; auto. apply im_select_in in Es. rewrite E.
  destruct (rev a) as [|x r] eqn:Er; [apply in_or_app; right; exact Es|].
  destruct Es as [<-|Es]; [|apply in_or_app; right; exact Es].
  apply in_or_app; left. apply in_rev. rewrite Er. left; reflexivity.
Qed.

Lemma erasePrefix_spec : forall n l k h s, Inv k h s -> NoDup (map en_full l) -> (forall x, In x l -> In x (im_cache s)) ->
  exists taken rest s' o, l = taken ++ rest /\ im_erasePrefix n l s = (s', o) /\
    Forall (fun e => is_prefix n (pk_name (en_pk e))) taken /\
    match rest with e :: _ => ~ is_prefix n (pk_name (en_pk e)) | [] => True end /\
    Inv k (h ++ o) s' /\ fixedParts s s' /\ (forall f, ~ In (OEvict f) o) /\
    (forall x, In x (im_cache s') <-> In x (im_cache s) /\ ~ In (en_full x) (map en_full taken)).
Proof.
  induction l as [|e l IH]; intros k h s I N Hl; cbn [im_erasePrefix].
  - exists [], [], s, []. splits; auto; try (split; reflexivity); try (rewrite app_nil_r; exact I); intro x; cbn; tauto.
  - destruct (prefixb n (pk_name (en_pk e))) eqn:Ep.
    + apply prefixb_iff in Ep. cbn in N. inversion N as [|? ? N1 N2]; subst.
      assert (He : In e (im_cache s)) by (apply Hl; left; reflexivity).
      assert (I1 : Inv k (h ++ [ODel (en_full e)]) (im_freeEntry e (im_beforeErase (en_ptr e) s))) by (apply Inv_remove; auto; left; reflexivity).
      set (s1 := im_freeEntry e (im_beforeErase (en_ptr e) s)) in *.
      assert (Ec : im_cache s1 = filter (fun x => negb (names_eqb (en_full x) (en_full e))) (im_cache s)).
      { unfold s1, im_freeEntry, im_beforeErase, setIndex. destruct (im_policy s); reflexivity. }
      assert (Ff : fixedParts s s1).
      { unfold s1, fixedParts, im_freeEntry, im_beforeErase, setIndex. destruct (im_policy s) eqn:E; cbn [im_set im_limit im_policy]; rewrite ?E; auto. }
      assert (inc : forall x, In x (im_cache s1) <-> In x (im_cache s) /\ en_full x <> en_full e).
      { intro x. rewrite Ec, (filter_In (fun x => negb (names_eqb (en_full x) (en_full e)))), negb_true_iff, names_eqb_neq. tauto. }
      destruct (IH k (h ++ [ODel (en_full e)]) s1 I1 N2) as (taken & rest & s' & o & A1 & A2 & A3 & A4 & A5 & A6 & A7 & A8).
      { intros x Hx. apply inc. split; [apply Hl; right; exact Hx|]. intro X. apply N1. rewrite <- X. apply in_map; exact Hx. }
      rewrite A2. exists (e :: taken), rest, s', (ODel (en_full e) :: o). splits; auto.
      * cbn. f_equal; exact A1.
      * rewrite <- app_assoc in A5. exact A5.
      * destruct A6, Ff; split; congruence.
      * intros f [X|X]; [discriminate | exact (A7 _ X)].
      * intro x. rewrite A8, inc. cbn [map In]. split; [intros [[X Y] Z]; split; [exact X|]; intros [W|W]; [congruence|tauto] | intros [X Y]; splits; auto].
    + exists [], (e :: l), s, []. splits; auto; try (split; reflexivity); try (rewrite app_nil_r; exact I); try (intro x; cbn; tauto). intro H; apply prefixb_iff in H; congruence.
Qed.

Lemma shrink_spec : forall k h s, Inv k h s -> forall o,
  exists s', (if 2 * im_n s <? nlen (im_free s) then let! r2 := im_setCapacity (im_cap s / 2) s in Ok (fst r2, o ++ snd r2) else Ok (s, o)) = Ok (s', o) /\
    Inv k h s' /\ im_cache s' = im_cache s /\ fixedParts s s'.
Proof.
  intros k h s I o. destruct (2 * im_n s <? nlen (im_free s)) eqn:E.
  - destruct (i_min _ _ _ I) as [M1 M2]. assert (Mc := i_cap _ _ _ I). assert (Mk := i_k _ _ _ I).
    destruct (Inv_setCapacity k h s (im_cap s / 2) I) as (s' & A & B & (C1 & C2 & C3 & C4 & C5) & D); try lia.
    rewrite A. cbn [bind fst snd]. rewrite app_nil_r. exists s'. splits; auto. split; auto.
  - exists s. splits; auto. split; reflexivity.
Qed.

Lemma erase_spec : forall k h s n b, Inv k h s -> exists s' o, im_erase n b s = Ok (s', o) /\ Inv (k + 1) (h ++ o) s' /\ fixedParts s s' /\
  (forall f, ~ In (OEvict f) o) /\
  (forall x, In x (im_cache s') -> In x (im_cache s)) /\
  if b then ((forall p, In p (stored s) -> pk_full p <> n) -> forall x, In x (im_cache s) -> (In x (im_cache s') <-> ~ is_prefix n (pk_name (en_pk x))))
  else forall x, In x (im_cache s) -> (In x (im_cache s') <-> en_full x <> n).
Proof.
  intros k h s n b I. unfold im_erase. assert (Ss := i_sorted _ _ _ I). destruct b.
  - destruct (im_lower_spec n _ Ss) as (E & A & B). destruct (im_lower n (im_cache s)) as [a l]. cbn [fst snd] in *.
    assert (Sl : sorted l) by (rewrite E in Ss; apply sorted_app in Ss; tauto).
    destruct (erasePrefix_spec n l k h s I) as (taken & rest & s1 & o & A1 & A2 & A3 & A4 & A5 & A6 & A7 & A8).
    { clear - Sl. induction l as [|e l IH]; cbn; [constructor|]. apply sorted_cons in Sl. destruct Sl as [S F]. constructor; [|auto].
      intro H. apply in_map_iff in H. destruct H as (x & X & Y). rewrite Forall_forall in F. specialize (F _ Y). unfold elt in F. rewrite X in F. exact (names_lt_irr _ F). }
    { intros x Hx. rewrite E. apply in_or_app; auto. }
    rewrite A2. destruct (shrink_spec k (h ++ o) s1 A5 o) as (s2 & B1 & B2 & B3 & B4). rewrite B1.
    exists s2, o. splits; auto.
    + eapply Inv_mono; [|exact B2]. lia.
    + destruct A6, B4; split; congruence.
    + intros x Hx. rewrite B3 in Hx. apply A8 in Hx. tauto.
    + intros X x Hx. rewrite B3, A8. rewrite Forall_forall in A3. split.
      * intros [_ NT] HP. rewrite E, A1 in Hx. apply in_app_or in Hx. destruct Hx as [Hx|Hx].
        { specialize (A _ Hx). assert (PF : is_prefix n (en_full x)) by (destruct HP as [t Ht]; unfold en_full, pk_full; rewrite Ht, <- app_assoc; eexists; reflexivity).
          destruct (prefix_ge _ _ PF) as [Y|Y]; [rewrite Y in A; exact (names_lt_irr _ A) | exact (names_lt_irr _ (names_lt_trans _ _ _ A Y))]. }
        apply in_app_or in Hx. destruct Hx as [Hx|Hx]; [apply NT; apply in_map; exact Hx|].
        destruct rest as [|e rest]; [destruct Hx|]. destruct Hx as [<-|Hx]; [exact (A4 HP)|].
        assert (Sr : sorted (e :: rest)) by (rewrite A1 in Sl; apply sorted_app in Sl; tauto).
        assert (Ge : In e l) by (rewrite A1; apply in_or_app; right; left; reflexivity).
        assert (NP : ~ is_prefix n (en_full e)).
        { intros [t Ht]. unfold en_full, pk_full in Ht. destruct t as [|y t _] using rev_ind.
          - apply (X (en_pk e)); [apply in_map; rewrite E; apply in_or_app; auto|]. rewrite app_nil_r in Ht. exact Ht.
          - rewrite app_assoc in Ht. apply app_inj_tail in Ht. apply A4. exists t. tauto. }
        refine (under_first n e rest Sr (B _ Ge) NP x Hx _). destruct HP as [t Ht]. unfold en_full, pk_full. rewrite Ht, <- app_assoc. eexists; reflexivity.
      * intro NP. split; [exact Hx|]. intro H. apply in_map_iff in H. destruct H as (y & Y1 & Y2).
        assert (Hy : In y (im_cache s)) by (rewrite E, A1; apply in_or_app; right; apply in_or_app; auto).
        assert (y = x) by (exact (sorted_full_inj _ _ _ (i_sorted _ _ _ I) Hy Hx Y1)). subst y. exact (NP (A3 _ Y2)).
  - destruct (im_lookup n s) as [e|] eqn:EL.
    + apply im_lookup_some in EL. destruct EL as [He Hf].
      assert (I1 : Inv k (h ++ [ODel (en_full e)]) (im_freeEntry e (im_beforeErase (en_ptr e) s))) by (apply Inv_remove; auto; left; reflexivity).
      destruct (shrink_spec k _ _ I1 [ODel (en_full e)]) as (s2 & B1 & B2 & B3 & B4).
      assert (Ec : im_cache s2 = filter (fun x => negb (names_eqb (en_full x) (en_full e))) (im_cache s)).
      { rewrite B3. unfold im_freeEntry, im_beforeErase, setIndex. destruct (im_policy s); reflexivity. }
      assert (inc : forall x, In x (im_cache s2) <-> In x (im_cache s) /\ en_full x <> en_full e).
      { intro x. rewrite Ec, (filter_In (fun x => negb (names_eqb (en_full x) (en_full e)))), negb_true_iff, names_eqb_neq. tauto. }
      exists s2, [ODel (en_full e)]. splits; auto.
      * eapply Inv_mono; [|exact B2]. lia.
      * destruct B4 as [B4 B5]. rewrite <- B4 || idtac. unfold fixedParts. rewrite B4, B5. unfold im_freeEntry, im_beforeErase, setIndex.
        destruct (im_policy s) eqn:EP; cbn [im_set im_limit im_policy]; rewrite ?EP; auto.
      * intros f [Y|[]]; discriminate.
      * intros x Hx. apply inc in Hx. tauto.
      * intros x Hx. rewrite inc, Hf. tauto.
    + exists s, []. rewrite app_nil_r. splits; auto.
      * eapply Inv_mono; [|exact I]. lia.
      * split; reflexivity.
      * intros x Hx. split; [intros _; exact (im_lookup_none _ _ EL _ Hx) | auto].
Qed.

Lemma step_spec : forall k h s op, Inv k h s -> k < 2 ^ 60 ->
  exists s' o, im_step op s = Ok (s', o) /\ Inv (k + 1) (h ++ o) s' /\ fixedParts s s' /\ evicts_ok (im_policy s) h o.
Proof.
  intros k h s op I K. destruct op as [p w|n|q|n b|p]; cbn [im_step].
  - destruct (insert_spec k h s p w I K) as (s' & o & A & B & C & D & _). exists s', o; auto.
  - destruct (findName_spec k h s n I K) as (s' & o & c & A & B & C & D & E). rewrite A. exists s', o. splits; auto. apply evicts_none; exact E.
  - destruct (findInterest_spec k h s q I K) as (s' & o & c & A & B & C & D & E). rewrite A. exists s', o. splits; auto. apply evicts_none; exact E.
  - destruct (erase_spec k h s n b I) as (s' & o & A & B & C & D & _). exists s', o. splits; auto. apply evicts_none; exact D.
  - exists (im_stale p s), []. splits; auto.
    + rewrite app_nil_r. eapply Inv_mono; [|apply Inv_stale; exact I]. lia.
    + split; reflexivity.
    + apply evicts_none. intros f [].
Qed.

Lemma run_spec : forall ops k h s, Inv k h s -> k + nlen ops <= 2 ^ 60 ->
  exists s' o, im_run ops s = Ok (s', o) /\ Inv (k + nlen ops) (h ++ o) s' /\ fixedParts s s' /\ evicts_ok (im_policy s) h o.
Proof.
  induction ops as [|op ops IH]; intros k h s I K; cbn [im_run].
  - exists s, []. unfold nlen; cbn. rewrite app_nil_r, N.add_0_r. splits; auto; [split; reflexivity | apply evicts_none; intros f []].
  - assert (Ln : nlen (op :: ops) = 1 + nlen ops) by (unfold nlen; cbn [length]; lia).
    destruct (step_spec k h s op I) as (s1 & o1 & A & B & C & D); [lia|]. rewrite A. cbn [bind fst snd].
    destruct (IH (k + 1) (h ++ o1) s1 B) as (s2 & o2 & E & F & G & H); [lia|]. rewrite E. cbn [bind fst snd].
    exists s2, (o1 ++ o2). splits; auto.
    + rewrite app_assoc, Ln, N.add_assoc. exact F.
    + destruct C, G; split; congruence.
    + intros a f b Eq. destruct C as [_ C]. rewrite <- C. 
      assert (X : (exists c, o1 = a ++ OEvict f :: c) \/ exists c, a = o1 ++ c /\ o2 = c ++ OEvict f :: b).
      { clear - Eq. revert a Eq. induction o1 as [|x o1 IH]; intros a Eq; [right; exists a; auto|].
        destruct a as [|y a]; cbn in Eq; injection Eq as -> Eq; [left; exists o1; reflexivity|].
        destruct (IH a Eq) as [(c & ->)|(c & -> & ->)]; [left; exists c; reflexivity | right; exists c; auto]. }
      destruct X as [(c & X)|(c & -> & X)].
      * rewrite C. exact (D _ _ _ X).
      * rewrite app_assoc. exact (H _ _ _ X).
Qed.
